(** * An example in which rounding makes learning give up *)
From Coq Require Import ZArith QArith Qcanon Lia String Permutation.
From Verif Require Import Base BaseProofs PotentialModel PotentialSpec VariableModel JoinTreeModel AssignSpec
  JoinTreeSpec JoinTreeCheck NipModel NipSpec NipCheck SliceModel SliceSpec SliceCheck LearnModel LearnSpec LearnProofs
  RoundModel RoundModel2 RoundModel3 RoundSpec RoundSpec2 RoundSpec3 RoundCheck2.
Import ListNotations.
Open Scope nat_scope.
Local Open Scope list_scope.
Local Open Scope res_scope.

(** A chain as in RoundCheck2.v, with a prior of one half. *)
Definition half : Z := (2 ^ 27)%Z.
Definition fair_t : potential :=
  mkPot [2; 2] [part 144367418; part 166565507; rest 144367418; rest 166565507].
Definition fair_e : potential :=
  mkPot [2; 2] [part 28092518; part 90313380; rest 28092518; rest 90313380].
Definition fair : model :=
  mkModel [mkVar 2 [1%Qc; 1%Qc] (Some [part half; rest half]) false [] None None false 2;
           mkVar 2 [1%Qc; 1%Qc] None false [0] None None false 2;
           mkVar 2 [1%Qc; 1%Qc] None false [1] None None false 2]
    (mkJT [mkClique [0; 1] fair_t fair_t [0] false; mkClique [1; 2] fair_e fair_e [0] false]
       [mkSepset [1] chain_ones chain_ones 0 1]) [0] [1; 2] [] [] 0 0.

Lemma fair_learnable : learnable chain_card fair.
Proof.
  split.
  - apply (slicesb_ok _ _ [(0, 0, 1)]); [intros; unfold chain_card; lia|]. vm_compute. reflexivity.
  - intros v Hv. do 3 (destruct v as [|v]; [apply nodupb_ok; reflexivity|]). cbn in Hv. lia.
  - intros v Hv. do 3 (destruct v as [|v]; [cbn; split; [intros; try discriminate; tauto|intros K; try reflexivity; lia]|]).
    cbn in Hv. lia.
  - intros v [].
  - exists [0; 1; 2]. split; [reflexivity|]. intros l1 v l2 E p Hp.
    do 3 (destruct l1 as [|? l1]; [inversion E; subst; vm_compute in Hp; vm_compute; tauto|injection E; clear E; intros E <-]).
    destruct l1; discriminate.
Qed.
Lemma fair_ts_ok : Forall (series_ok fair) [chain_ts].
Proof. constructor; [|constructor]. split; [apply nodupb_ok; reflexivity|]. split; [intros v [<-|[]]; cbn; lia|repeat constructor]. Qed.
Lemma fair_conditional : conditional_slices chain_card fair.
Proof.
  split.
  - apply Qc_is_canon. vm_compute. reflexivity.
  - intros a Ha. apply Qc_is_canon. vm_compute. reflexivity.
Qed.
Lemma fair_within : cliques_within chain_card (m_jt fair) 4.
Proof. intros [|[|i]] Hi; vm_compute in Hi |- *; lia. Qed.
Lemma fair_likelihood : likelihood chain_card fair chain_ts = 1%Qc.
Proof. apply Qc_is_canon. vm_compute. reflexivity. Qed.
Lemma fair_initial : initial_ok chain_card fair None.
Proof.
  intros k v a Hk Hv HI Ha E. assert (A0 := Ha 0). assert (A1 := Ha 1). assert (A2 := Ha 2). unfold chain_card in A0, A1, A2.
  apply (f_equal this) in E. revert E.
  destruct k as [|[|k]]; [| |cbn in Hk; lia]; destruct v as [|[|[|v]]]; try (cbn in Hv; lia);
    try (exfalso; specialize (HI _ (or_introl eq_refl)); vm_compute in HI; lia);
    try (exfalso; specialize (HI _ (or_intror (or_introl eq_refl))); vm_compute in HI; lia).
  all: unfold den; cbn -[cell this fair_t fair_e];
    try destruct (a 0) as [|[|]]; try lia; try destruct (a 1) as [|[|]]; try lia; try destruct (a 2) as [|[|]]; try lia; vm_compute; discriminate.
Qed.

(** The run up to the first pair of masses of the first round. *)
Definition learn_masses (m : model) (ts : time_series) : res (list potential * potential * model * Qc * Qc) :=
  let* ps := new_parameters m in
  let* (m, ps, e) := r_initial_parameters double m None ps in
  let* (m, ps, e') := r_m_step double m ps in
  let* ps := for_up 0 (length (m_vars m))
        (fun v l => let* p := rd l v in let* p := uniform_potential p 1%Qc in wr l v p) ps in
  if (is_err e || is_err e')%bool then UB else first_masses m ts ps.
Lemma fair_run : masses_rise (learn_masses fair chain_ts).
Proof. vm_compute. reflexivity. Qed.

Lemma rise_no_learning : forall m ts (log : Qc -> Qc), length (ts_data ts) = 1 -> masses_rise (learn_masses m ts) ->
  log 1%Qc = 0%Qc -> (forall x, 0 < x -> x < 1 -> log x < 0)%Qc ->
  (forall x, (0 < x)%Qc -> double (log x) = Ok (log x)) ->
  forall (J : judge Qc) mx first curve, exists m',
  r_em_learn double (log_account double log) J m [ts] None mx first curve = Ok (m', (curve, None, BAD_LUCK)).
Proof.
  intros m ts log HT R L1 L2 L3 J mx first curve. unfold learn_masses in R. unfold r_em_learn.
  destruct (new_parameters m) as [ps| |]; cbn [bind] in R |- *; [|destruct R|destruct R].
  destruct (r_initial_parameters double m None ps) as [((m1 & ps1) & e1)| |]; cbn [bind] in R |- *; [|destruct R|destruct R].
  destruct (Nat.max MIN_EM_ITERATIONS (Z.to_nat mx)) as [|f] eqn:EM; [unfold MIN_EM_ITERATIONS in EM; lia|].
  cbn [r_em_loop]. unfold r_em_iteration.
  destruct (r_m_step double m1 ps1) as [((m2 & ps2) & e2)| |]; cbn [bind] in R |- *; [|destruct R|destruct R].
  match type of R with context [for_up 0 ?a ?b ?c] => destruct (for_up 0 a b c) as [ps3| |]; cbn [bind] in R; [|destruct R|destruct R] end.
  destruct (is_err e1); [destruct R|]. destruct (is_err e2); [destruct R|]. cbn [orb] in R.
  cbn [bind r_e_steps].
  destruct (rise_bad_luck m2 ts ps3 log HT R L1 L2 L3) as (m3 & ll & ->). cbn [bind is_err]. eauto.
Qed.
Lemma fair_refused : forall log : Qc -> Qc,
  log 1%Qc = 0%Qc -> (forall x, 0 < x -> x < 1 -> log x < 0)%Qc ->
  (forall x, (0 < x)%Qc -> double (log x) = Ok (log x)) ->
  forall (J : judge Qc) mx first curve, exists m',
  r_em_learn double (log_account double log) J fair [chain_ts] None mx first curve = Ok (m', (curve, None, BAD_LUCK)).
Proof. intros log. apply rise_no_learning; [reflexivity|exact fair_run]. Qed.

(** Without rounding the same call succeeds. *)
Lemma fair_exact : learnt (em_learn fair [chain_ts] None 100 (qr 1001 1000) (qr 1 1000) []) = true.
Proof. vm_compute. reflexivity. Qed.
