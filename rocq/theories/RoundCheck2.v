(** * An example in which rounding makes the E-step of learning give up *)
From Coq Require Import ZArith QArith Qcanon Lia String Permutation.
From Verif Require Import Base BaseProofs PotentialModel PotentialSpec VariableModel JoinTreeModel AssignSpec
  JoinTreeSpec JoinTreeCheck NipModel NipSpec NipCheck SliceModel SliceSpec SliceCheck LearnModel LearnSpec LearnProofs
  RoundModel RoundModel2 RoundSpec RoundSpec2.
Import ListNotations.
Open Scope nat_scope.
Local Open Scope list_scope.
Local Open Scope res_scope.

(** A chain of three binary variables.  All numbers are multiples of 2^-28, and
    the probabilities add up to one exactly. *)
Definition part (k : Z) : Qc := Q2Qc (k # (2 ^ 28)).
Definition rest (k : Z) : Qc := part (2 ^ 28 - k).
Definition chain_t : potential :=
  mkPot [2; 2] [part 26843552; part 187904822; rest 26843552; rest 187904822].
Definition chain_e : potential :=
  mkPot [2; 2] [part 26843552; part 161061277; rest 26843552; rest 161061277].
Definition chain_ones : potential := mkPot [2] [1%Qc; 1%Qc].
Definition chain : model :=
  mkModel [mkVar 2 [1%Qc; 1%Qc] (Some [part 80530637; rest 80530637]) false [] None None false 2;
           mkVar 2 [1%Qc; 1%Qc] None false [0] None None false 2;
           mkVar 2 [1%Qc; 1%Qc] None false [1] None None false 2]
    (mkJT [mkClique [0; 1] chain_t chain_t [0] false; mkClique [1; 2] chain_e chain_e [0] false]
       [mkSepset [1] chain_ones chain_ones 0 1]) [0] [1; 2] [] [] 0 0.
Definition chain_card (v : nat) : nat := 2.
(** One time step, nothing observed. *)
Definition chain_ts : time_series := mkTS [2] [[(-1)]]%Z.
Definition chain_ps : list potential :=
  [mkPot [2] [qn 1; qn 1]; mkPot [2; 2] (map qn [1; 1; 1; 1]%Z); mkPot [2; 2] (map qn [1; 1; 1; 1]%Z)].

Lemma chain_learnable : learnable chain_card chain.
Proof.
  split.
  - apply (slicesb_ok _ _ [(0, 0, 1)]); [intros; unfold chain_card; lia|]. vm_compute. reflexivity.
  - intros v Hv. do 3 (destruct v as [|v]; [apply nodupb_ok; reflexivity|]). cbn in Hv. lia.
  - intros v Hv. do 3 (destruct v as [|v]; [cbn; split; [intros; try discriminate; tauto|intros K; try reflexivity; lia]|]).
    cbn in Hv. lia.
  - intros v [].
  - exists [0; 1; 2]. split; [reflexivity|]. intros l1 v l2 E p Hp.
    do 3 (destruct l1 as [|? l1]; [inversion E; subst; vm_compute in Hp; vm_compute; tauto|injection E; clear E; intros E <-]).
    destruct l1; discriminate.
Qed.
Lemma chain_ts_ok : series_ok chain chain_ts.
Proof. split; [apply nodupb_ok; reflexivity|]. split; [intros v [<-|[]]; cbn; lia|repeat constructor]. Qed.
Lemma chain_ps_ok : params_ok chain_card chain chain_ps.
Proof.
  split; [reflexivity|]. intros v Hv.
  do 3 (destruct v as [|v]; [split; [apply wfb_ok; vm_compute; reflexivity|split; [reflexivity|apply nonnegb_ok; vm_compute; reflexivity]]|]).
  cbn in Hv. lia.
Qed.
Lemma chain_conditional : conditional_slices chain_card chain.
Proof.
  split.
  - apply Qc_is_canon. vm_compute. reflexivity.
  - intros a Ha. apply Qc_is_canon. vm_compute. reflexivity.
Qed.
Lemma chain_within : cliques_within chain_card (m_jt chain) 4.
Proof. intros [|[|i]] Hi; vm_compute in Hi |- *; lia. Qed.
Lemma chain_likelihood : likelihood chain_card chain chain_ts = 1%Qc.
Proof. apply Qc_is_canon. vm_compute. reflexivity. Qed.

(** The run up to the first pair of masses. *)
Definition first_masses (m : model) (ts : time_series) (ps : list potential)
  : res (list potential * potential * model * Qc * Qc) :=
  let* results := new_results_like (length (m_vars m)) ps in
  let* alpha := interface_potential m in
  let* m := r_reset_model double m in
  let* m := r_use_priors double m false in
  let* m := r_make_consistent_model double m in
  let* (m, m1) := r_model_prob_mass double m in
  let* (m, _) := r_insert_ts_step double ts 0 m MARK_ON in
  let* m := r_make_consistent_model double m in
  let* (m, m2) := r_model_prob_mass double m in
  Ok (results, alpha, m, m1, m2).
Definition masses_rise (r : res (list potential * potential * model * Qc * Qc)) : Prop :=
  match r with
  | Ok (_, _, _, m1, m2) => (Qc_ltb 0 m1 && Qc_ltb m1 1 && Qc_ltb 0 m2 && Qc_eq_bool m2 1)%bool = true
  | _ => False
  end.
Lemma chain_run : masses_rise (first_masses chain chain_ts chain_ps).
Proof. vm_compute. reflexivity. Qed.

Lemma double_opp : forall x, (x < 0)%Qc -> double x = Ok x -> double (- x) = Ok (- x)%Qc.
Proof.
  intros x Hx H.
  assert (Nx : (Qnum (this x) < 0)%Z). { unfold Qclt, Qlt in Hx. cbn in Hx. lia. }
  assert (NZ : forall y : Qc, (Qnum (this y) <> 0)%Z -> qzero y = false).
  { intros y Hy. unfold qzero. destruct (Qc_eq_dec y 0) as [->|]; auto. now contradiction Hy. }
  assert (E : this (- x)%Qc = (- this x)%Q).
  { unfold Qcopp, Q2Qc. cbn [this]. destruct x as [q Hq]. cbn [this]. clear -Hq.
    rewrite <- Hq at 2. apply Qred_opp. }
  unfold double in H |- *. rewrite NZ in H by lia. rewrite NZ by (rewrite E; cbn; lia).
  rewrite E. cbn [Qnum Qden Qopp]. rewrite Z.abs_opp.
  set (e := (binade (Z.abs (Qnum (this x))) (Z.pos (Qden (this x))) - 52)%Z) in *.
  set (m := nearest (Z.abs (Qnum (this x)) * 2 ^ Z.max 0 (- e)) (Z.pos (Qden (this x)) * 2 ^ Z.max 0 e)) in *.
  cbv zeta in H |- *.
  destruct ((e <? -1074) || (971 <? e) || ((e =? 971) && (m =? 2 ^ 53)))%Z%bool; [discriminate|].
  rewrite (proj2 (Z.ltb_lt _ _) Nx) in H. rewrite (proj2 (Z.ltb_ge _ _)) by lia.
  f_equal. injection H as H. rewrite <- H. unfold scaled. apply Qc_is_canon. cbn [this Qcopp Q2Qc].
  rewrite !Qred_correct. unfold Qeq, Qopp. cbn [Qnum Qden]. ring.
Qed.

Lemma rise_bad_luck : forall m ts ps (log : Qc -> Qc), length (ts_data ts) = 1 -> masses_rise (first_masses m ts ps) ->
  log 1%Qc = 0%Qc -> (forall x, 0 < x -> x < 1 -> log x < 0)%Qc ->
  (forall x, (0 < x)%Qc -> double (log x) = Ok (log x)) ->
  exists m' ll, r_e_step double (log_account double log) m ts ps = Ok (m', ps, ll, BAD_LUCK).
Proof.
  intros m ts ps log HT R L1 L2 L3. unfold masses_rise, first_masses in R.
  unfold r_e_step. rewrite HT. cbv zeta.
  destruct (new_results_like (length (m_vars m)) ps) as [rs| |]; cbn [bind] in R |- *; [|destruct R|destruct R].
  destruct (interface_potential m) as [al| |]; cbn [bind] in R |- *; [|destruct R|destruct R].
  destruct (r_reset_model double m) as [ma| |]; cbn [bind] in R |- *; [|destruct R|destruct R].
  destruct (r_use_priors double ma false) as [mb| |]; cbn [bind] in R |- *; [|destruct R|destruct R].
  cbn [r_e_forward]. unfold r_e_forward_step. change (0 <? 0) with false. cbv iota zeta. cbn [bind].
  destruct (r_make_consistent_model double mb) as [mc| |]; cbn [bind] in R |- *; [|destruct R|destruct R].
  destruct (r_model_prob_mass double mc) as [[md z1]| |]; cbn [bind] in R |- *; [|destruct R|destruct R].
  change (Z.of_nat 0) with 0%Z.
  destruct (r_insert_ts_step double ts 0 md MARK_ON) as [[me e]| |]; cbn [bind] in R |- *; [|destruct R|destruct R].
  destruct (r_make_consistent_model double me) as [mf| |]; cbn [bind] in R |- *; [|destruct R|destruct R].
  destruct (r_model_prob_mass double mf) as [[mg z2]| |]; cbn [bind] in R |- *; [|destruct R|destruct R].
  rewrite !andb_true_iff in R. destruct R as (((R1 & R2) & R3) & R4).
  rewrite R1, R3. cbn [andb negb orb]. apply Qc_ltb_true in R1, R2. apply Qc_eq_bool_correct in R4. subst z2.
  cbn [l_add log_account l_first l_positive]. rewrite L1.
  assert (Hl := L2 z1 R1 R2). assert (Hd := double_opp _ Hl (L3 z1 R1)).
  replace (0 - log z1)%Qc with (- log z1)%Qc by ring. rewrite Hd. cbn [bind].
  replace (0 + - log z1)%Qc with (- log z1)%Qc by ring. rewrite Hd. cbn [bind].
  rewrite (proj2 (Qc_ltb_true 0 (- log z1)%Qc)).
  - cbn [bind]. eauto.
  - replace 0%Qc with (- 0)%Qc by ring. unfold Qclt, Qlt in *. 
    apply Qclt_minus_iff. replace (- log z1 + - - 0)%Qc with (0 + - log z1)%Qc by ring. now apply Qclt_minus_iff in Hl.
Qed.
Lemma chain_bad_luck : forall log : Qc -> Qc,
  log 1%Qc = 0%Qc -> (forall x, 0 < x -> x < 1 -> log x < 0)%Qc ->
  (forall x, (0 < x)%Qc -> double (log x) = Ok (log x)) ->
  exists m' ll, r_e_step double (log_account double log) chain chain_ts chain_ps = Ok (m', chain_ps, ll, BAD_LUCK).
Proof. intros log. apply rise_bad_luck; [reflexivity|exact chain_run]. Qed.

(** Without rounding the same call succeeds. *)
Lemma chain_exact : exists m' ps' ll, e_step chain chain_ts chain_ps = Ok (m', ps', ll, NO_ERROR).
Proof. eexists. eexists. eexists. vm_compute. reflexivity. Qed.
