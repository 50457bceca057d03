(** * Property C88: what rounding does to the E-step of learning

    The specification is in RoundSpec.v, RoundSpec2.v and LearnSpec.v.
    RoundModel2.v is the code of e_step with a rounding after every addition,
    subtraction, multiplication and division.  What happens to the logarithms of
    the masses is a parameter (an account): the theorems about the counts hold
    whatever log() computes.  [expected] is the expected count of C43, [near u k]
    as in C86. *)
From Coq Require Import String ZArith QArith Qcanon Lia.
From Verif Require Import Base PotentialModel PotentialSpec VariableModel JoinTreeModel
  AssignSpec JoinTreeSpec NipModel NipSpec SliceModel SliceSpec LearnModel LearnSpec RoundModel RoundModel2 RoundSpec
  RoundSpec2 RoundProofs18 RoundCheck2 JoinTreeCheck NipCheck SliceCheck LearnCheck.
Import ListNotations.
Open Scope nat_scope.
Open Scope list_scope.

(** Either nothing is counted, or the data are possible and every count is right
    up to rounding. *)
Theorem C88_counts : forall u rnd L (A : account L) card N m ts ps m' ps' ll e,
  (0 <= u)%Qc -> (u < 1)%Qc -> rounding u rnd ->
  slices_ok card m -> series_ok m ts -> (forall v, v < length (m_vars m) -> NoDup (family m v)) ->
  params_ok card m ps -> cliques_within card (m_jt m) N ->
  r_e_step rnd A m ts ps = Ok (m', ps', ll, e) ->
  model_ok card m' /\ same_model m m' /\
  ((e = BAD_LUCK /\ ps' = ps) \/
   (e = NO_ERROR /\ likelihood card m ts <> 0%Qc /\ params_ok card m ps' /\
    forall v ix, v < length (m_vars m) -> valid_ix (map card (family m v)) ix ->
      near u (count_error m ts N) (cell (param ps v) ix + expected card m ts v ix)%Qc (cell (param ps' v) ix))).
Proof. exact C88_counts_lemma. Qed.
Print Assumptions C88_counts.

(** Without overflow and subnormal numbers nothing goes wrong on the way. *)
Theorem C88_completes : forall u rnd L (A : account L) card N m ts ps,
  (0 <= u)%Qc -> (u < 1)%Qc -> rounding u rnd -> (forall x, exists y, rnd x = Ok y) ->
  (forall l x y, exists l', l_add A l x y = Ok l') ->
  slices_ok card m -> series_ok m ts -> (forall v, v < length (m_vars m) -> NoDup (family m v)) ->
  params_ok card m ps -> cliques_within card (m_jt m) N ->
  exists m' ps' ll e, r_e_step rnd A m ts ps = Ok (m', ps', ll, e).
Proof. exact C88_completes_lemma. Qed.
Print Assumptions C88_completes.

(** Without rounding, the code of RoundModel2.v is that of LearnModel.v. *)
Theorem C88_exact : forall m ts ps, r_e_step Ok exact_account m ts ps = e_step m ts ps.
Proof. exact C88_exact_lemma. Qed.
Print Assumptions C88_exact.

(** False: that data which the model gives a positive probability are counted.
    In the format double, with any log() that is zero at one, negative below one
    and has values of type double, some model for which all numbers are exact and
    a series of probability one (nothing is observed) are refused: the mass after
    the second propagation is larger, by rounding, than the mass before, so that
    the log-likelihood is positive. *)
Theorem C88_possible_data_refuted :
  exists card m ts ps, learnable card m /\ conditional_slices card m /\ series_ok m ts /\ params_ok card m ps /\
    cliques_within card (m_jt m) 4 /\ likelihood card m ts = 1%Qc /\
    (exists m' ps' ll, e_step m ts ps = Ok (m', ps', ll, NO_ERROR)) /\
    forall log : Qc -> Qc,
      log 1%Qc = 0%Qc -> (forall x, 0 < x -> x < 1 -> log x < 0)%Qc ->
      (forall x, (0 < x)%Qc -> double (log x) = Ok (log x)) ->
      exists m' ll, r_e_step double (log_account double log) m ts ps = Ok (m', ps, ll, BAD_LUCK).
Proof.
  exists chain_card, chain, chain_ts, chain_ps.
  exact (conj chain_learnable (conj chain_conditional (conj chain_ts_ok (conj chain_ps_ok (conj chain_within
    (conj chain_likelihood (conj chain_exact chain_bad_luck))))))).
Qed.
Print Assumptions C88_possible_data_refuted.

(** ** Cases

    [dbn] of SliceCheck.v: a hidden Markov model with an input, three steps with
    missing values. *)
Example C88_case : slices_ok dbn_card dbn /\ series_ok dbn dbn_ts /\
  (forall v, v < length (m_vars dbn) -> NoDup (family dbn v)) /\ params_ok dbn_card dbn dbn_ps /\
  cliques_within dbn_card (m_jt dbn) 12 /\ learn_error dbn dbn_ts 12 = 49 /\ count_error dbn dbn_ts 12 = 310.
Proof.
  split; [exact dbn_ok|]. split; [exact dbn_ts_ok|]. split; [exact (le_family _ _ dbn_learnable)|].
  split; [exact dbn_ps_ok|].
  split; [intros [|[|[|i]]] Hi; vm_compute in Hi |- *; lia|]. split; reflexivity.
Qed.

(** A function as the refutation asks for. *)
Example C88_case_log : exists log : Qc -> Qc,
  log 1%Qc = 0%Qc /\ (forall x, 0 < x -> x < 1 -> log x < 0)%Qc /\
  (forall x, (0 < x)%Qc -> double (log x) = Ok (log x)).
Proof.
  exists (fun x => if Qclt_le_dec x 1 then (- (1))%Qc else 0%Qc). split; [reflexivity|]. split.
  - intros x _ H. destruct (Qclt_le_dec x 1) as [_|K]; [reflexivity|]. exfalso. exact (Qclt_not_le _ _ H K).
  - intros x _. destruct (Qclt_le_dec x 1).
    + vm_compute. f_equal. apply Qc_is_canon. reflexivity.
    + reflexivity.
Qed.

(** In the format double, with an account that never stops: the counts of the
    hidden state at the start (93074 / 60551 and 149130 / 60551 without
    rounding). *)
Example C88_case_double : exists m' ps' ll,
  r_e_step double (mkAccount unit tt (fun _ _ _ => Ok tt) (fun _ => false)) dbn dbn_ts dbn_ps = Ok (m', ps', ll, NO_ERROR) /\
  map this (data (param ps' 0)) = [3461280835311403 # 2251799813685248; 5545918419429589 # 2251799813685248]%Q.
Proof. eexists. eexists. eexists. split; vm_compute; reflexivity. Qed.
