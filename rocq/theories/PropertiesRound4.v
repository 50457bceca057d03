(** * Property C90: what rounding does to learning

    The specification is in RoundSpec3.v, on top of RoundSpec.v, RoundSpec2.v and
    LearnSpec.v.  RoundModel3.v is the code of em_learn with a rounding after every
    addition, multiplication and division; what happens to the log-likelihoods is a
    parameter (an account and a judge), so that the theorems hold whatever log()
    computes.  [em_rounds] and [installed] are the rounds of C44: exact expected
    counts, exact conditional distributions. *)
From Coq Require Import String ZArith QArith Qcanon Lia.
From Verif Require Import Base PotentialModel PotentialSpec VariableModel JoinTreeModel
  AssignSpec JoinTreeSpec NipModel NipSpec SliceModel SliceSpec LearnModel LearnSpec RoundModel RoundModel2 RoundModel3
  RoundSpec RoundSpec2 RoundSpec3 RoundProofs22 RoundProofs24 RoundCheck2 RoundCheck3 JoinTreeCheck NipCheck SliceCheck LearnCheck.
Import ListNotations.
Open Scope nat_scope.
Open Scope list_scope.

(** Whatever learning returns, with or without an error: the model is, up to the
    stated number of roundings, one that exact rounds of learning install.  The new
    entries of the learning curve are one per round, and learning stops when the
    log-likelihoods say so or when an E-step gives up. *)
Theorem C90_learning : forall u rnd L (A : account L) (J : judge L) card N m ts random max_iterations first curve m' curve' d e,
  (0 <= u)%Qc -> (u < 1)%Qc -> rounding u rnd ->
  learnable card m -> Forall (series_ok m) ts -> initial_ok card m random -> cliques_within card (m_jt m) N ->
  r_em_learn rnd A J m ts random max_iterations first curve = Ok (m', (curve', d, e)) ->
  exists ps0 ls lr me ps1 ms,
    starts_from card m random ps0 /\ em_rounds card ts m ps0 ls me ps1 /\
    same_structure me ms /\ learnable card ms /\ installed card me ps1 ms /\
    model_near u (model_error m N (rounds_error m ts N (start_error random N) (length ls))) card ms m' /\ learnable card m' /\
    curve' = curve ++ lr /\ length lr <= Nat.max 3 (Z.to_nat max_iterations) /\ goes_on J max_iterations first lr /\
    ((length lr = S (length ls) /\ (exists l ps2, em_round card ts me ps1 l ms ps2) /\ stopped J max_iterations first lr d e) \/
     (length lr = length ls /\ e = BAD_LUCK /\ d = None)).
Proof. exact C90_learning_lemma. Qed.
Print Assumptions C90_learning.

(** Without overflow and subnormal numbers learning ends, and no assertion fails if
    those about the log-likelihood follow from the test that it is not positive. *)
Theorem C90_completes : forall u rnd L (A : account L) (J : judge L) card N m ts random max_iterations first curve,
  (0 <= u)%Qc -> (u < 1)%Qc -> rounding u rnd -> (forall x, exists y, rnd x = Ok y) ->
  (forall l x y, exists l', l_add A l x y = Ok l') -> l_positive A (l_first A) = false ->
  (forall l, l_positive A l = false -> j_sound J l = true) -> (forall l p, exists l', j_sum J l p = Ok l') ->
  learnable card m -> ts <> [] -> Forall (series_ok m) ts -> initial_ok card m random -> cliques_within card (m_jt m) N ->
  exists m' curve' d e, r_em_learn rnd A J m ts random max_iterations first curve = Ok (m', (curve', d, e)).
Proof. exact C90_completes_lemma. Qed.
Print Assumptions C90_completes.

(** Without rounding, the code of RoundModel3.v is that of LearnModel.v. *)
Theorem C90_exact : forall m ts random max_iterations growth tiny curve,
  bind (r_em_learn Ok exact_account (exact_judge growth) m ts random max_iterations tiny curve)
       (fun '(m', (c, d, e)) => Ok (m', mkOutcome c d e)) =
  em_learn m ts random max_iterations growth tiny curve.
Proof. exact C90_exact_lemma. Qed.
Print Assumptions C90_exact.

(** False: that learning succeeds in the format double when it does without
    rounding.  Some model for which all numbers are exact and a series of probability
    one are refused in the first round, although without rounding every round has the
    likelihood one. *)
Theorem C90_learns_refuted :
  exists card m s, learnable card m /\ conditional_slices card m /\ Forall (series_ok m) [s] /\ initial_ok card m None /\
    cliques_within card (m_jt m) 4 /\ likelihood card m s = 1%Qc /\
    learnt (em_learn m [s] None 100 (qr 1001 1000) (qr 1 1000) []) = true /\
    forall log : Qc -> Qc,
      log 1%Qc = 0%Qc -> (forall x, 0 < x -> x < 1 -> log x < 0)%Qc ->
      (forall x, (0 < x)%Qc -> double (log x) = Ok (log x)) ->
      forall (J : judge Qc) max_iterations first curve, exists m',
        r_em_learn double (log_account double log) J m [s] None max_iterations first curve = Ok (m', (curve, None, BAD_LUCK)).
Proof.
  exists chain_card, fair, chain_ts.
  exact (conj fair_learnable (conj fair_conditional (conj fair_ts_ok (conj fair_initial (conj fair_within
    (conj fair_likelihood (conj fair_exact fair_refused))))))).
Qed.
Print Assumptions C90_learns_refuted.

(** ** Cases

    [dbn] of SliceCheck.v: a hidden Markov model with an input, three steps with
    missing values. *)
Example C90_case : learnable dbn_card dbn /\ Forall (series_ok dbn) [dbn_ts] /\ initial_ok dbn_card dbn None /\
  cliques_within dbn_card (m_jt dbn) 12 /\
  model_error dbn 12 12 = 200 /\ round_error dbn [dbn_ts] 12 12 = 1510.
Proof.
  split; [exact dbn_learnable|]. split; [constructor; [exact dbn_ts_ok|constructor]|]. split; [exact dbn_initial|].
  split; [intros [|[|[|i]]] Hi; vm_compute in Hi |- *; lia|]. split; reflexivity.
Qed.

(** An account and a judge as [C90_completes] asks for: those without rounding. *)
Example C90_case_judge : forall growth,
  (forall l x y, exists l', l_add exact_account l x y = Ok l') /\ l_positive exact_account (l_first exact_account) = false /\
  (forall l, l_positive exact_account l = false -> j_sound (exact_judge growth) l = true) /\
  (forall l p, exists l', j_sum (exact_judge growth) l p = Ok l').
Proof.
  intros growth. split; [intros; cbn; eauto|]. split; [reflexivity|]. split; [|intros; cbn; eauto].
  intros l H. cbn in *. now rewrite H.
Qed.

(** In the format double, three rounds with the coin of LearnCheck.v, with
    log-likelihoods that never stop it: the prior (2 / 3 and 1 / 3 without
    rounding). *)
Example C90_case_double : exists m',
  r_em_learn double (mkAccount unit tt (fun _ _ _ => Ok tt) (fun _ => false))
    (mkJudge unit tt (fun _ _ => Ok tt) (fun _ => true) (fun _ _ => false) (fun _ _ => true))
    coin [coin_ts] None 3 tt [] = Ok (m', ([tt; tt; tt], Some ITERATIONS, NO_ERROR)) /\
  option_map (map this) (v_prior (var m' 0)) = Some [6004799503160661 # 9007199254740992; 6004799503160661 # 18014398509481984]%Q.
Proof. eexists. split; vm_compute; reflexivity. Qed.
