(** * Rounded arithmetic: learning with roundings that may fail, and without rounding *)
From Coq Require Import ZArith QArith Qcanon Lia String.
From Verif Require Import Base BaseProofs PotentialModel VariableModel JoinTreeModel NipModel NipSpec SliceModel
  LearnModel RoundModel RoundModel2 RoundModel3 RoundSpec RoundProofs RoundProofs3 RoundProofs10 RoundProofs11 RoundProofs18.
Import ListNotations.
Open Scope nat_scope.
Local Open Scope list_scope.
Local Open Scope res_scope.

Section Lift.
Variables rnd rnd' : Qc -> res Qc.
Hypothesis Hle : forall x, le_res (rnd x) (rnd' x).
Hint Resolve Hle : le_round.
Let H_r_general_marginalise := le_r_general_marginalise rnd rnd' Hle.
Hint Resolve H_r_general_marginalise : le_round.
Let H_r_total_marginalise := le_r_total_marginalise rnd rnd' Hle.
Hint Resolve H_r_total_marginalise : le_round.
Let H_r_normalise_array_at := le_r_normalise_array_at rnd rnd' Hle.
Hint Resolve H_r_normalise_array_at : le_round.
Let H_r_reset_model := le_r_reset_model rnd rnd' Hle.
Hint Resolve H_r_reset_model : le_round.
Lemma le_r_normalise_blocks : forall x1 x2 x3 x4 x5, le_res (r_normalise_blocks rnd x1 x2 x3 x4 x5) (r_normalise_blocks rnd' x1 x2 x3 x4 x5).
Proof. induction x1 as [|f IH]; intros; [apply le_refl_res|]. cbn [r_normalise_blocks]. le_auto. Qed.
Hint Resolve le_r_normalise_blocks : le_round.
Lemma le_r_normalise_cpd : forall x1, le_res (r_normalise_cpd rnd x1) (r_normalise_cpd rnd' x1).
Proof. intros. unfold r_normalise_cpd. le_auto. Qed.
Hint Resolve le_r_normalise_cpd : le_round.
Lemma le_r_init_potential : forall x1 x2 x3, le_res (r_init_potential rnd x1 x2 x3) (r_init_potential rnd' x1 x2 x3).
Proof. intros. unfold r_init_potential. le_auto. Qed.
Hint Resolve le_r_init_potential : le_round.
Lemma le_r_total_reset : forall x1, le_res (r_total_reset rnd x1) (r_total_reset rnd' x1).
Proof. intros. unfold r_total_reset. le_auto. Qed.
Hint Resolve le_r_total_reset : le_round.
Lemma le_r_m_step : forall x1 x2, le_res (r_m_step rnd x1 x2) (r_m_step rnd' x1 x2).
Proof. intros. unfold r_m_step. cbv zeta. le_auto. Qed.
Lemma le_r_initial_parameters : forall x1 x2 x3, le_res (r_initial_parameters rnd x1 x2 x3) (r_initial_parameters rnd' x1 x2 x3).
Proof. intros. unfold r_initial_parameters. le_auto. Qed.
End Lift.

(** ** No rounding *)
Lemma eq_r_normalise_blocks : forall x1 x2 x3 x4 x5, r_normalise_blocks Ok x1 x2 x3 x4 x5 = normalise_blocks x1 x2 x3 x4 x5.
Proof. induction x1 as [|f IH]; intros; [reflexivity|]. cbn [r_normalise_blocks normalise_blocks]. eq_auto. Qed.
Global Hint Resolve eq_r_normalise_blocks : eq_round.
Lemma eq_r_normalise_cpd : forall x1, r_normalise_cpd Ok x1 = normalise_cpd x1.
Proof. intros. unfold r_normalise_cpd, normalise_cpd. eq_auto. Qed.
Global Hint Resolve eq_r_normalise_cpd : eq_round.
Lemma eq_r_init_potential : forall x1 x2 x3, r_init_potential Ok x1 x2 x3 = init_potential x1 x2 (Some x3).
Proof. intros. unfold r_init_potential, init_potential. eq_auto. Qed.
Global Hint Resolve eq_r_init_potential : eq_round.
Lemma eq_r_total_reset : forall x1, r_total_reset Ok x1 = total_reset x1.
Proof. intros. unfold r_total_reset, total_reset. eq_auto. Qed.
Global Hint Resolve eq_r_total_reset : eq_round.
Lemma eq_r_m_step : forall x1 x2, r_m_step Ok x1 x2 = m_step x1 x2.
Proof. intros. unfold r_m_step, m_step. cbv zeta. eq_auto. Qed.
Global Hint Resolve eq_r_m_step : eq_round.
Lemma eq_r_initial_parameters : forall x1 x2 x3, r_initial_parameters Ok x1 x2 x3 = initial_parameters x1 x2 x3.
Proof. intros. unfold r_initial_parameters, initial_parameters. eq_auto. Qed.
Global Hint Resolve eq_r_initial_parameters : eq_round.
Lemma eq_r_e_steps : forall growth ts m ps L,
  r_e_steps Ok exact_account (exact_judge growth) m ts ps L = e_steps m ts ps L.
Proof.
  intros growth. induction ts as [|s ts IH]; intros; [reflexivity|]. cbn [r_e_steps e_steps].
  apply eq_bind; [apply C88_exact_lemma|]. intros (((m1 & ps1) & probe) & e). destruct (is_err e); [reflexivity|].
  cbn [j_sound j_sum exact_judge]. rewrite Bool.negb_involutive. destruct (Qc_ltb 1 probe); [reflexivity|]. cbn [bind]. apply IH.
Qed.
Lemma eq_r_em_iteration : forall growth ts s,
  r_em_iteration Ok exact_account (exact_judge growth) ts s = em_iteration ts s.
Proof.
  intros growth ts (m & ps). unfold r_em_iteration, em_iteration.
  apply eq_bind; [apply eq_r_m_step|]. intros ((m1 & ps1) & e). destruct (is_err e); [reflexivity|].
  apply eq_bind; [reflexivity|]. intros ps2. apply eq_bind; [apply eq_r_e_steps|]. intros (((m3 & ps3) & ll) & e3). reflexivity.
Qed.
Lemma eq_r_em_loop : forall S (it it' : S -> res (S * Qc * code)) growth mx, (forall s, it s = it' s) ->
  forall fuel s l i curve,
  bind (r_em_loop (exact_judge growth) it mx fuel s l i curve)
       (fun '(s, (c, d, e)) => Ok (s, mkOutcome c d e)) = em_loop it' growth mx fuel s l i curve.
Proof.
  intros S it it' growth mx H. induction fuel as [|f IH]; intros; [reflexivity|]. cbn [r_em_loop em_loop]. rewrite H.
  destruct (it' s) as [((s1 & ll) & e)| |]; cbn [bind]; auto. cbn [j_bad j_better exact_judge].
  destruct e; cbn [bind]; auto.
  destruct (Qc_ltb (ll * growth) l || Qc_ltb 1 ll)%bool; [reflexivity|].
  destruct (Nat.leb MIN_EM_ITERATIONS (i + 1)); [|apply IH].
  destruct (Qc_ltb (l * growth) ll); [|reflexivity]. destruct (mx <=? Z.of_nat (i + 1))%Z; [reflexivity|apply IH].
Qed.
Lemma C90_exact_lemma : forall m ts random mx growth tiny curve,
  bind (r_em_learn Ok exact_account (exact_judge growth) m ts random mx tiny curve)
       (fun '(m', (c, d, e)) => Ok (m', mkOutcome c d e)) = em_learn m ts random mx growth tiny curve.
Proof.
  intros m ts random mx growth tiny curve. unfold r_em_learn, em_learn. destruct ts as [|s ts]; [reflexivity|].
  destruct (new_parameters m) as [ps| |]; cbn [bind]; auto. rewrite eq_r_initial_parameters.
  destruct (initial_parameters m random ps) as [((m1 & ps1) & e)| |]; cbn [bind]; auto.
  destruct (is_err e); [reflexivity|].
  rewrite <- (eq_r_em_loop _ (r_em_iteration Ok exact_account (exact_judge growth) (s :: ts)) (em_iteration (s :: ts)) growth mx)
    by (intros; apply eq_r_em_iteration).
  destruct (r_em_loop _ _ _ _ _ _ _ _) as [(st & ((c & d) & e'))| |]; reflexivity.
Qed.
