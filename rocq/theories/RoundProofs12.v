(** * Proofs about rounded arithmetic, part 12: the theorems of C86 *)
From Coq Require Import ZArith QArith Qcanon.
From Coq Require Import String.
From Verif Require Import Base PotentialModel PotentialSpec VariableModel JoinTreeModel AssignSpec AssignProofs
  JoinTreeSpec JoinTreeProofs JoinTreeProofs2 JoinTreeProofs5 JoinTreeProofs7 NipModel NipSpec RoundModel RoundSpec RoundProofs RoundProofs2 RoundProofs3
  RoundProofs4 RoundProofs5 RoundProofs6 RoundProofs7 RoundProofs8 RoundProofs9 RoundProofs10 RoundProofs11.
Import ListNotations.
Open Scope nat_scope.
Open Scope list_scope.

Lemma le_total : forall rnd, (forall x, exists y, rnd x = Ok y) -> forall x, le_res (rt (totalised rnd) x) (rnd x).
Proof.
  intros rnd H x y E. destruct (H x) as [z Ez]. pose proof (totalised_le rnd x z Ez) as T.
  rewrite Ez. rewrite T in E. exact E.
Qed.

Lemma C86_propagation_lemma : forall u rnd card N jt jt' e,
  (0 <= u)%Qc -> (u < 1)%Qc -> rounding u rnd ->
  shape_ok card jt -> tables_nonneg jt -> is_tree jt -> running_intersection jt -> cliques_within card jt N ->
  r_make_consistent rnd jt = Ok (jt', e) ->
  e = NO_ERROR /\ same_shape jt jt' /\
  (forall a, valid card a -> near u (4 * length (sps jt)) (joint jt a) (joint jt' a)) /\
  forall k a, k < length (cls jt) -> valid card a ->
    near u (4 * length (sps jt) + length (sps jt) * (N + 2))
      (sumv card (minus (all_vars jt) (c_vars (clq jt k))) (joint jt) a) (phi jt' k a).
Proof.
  intros u rnd card N jt jt' e H0 H1 HR Hs Ht Hi Hr Hc E.
  pose proof (totalised_near u rnd H0 H1 HR) as Hfl.
  apply (le_r_make_consistent rnd _ (totalised_le rnd)) in E.
  destruct (r_make_consistent_ok u _ H0 H1 Hfl card N jt Hs Ht Hc Hi) as (j2 & E2 & K & C).
  rewrite E in E2. injection E2 as <- ->. destruct K as [Sh Ok' Nn Wi Jo].
  split; [reflexivity|]. split; [exact Sh|]. split; [exact Jo|].
  intros k a Hk Ha.
  assert (Ht' : is_tree jt') by (exact (is_tree_shape _ _ Sh Hi)).
  assert (Hr' : running_intersection jt') by (exact (rip_shape _ _ Sh Hr)).
  pose proof (all_vars_shape _ _ Sh) as Pv. destruct Sh as (L1 & L2 & Sc & Ss).
  pose proof (r_clique_marginal_ok u H0 H1 card jt' (N + 2) k a Ok' Nn Ht' Hr' C) as G.
  rewrite L1 in G. specialize (G Hk Ha). rewrite L2 in G.
  apply (near_sym u H0 H1) in G.
  eapply (near_trans u H0 H1); [|exact G].
  rewrite (proj1 (Sc k)).
  rewrite (sumv_perm card _ _ (joint jt') a (minus_perm _ _ _ Pv)) by apply joint_is_ext.
  apply (near_sumv u H0 H1); assumption.
Qed.

Lemma C86_history_lemma : forall u rnd card names m N os m',
  (0 <= u)%Qc -> (u < 1)%Qc -> rounding u rnd ->
  model_ok card m -> names_ok card m names -> cliques_within card (m_jt m) N ->
  ~ In Mass os -> Forall (op_ok card names m) os ->
  r_run rnd names m (Reset :: os) = Ok m' ->
  (forall v, v < length (m_vars m) -> v_lik (var m' v) = b_lik (learn card names m (no_belief card) os) v) /\
  forall a, valid card a -> near u (history_error m os) (believed card names m os a) (joint (m_jt m') a).
Proof.
  intros u rnd card names m N os m' H0 H1 HR Hm Hn Hc Hno Hop E.
  pose proof (totalised_near u rnd H0 H1 HR) as Hfl.
  apply (le_r_run rnd _ (totalised_le rnd)) in E.
  destruct (r_history_ok u _ H0 H1 Hfl card N names m os Hm Hn Hc Hno Hop) as (m2 & E2 & K).
  rewrite E in E2. injection E2 as <-.
  split; [exact (rn_lik _ _ _ _ _ _ K)|].
  intros a Ha. exact (rknows_joint u card _ m _ _ a K Ha).
Qed.

Lemma C86_posterior_lemma : forall u rnd card names m N os v m1 m2 o,
  (0 <= u)%Qc -> (u < 1)%Qc -> rounding u rnd ->
  model_ok card m -> names_ok card m names -> cliques_within card (m_jt m) N ->
  ~ In Mass os -> Forall (op_ok card names m) os -> v < length (m_vars m) ->
  r_run rnd names m (Reset :: os ++ [Consistent]) = Ok m1 ->
  r_get_probability rnd m1 v = Ok (m2, o) ->
  exists r, o = Some r /\ length r = card v /\
    forall x, x < card v ->
      near u (posterior_error m N os (card v))
        (sum_where card m (believed card names m os) v x / sum_all card m (believed card names m os))%Qc
        (nth x r 0%Qc).
Proof.
  intros u rnd card names m N os v m1 m2 o H0 H1 HR Hm Hn Hc Hno Hop Hv E G.
  pose proof (totalised_near u rnd H0 H1 HR) as Hfl.
  apply (le_r_run rnd _ (totalised_le rnd)) in E.
  apply (le_r_get_probability rnd _ (totalised_le rnd)) in G.
  destruct (r_posterior_ok u _ H0 H1 Hfl card N names m os v Hm Hn Hc Hno Hop Hv)
    as (m3 & m4 & r & E2 & G2 & L & K).
  rewrite E in E2. injection E2 as <-. rewrite G in G2. injection G2 as <- ->.
  exists r. auto.
Qed.

Lemma C86_completes_lemma : forall u rnd card names m N os v,
  (0 <= u)%Qc -> (u < 1)%Qc -> rounding u rnd -> (forall x, exists y, rnd x = Ok y) ->
  model_ok card m -> names_ok card m names -> cliques_within card (m_jt m) N ->
  ~ In Mass os -> Forall (op_ok card names m) os -> v < length (m_vars m) ->
  exists m1 m2 r, r_run rnd names m (Reset :: os ++ [Consistent]) = Ok m1 /\
    r_get_probability rnd m1 v = Ok (m2, Some r).
Proof.
  intros u rnd card names m N os v H0 H1 HR HT Hm Hn Hc Hno Hop Hv.
  pose proof (totalised_near u rnd H0 H1 HR) as Hfl.
  destruct (r_posterior_ok u _ H0 H1 Hfl card N names m os v Hm Hn Hc Hno Hop Hv)
    as (m3 & m4 & r & E2 & G2 & L & K).
  exists m3, m4, r. split.
  - exact (le_r_run _ rnd (le_total rnd HT) _ _ _ _ E2).
  - exact (le_r_get_probability _ rnd (le_total rnd HT) _ _ _ G2).
Qed.

Lemma near_bernoulli : forall u k x y, (0 <= u)%Qc -> (u < 1)%Qc -> near u k x y ->
  ((1 - Q2Qc (inject_Z (Z.of_nat k)) * u) * x <= y /\ (1 - Q2Qc (inject_Z (Z.of_nat k)) * u) * y <= x)%Qc.
Proof.
  intros u k x y H0 H1 H. destruct (near_nonneg u H0 H1 k x y H) as [Nx Ny]. destruct H as (_ & A & B).
  pose proof (bernoulli u H0 H1 k) as Be.
  split; [apply Qcle_trans with (2 := A)|apply Qcle_trans with (2 := B)]; apply Qcmult_le_compat_r; assumption.
Qed.

Lemma near_exact : forall k x y, near 0 k x y -> y = x.
Proof.
  intros k x y (_ & A & B).
  assert (P : (((1 - 0) ^ k)%Qc = 1%Qc)).
  { clear. induction k as [|k IH]; [reflexivity|]. rewrite pow_S, IH. reflexivity. }
  rewrite P, Qcmult_1_l in A, B. apply Qcle_antisym; assumption.
Qed.

Lemma exact_rounding : rounding 0 Ok.
Proof.
  intros x y Hx E. injection E as <-. rewrite Qcmult_0_l, Qcplus_0_r. unfold Qcminus.
  replace (x + - 0)%Qc with x by (unfold Qcminus; ring). split; apply Qcle_refl.
Qed.

Lemma r_run1_exact : forall names m o, o <> Mass -> r_run1 Ok names m o = run1 names m o.
Proof.
  intros names m [x|h| | |v|] H; cbn [r_run1 run1].
  - apply eq_bind; [|reflexivity]. destruct x; cbn [r_insert1 insert1].
    + apply eq_r_insert_hard_evidence.
    + apply eq_r_insert_soft_evidence.
  - apply eq_r_use_priors.
  - apply eq_r_reset_model.
  - apply eq_r_make_consistent_model.
  - apply eq_bind; [|reflexivity]. apply eq_r_get_probability.
  - contradiction H; reflexivity.
Qed.

Lemma r_run_exact : forall names os m, ~ In Mass os -> r_run Ok names m os = run names m os.
Proof.
  induction os as [|o os IH]; intros m H; [reflexivity|]. cbn [r_run run]. apply eq_bind.
  - apply r_run1_exact. intros ->. apply H. left. reflexivity.
  - intros m'. apply IH. intros I. apply H. right. exact I.
Qed.

Lemma C86_exact_lemma : rounding 0 Ok /\ (forall k x y, near 0 k x y -> y = x) /\
  (forall names m os, ~ In Mass os -> r_run Ok names m os = run names m os) /\
  (forall m v, r_get_probability Ok m v = get_probability m v).
Proof.
  split; [exact exact_rounding|]. split; [exact near_exact|].
  split; [intros; apply r_run_exact; assumption|]. exact eq_r_get_probability.
Qed.

Lemma C86_relative_lemma : forall u k x y, (0 <= u)%Qc -> (u < 1)%Qc -> near u k x y ->
  ((1 - Q2Qc (inject_Z (Z.of_nat k)) * u) * x <= y)%Qc /\
  ((1 - Q2Qc (inject_Z (Z.of_nat k)) * u) * y <= x)%Qc /\
  (x = 0%Qc <-> y = 0%Qc).
Proof.
  intros u k x y H0 H1 H. pose proof (near_bernoulli u k x y H0 H1 H) as [A B].
  split; [exact A|]. split; [exact B|]. exact (near_zero u H0 H1 k x y H).
Qed.

Lemma C86_double_lemma : (0 <= unit_roundoff)%Qc /\ (unit_roundoff < 1)%Qc /\ rounding unit_roundoff double /\
  forall x y, (0 < x)%Qc -> double x = Ok y ->
    exists m e, y = scaled m e /\ (2 ^ 52 <= m <= 2 ^ 53)%Z /\ (-1074 <= e <= 971)%Z /\ (e = 971 -> m < 2 ^ 53)%Z.
Proof.
  split; [discriminate|]. split; [reflexivity|]. split; [exact double_rounding|]. exact double_format.
Qed.
