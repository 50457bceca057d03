(** * Rounded arithmetic: histories and posteriors *)
From Coq Require Import ZArith QArith Qcanon Field Lia Permutation String.
From Verif Require Import Base BaseProofs PotentialModel PotentialSpec PotentialProofs PotentialProofs2
  PotentialProofs3 VariableModel VariableProofs JoinTreeModel AssignSpec AssignProofs JoinTreeSpec
  JoinTreeProofs JoinTreeProofs2 JoinTreeProofs3 JoinTreeProofs4 JoinTreeProofs5 JoinTreeProofs6 JoinTreeProofs7
  NipModel NipSpec NipProofs NipProofs2 NipProofs3 RoundModel RoundSpec RoundProofs RoundProofs3
  RoundProofs4 RoundProofs5 RoundProofs6 RoundProofs7 RoundProofs8.
Import ListNotations.
Open Scope nat_scope.
Local Open Scope list_scope.
Local Open Scope res_scope.
Add Field QcfieldRound9 : Qcft.

Section Histories.
Variable u : Qc.
Variable fl : Qc -> Qc.
Hypothesis Hu0 : (0 <= u)%Qc.
Hypothesis Hu1 : (u < 1)%Qc.
Hypothesis Hfl : forall x, (0 <= x)%Qc -> near u 1 x (fl x).
Variable card : nat -> nat.
Variable N : nat.
Local Notation rrep := (rrep u card).
Local Notation believed := (believed card).

Lemma r_make_consistent_model_ok : forall m, model_ok card m -> cliques_within card (m_jt m) N ->
  exists jt', r_make_consistent_model (rt fl) m = Ok (set_jt m jt') /\
    model_ok card (set_jt m jt') /\ same_model m (set_jt m jt') /\ rcalibrated u card (N + 2) jt' /\
    (forall a, valid card a -> near u (4 * length (sps (m_jt m))) (joint (m_jt m) a) (joint jt' a)).
Proof.
  intros m HM HW. unfold r_make_consistent_model.
  destruct (r_make_consistent_ok u fl Hu0 Hu1 Hfl card N (m_jt m) (mo_shape _ _ HM) (mo_nonneg _ _ HM) HW (mo_tree _ _ HM))
    as (jt' & E & K & C).
  rewrite E. cbn [bind]. exists jt'. split; auto.
  assert (S1 := rk_shape K). split; [apply model_ok_jt; auto; apply K|].
  split; [now apply same_model_jt|]. split; auto. apply K.
Qed.

Lemma rrep_jt : forall j k m jt F, rrep j m F -> same_shape (m_jt m) jt ->
  (forall a, valid card a -> near u k (joint (m_jt m) a) (joint jt a)) -> rrep (j + k) (set_jt m jt) F.
Proof.
  intros j k m jt F HR SH HJ a Ha. cbn [m_jt set_jt].
  rewrite (same_original m (set_jt m jt) a) by (now apply same_model_jt).
  eapply (near_trans u Hu0 Hu1); [|now apply HJ]. now apply HR.
Qed.

(** What holds of a model that has learned [b], up to [k] roundings. *)
Record rknows (k : nat) (m0 : model) (b : belief) (m : model) : Prop := {
  rn_ok : model_ok card m;
  rn_same : same_model m0 m;
  rn_lik : forall v, v < length (m_vars m0) -> v_lik (var m v) = b_lik b v;
  rn_done : forall v, In v (m_indep m0) -> v_entered (var m v) = b_done b v;
  rn_rep : rrep k m (priors m0 (b_active b));
  rn_k : length (m_vars m0) <= k
}.
Arguments rn_ok {k m0 b m}.
Arguments rn_same {k m0 b m}.
Arguments rn_lik {k m0 b m}.
Arguments rn_done {k m0 b m}.
Arguments rn_rep {k m0 b m}.
Arguments rn_k {k m0 b m}.

Lemma rknows_le : forall j k m0 b m, j <= k -> rknows j m0 b m -> rknows k m0 b m.
Proof.
  intros j k m0 b m H [K1 K2 K3 K4 K5 K6]. split; auto; [|lia]. now apply (rrep_le u Hu0 Hu1 card j).
Qed.

Lemma rknows_evidence : forall k m0 b m v e, rknows k m0 b m -> v < length (m_vars m0) ->
  vector_ok card v e ->
  exists m', r_enter_evidence (rt fl) m v (Some e) = Ok (m', NO_ERROR) /\
    rknows (k + 2) m0 (mkBelief (fun w => if Nat.eqb w v then e else b_lik b w)
      (if revivesb (b_lik b v) e then [] else b_active b) (b_done b)) m'.
Proof.
  intros k m0 b m v e [K1 K2 K3 K4 K5 K6] Hv He.
  assert (L : length (m_vars m) = length (m_vars m0)) by apply K2.
  destruct (r_enter_evidence_ok u fl Hu0 Hu1 Hfl card k m v e _ K1 K5) as (m' & E & A1 & A2 & A3 & A4 & A5 & A6); auto; [lia|].
  exists m'. split; auto. split; auto; [| | | |lia].
  - eapply same_model_trans; eauto.
  - intros w Hw. cbn [b_lik]. rewrite A3. destruct (Nat.eqb w v); [reflexivity|now apply K3].
  - intros w Hw. rewrite A4. now apply K4.
  - cbn [b_active]. destruct (revivesb (b_lik b v) e) eqn:R.
    + apply (rrep_le u Hu0 Hu1 card (length (m_vars m))); [lia|].
      apply (rrep_ext u card _ m' (fun _ => 1%Qc)); [reflexivity|]. apply A5. rewrite K3 by auto. now apply revivesb_spec.
    + apply A6. rewrite K3 by auto. intros Q. apply revivesb_spec in Q. congruence.
Qed.

Lemma rknows_consistent : forall k m0 b m, rknows k m0 b m -> cliques_within card (m_jt m0) N ->
  exists m', r_make_consistent_model (rt fl) m = Ok m' /\ rknows (k + 4 * length (sps (m_jt m0))) m0 b m' /\
    rcalibrated u card (N + 2) (m_jt m').
Proof.
  intros k m0 b m [K1 K2 K3 K4 K5 K6] HW.
  assert (HW' : cliques_within card (m_jt m) N) by (apply (within_shape card N (m_jt m0)); auto; apply K2).
  destruct (r_make_consistent_model_ok m K1 HW') as (jt' & E & M1 & S1 & C1 & J1).
  assert (Ls : length (sps (m_jt m)) = length (sps (m_jt m0))) by (destruct K2 as ((_ & Ls & _) & _); exact Ls).
  exists (set_jt m jt'). split; auto. split; [|exact C1]. split; auto; [| |lia].
  - eapply same_model_trans; eauto.
  - rewrite <- Ls. apply rrep_jt; auto. apply S1.
Qed.

Lemma rknows_insert : forall names k m0 b m x, names_ok card m0 names -> rknows k m0 b m ->
  cliques_within card (m_jt m0) N ->
  insertion_ok card names x ->
  exists m' e, r_insert1 (rt fl) names m x = Ok (m', e) /\ rknows (k + cost m0 (Insert x)) m0 (learn1 card names m0 b (Insert x)) m'.
Proof.
  intros names k m0 b m x HN HK HW HO. unfold cost.
  assert (HN' := names_ok_same card m0 m names (rn_same HK) HN).
  assert (LN : length names = length (m_vars m0)) by apply HN.
  unfold insertion_ok in HO. destruct x as [s st|s l]; cbn [r_insert1 learn1 says] in *.
  - unfold r_insert_hard_evidence. rewrite (model_variable_ok card m names s HN'). cbn [bind].
    assert (P := position_spec s (map symbol_of names)).
    destruct (position s (map symbol_of names)) as [v|].
    2: { exists m, EINVAL. split; auto. apply (rknows_le k); auto; lia. }
    destruct P as (P1 & _). rewrite map_length in P1.
    set (d := mkNamed 0 None 0 NamesNull []) in *.
    unfold r_enter_observation. rewrite (rd_ok _ names v d) by auto. cbn [bind].
    rewrite (state_index_position card m names v (nth v names d) st HN') by (now apply nth_error_nth').
    cbn [bind]. destruct (position st (states_of (nth v names d))) as [i|].
    + destruct (Z.ltb_spec (Z.of_nat i) 0); [lia|].
      assert (Lv : length (m_vars m) = length (m_vars m0)) by apply (rn_same HK).
      rewrite (r_enter_index_ok fl card) by (lia || apply (rn_ok HK)). rewrite indicator_one_hot.
      destruct (rknows_evidence k m0 b m v (one_hot (card v) i) HK) as (m1 & E1 & K1); auto; [lia|].
      rewrite E1. cbn [bind].
      destruct (rknows_consistent _ m0 _ m1 K1 HW) as (m2 & E2 & K2 & _). rewrite E2. cbn [bind].
      exists m2, NO_ERROR. split; auto. eapply rknows_le; [|exact K2]. lia.
    + cbn. destruct (rknows_consistent _ m0 _ m HK HW) as (m2 & E2 & K2 & _). rewrite E2. cbn [bind].
      exists m2, NO_ERROR. split; auto. eapply rknows_le; [|exact K2]. lia.
  - unfold r_insert_soft_evidence. rewrite (model_variable_ok card m names s HN'). cbn [bind].
    assert (P := position_spec s (map symbol_of names)).
    destruct (position s (map symbol_of names)) as [v|].
    2: { exists m, EINVAL. split; auto. apply (rknows_le k); auto; lia. }
    destruct P as (P1 & _). rewrite map_length in P1.
    destruct (rknows_evidence k m0 b m v l HK) as (m1 & E1 & K1); auto; [lia|].
    rewrite E1. cbn [bind].
    destruct (rknows_consistent _ m0 _ m1 K1 HW) as (m2 & E2 & K2 & _). rewrite E2. cbn [bind].
    exists m2, NO_ERROR. split; auto. eapply rknows_le; [|exact K2]. lia.
Qed.

Lemma r_pending_ext : forall k m0 b m h, rknows k m0 b m ->
  pending m h = filter (fun v => negb (b_done b v) && (negb h || negb (v_old (var m0 v)))) (m_indep m0).
Proof.
  intros k m0 b m h HK. unfold pending.
  assert (EI : m_indep m = m_indep m0) by apply (rn_same HK). rewrite EI.
  apply filter_ext_in. intros v Hv. rewrite (rn_done HK) by auto.
  now rewrite (same_var m0 m v (rn_same HK)).
Qed.

Lemma r_marginalise_clique_ok : forall jt k v r, shape_ok card jt -> tables_nonneg jt ->
  cliques_within card jt N -> k < length (cls jt) -> In v (c_vars (clq jt k)) -> length r = card v ->
  exists r', r_marginalise_clique (rt fl) jt k v r = Ok (r', NO_ERROR) /\ length r' = card v /\
    forall a, valid card a ->
      near u N (sumv card (minus (c_vars (clq jt k)) [v]) (phi jt k) a) (nth (a v) r' 0%Qc).
Proof.
  intros jt i v r HS HNN HW Hi Hv HL. assert (HS' := HS). destruct HS' as (_ & HS1 & _).
  destruct (HS1 i Hi) as (T & _ & NE & _).
  unfold r_marginalise_clique. rewrite rd_clq by auto. cbn [bind].
  destruct (clique_var_index_ok card (clq jt i) v T NE) as (ix & E & Hix). rewrite E. cbn [bind].
  destruct ix as [k|]; [|contradiction]. destruct Hix as (Hk & Ek).
  assert (T' := T). destruct T' as (ND & W & D).
  assert (Ld : dimensionality (c_p (clq jt i)) = length (c_vars (clq jt i))).
  { unfold dimensionality. rewrite D. apply map_length. }
  assert (Ck : nth k (dims (c_p (clq jt i))) 0 = card v).
  { rewrite D. rewrite (nth_map _ _ _ _ _ 0 0) by auto. now rewrite Ek. }
  destruct (r_total_marginalise_ok u fl Hu0 Hu1 Hfl (c_p (clq jt i)) r k) as (r' & Er & Lr & Hr & _); auto; try lia.
  { apply HNN; auto. }
  exists r'. split; auto. split; [lia|]. intros a Ha.
  assert (Ha' : a v < nth k (dims (c_p (clq jt i))) 0) by (rewrite Ck; apply Ha).
  specialize (Hr _ Ha').
  replace (sumv card (minus (c_vars (clq jt i)) [v]) (phi jt i) a) with (marg (c_p (clq jt i)) [k] [a v]).
  - apply (near_le u Hu0 Hu1 (length (data (c_p (clq jt i))))); auto.
    rewrite (wf_data_length _ W), D. now apply HW.
  - apply (marg_sumv card (c_vars (clq jt i)) [v] (c_p (clq jt i)) [k] a); auto.
    + constructor; [simpl; tauto|constructor].
    + intros x [<-|[]]. auto.
    + intros b. unfold sel. simpl. rewrite (nth_map _ _ _ _ _ 0 0) by auto. now rewrite Ek.

Qed.

Lemma marginal_nonneg : forall v r j (f : (nat -> nat) -> Qc), valid card (fun _ => 0) -> length r = card v ->
  (forall a, valid card a -> near u j (f a) (nth (a v) r 0%Qc)) -> Forall (fun x => (0 <= x)%Qc) r.
Proof.
  intros v r j f H0 HL H. apply Forall_forall. intros x Hx. apply (In_nth _ _ 0%Qc) in Hx.
  destruct Hx as (i & Hi & <-). assert (Va : valid card (upd (fun _ => 0) v i)) by (apply upd_valid; auto; lia).
  specialize (H _ Va). rewrite upd_same in H. exact (proj2 (near_nonneg u Hu0 Hu1 _ _ _ H)).
Qed.

Lemma rknows_step : forall names k m0 b m o, names_ok card m0 names -> rknows k m0 b m ->
  cliques_within card (m_jt m0) N -> o <> Mass ->
  op_ok card names m0 o ->
  exists m', r_run1 (rt fl) names m o = Ok m' /\ rknows (k + cost m0 o) m0 (learn1 card names m0 b o) m'.
Proof.
  intros names k m0 b m o HN HK HW HM HO. destruct o as [x|h| | |v|]; cbn [r_run1 op_ok] in *; [| | | | |congruence].
  - destruct (rknows_insert names k m0 b m x HN HK HW HO) as (m' & e & E & K).
    rewrite E. cbn [bind]. eauto.
  - cbn [learn1]. rewrite <- (r_pending_ext k m0 b m h HK).
    assert (HK' := HK). destruct HK' as [K1 K2 K3 K4 K5 K6].
    destruct (r_use_priors_ok u fl Hu0 Hu1 Hfl card k m h _ K1 K5) as (m' & E & A1 & A2 & A3 & A4 & A5).
    exists m'. split; auto. split; auto; [| | | |lia].
    + eapply same_model_trans; eauto.
    + intros w Hw. rewrite A3. now apply K3.
    + intros w Hw. cbn [b_done]. rewrite <- K4 by auto. apply eq_true_iff_eq. rewrite A4, orb_true_iff.
      rewrite existsb_exists. split.
      * intros [H|H]; auto. right. exists w. split; auto. apply Nat.eqb_refl.
      * intros [H|(z & Hz & H)]; auto. apply Nat.eqb_eq in H. subst. auto.
    + cbn [b_active]. assert (EI : m_indep m = m_indep m0) by apply K2. unfold cost. rewrite <- EI.
      eapply rrep_ext; [|exact A5]. intros a Ha. cbv beta.
      rewrite priors_app. f_equal. now apply same_priors.
  - destruct HK as [K1 K2 K3 K4 K5 K6].
    destruct (r_reset_model_ok u fl Hu0 Hu1 Hfl card m K1) as (m' & E & A1 & A2 & A3 & A4).
    assert (L : length (m_vars m) = length (m_vars m0)) by apply K2.
    exists m'. split; auto. split; auto; [| | | |lia].
    + eapply same_model_trans; eauto.
    + intros w Hw. apply A3. lia.
    + intros w Hw. cbn. apply A3.
      assert (EI : m_indep m = m_indep m0) by apply K2.
      destruct (mo_indep _ _ K1) as (_ & HI). rewrite EI in HI. now apply HI.
    + apply (rrep_le u Hu0 Hu1 card (length (m_vars m))); [lia|].
      eapply rrep_ext; [|exact A4]. reflexivity.
  - destruct (rknows_consistent k m0 b m HK HW) as (m' & E & K & _). eauto.
  - unfold r_get_probability. destruct HK as [K1 K2 K3 K4 K5 K6].
    assert (L : length (m_vars m) = length (m_vars m0)) by apply K2.
    rewrite rd_var by lia. cbn [bind].
    destruct (find_family_ok card m v K1) as (mf & k0 & Ef & F1 & F2 & F3 & F4 & F5 & F6 & F7 & _); [lia|].
    rewrite Ef. cbn [bind]. rewrite F3.
    destruct (mo_var _ _ K1 v) as (X1 & _); [lia|].
    assert (HW' : cliques_within card (m_jt m) N) by (apply (within_shape card N (m_jt m0)); auto; apply K2).
    destruct (r_marginalise_clique_ok (m_jt m) k0 v (repeat 0%Qc (v_card (var m v)))) as (r & Er & Lr & Hr).
    { apply K1. } { apply K1. } { auto. } { auto. } { apply F7. simpl; auto. } { rewrite repeat_length. auto. }
    rewrite Er. cbn [bind]. rewrite X1, <- Lr.
    destruct (r_normalise_array_ok u fl Hu0 Hu1 Hfl r) as (r2 & Er2 & _).
    { apply (marginal_nonneg v r N (sumv card (minus (c_vars (clq (m_jt m) k0)) [v]) (phi (m_jt m) k0))); auto. now apply (zero_valid card m). }
    rewrite Er2. cbn [bind].
    exists mf. split; auto. split; auto; [| | | |lia].
    + eapply same_model_trans; eauto.
    + intros w Hw. rewrite F4. now apply K3.
    + intros w Hw. rewrite F5. now apply K4.
    + apply (rrep_le u Hu0 Hu1 card k); [lia|]. intros a Ha. cbn [learn1]. rewrite F3.
      specialize (K5 a Ha). rewrite (same_original m mf a F2).
      replace (evidence mf a) with (evidence m a); [exact K5|].
      unfold evidence. rewrite (proj1 (proj2 F2)). apply weight_ext. intros; now rewrite F4.
Qed.

Lemma rknows_run : forall names m0 os k b m, names_ok card m0 names -> rknows k m0 b m ->
  cliques_within card (m_jt m0) N -> ~ In Mass os -> Forall (op_ok card names m0) os ->
  exists m', r_run (rt fl) names m os = Ok m' /\
    rknows (k + list_sum (map (cost m0) os)) m0 (learn card names m0 b os) m'.
Proof.
  intros names m0. induction os as [|o os IH]; intros k b m HN HK HW HM HO; cbn [r_run].
  - exists m. split; auto. apply (rknows_le k); auto. lia.
  - inversion HO as [|? ? H1 H2]; subst.
    destruct (rknows_step names k m0 b m o HN HK HW) as (m1 & E1 & K1); auto.
    { intros ->. apply HM. now left. }
    rewrite E1. cbn [bind].
    destruct (IH _ _ m1 HN K1 HW) as (m2 & E2 & K2); auto.
    { intros K. apply HM. now right. }
    exists m2. split; auto. eapply rknows_le; [|exact K2]. cbn [map list_sum fold_right]. unfold list_sum. lia.
Qed.

Lemma rknows_reset : forall m, model_ok card m ->
  exists m', r_reset_model (rt fl) m = Ok m' /\ rknows (length (m_vars m)) m (no_belief card) m'.
Proof.
  intros m HM. destruct (r_reset_model_ok u fl Hu0 Hu1 Hfl card m HM) as (m' & E & A1 & A2 & A3 & A4).
  exists m'. split; auto. split; auto.
  - intros v Hv. now apply A3.
  - intros v Hv. apply A3. destruct (mo_indep _ _ HM) as (_ & HI). now apply HI.
Qed.

Lemma rknows_joint : forall k m b m' a, rknows k m b m' -> valid card a ->
  near u k (original m a * weight (length (m_vars m)) (b_lik b) a * priors m (b_active b) a)%Qc (joint (m_jt m') a).
Proof.
  intros k m b m' a [K1 K2 K3 K4 K5 K6] Ha. specialize (K5 a Ha). rewrite (same_original m m' a K2) in K5.
  replace (evidence m' a) with (weight (length (m_vars m)) (b_lik b) a) in K5; [exact K5|].
  unfold evidence. rewrite (proj1 (proj2 K2)). apply weight_ext. intros. symmetry. auto.
Qed.

Lemma r_history_ok : forall names m os, model_ok card m -> names_ok card m names ->
  cliques_within card (m_jt m) N -> ~ In Mass os -> Forall (op_ok card names m) os ->
  exists m', r_run (rt fl) names m (Reset :: os) = Ok m' /\
    rknows (history_error m os) m (learn card names m (no_belief card) os) m'.
Proof.
  intros names m os HM HN HW HS HO. cbn [r_run r_run1].
  destruct (rknows_reset m HM) as (m1 & E1 & K1). rewrite E1. cbn [bind].
  now apply (rknows_run names m os).
Qed.

Lemma r_run_app : forall rnd names os os' m,
  r_run rnd names m (os ++ os') = bind (r_run rnd names m os) (fun m' => r_run rnd names m' os').
Proof.
  intros rnd names. induction os as [|o os IH]; intros os' m; auto. cbn [app r_run].
  destruct (r_run1 rnd names m o) as [m'| |]; cbn [bind]; auto.
Qed.


(** ** Posteriors *)
Lemma near_normalised : forall k (l : list Qc) (f : nat -> Qc) x,
  (forall i, i < length l -> near u k (f i) (nth i l 0%Qc)) -> x < length l ->
  near u (2 * k) (f x / qsum (map f (seq 0 (length l))))%Qc (nth x (normalised l) 0%Qc).
Proof.
  intros k l f x H Hx.
  assert (HS : near u k (qsum (map f (seq 0 (length l)))) (qsum l)).
  { rewrite <- (map_nth_seq Qc 0%Qc l) at 2. apply near_qsum; auto. intros i Hi. apply in_seq in Hi. apply H. lia. }
  assert (NN : forall i, i < length l -> (0 <= nth i l 0)%Qc) by (intros i Hi; exact (proj2 (near_nonneg u Hu0 Hu1 _ _ _ (H i Hi)))).
  unfold normalised. destruct (qzero (qsum l)) eqn:Z.
  - apply qzero_true in Z.
    assert (Zx : nth x l 0%Qc = 0%Qc).
    { eapply qsum_zero_inv; [|exact Z|now apply nth_In]. intros y Hy. apply (In_nth _ _ 0%Qc) in Hy.
      destruct Hy as (i & Hi & <-). auto. }
    assert (Zf : f x = 0%Qc) by (apply (near_zero u Hu0 Hu1 _ _ _ (H x Hx)); exact Zx).
    rewrite Zx, Zf. unfold Qcdiv. rewrite Qcmult_0_l. apply near_refl; auto. apply Qcle_refl.
  - rewrite (nth_map _ _ _ _ _ 0%Qc) by auto. replace (2 * k) with (k + k) by lia. apply near_div; auto.
Qed.

Lemma r_get_probability_ok : forall m v k G, model_ok card m -> cliques_within card (m_jt m) N ->
  rcalibrated u card (N + 2) (m_jt m) -> v < length (m_vars m) -> ext G ->
  (forall a, valid card a -> near u k (G a) (joint (m_jt m) a)) ->
  exists m2 r, r_get_probability (rt fl) m v = Ok (m2, Some r) /\ same_model m m2 /\ length r = card v /\
    forall x, x < card v ->
      near u (2 * (k + length (sps (m_jt m)) * (N + 2) + N) + card v + 1)
        (sum_where card m G v x / sum_all card m G)%Qc (nth x r 0%Qc).
Proof.
  intros m v k G HM HW HC Hv HE HG. unfold r_get_probability.
  rewrite rd_var by auto. cbn [bind].
  destruct (mo_var _ _ HM v Hv) as (X1 & _). rewrite X1.
  destruct (find_family_ok card m v HM Hv) as (mf & c & Ef & F1 & F2 & F3 & F4 & F5 & F6 & F7 & _).
  rewrite Ef. cbn [bind]. rewrite F3. set (jt := m_jt m) in *.
  assert (Iv : In v (c_vars (clq jt c))) by (apply F7; simpl; auto).
  destruct (r_marginalise_clique_ok jt c v (repeat 0%Qc (card v))) as (r & Er & Lr & Hr); auto.
  { apply HM. } { apply HM. } { apply repeat_length. }
  rewrite Er. cbn [bind].
  set (K := k + length (sps jt) * (N + 2) + N).
  assert (Hx : forall x, x < length r -> near u K (sum_where card m G v x) (nth x r 0%Qc)).
  { intros x Hx. rewrite Lr in Hx. unfold sum_where.
    assert (Va : valid card (upd (fun _ => 0) v x)) by (apply upd_valid; auto; now apply (zero_valid card m)).
    set (a := upd (fun _ => 0) v x) in *.
    assert (Hra := Hr a Va). assert (Ea : a v = x) by (unfold a; apply upd_same). rewrite Ea in Hra.
    unfold K. eapply (near_trans u Hu0 Hu1); [|exact Hra].
    eapply (near_trans u Hu0 Hu1) with (y := sumv card (minus (seq 0 (length (m_vars m))) [v]) (joint jt) a).
    { apply (near_sumv u Hu0 Hu1 card); auto. }
    assert (P : Permutation (minus (seq 0 (length (m_vars m))) [v])
       (minus (c_vars (clq jt c)) [v] ++ minus (all_vars jt) (c_vars (clq jt c)))).
    { apply NoDup_Permutation.
      - apply minus_nodup, seq_NoDup.
      - destruct (mo_shape _ _ HM) as (_ & HS & _). destruct (HS c F6) as ((ND & _) & _).
        apply NoDup_app_intro; try (apply minus_nodup; auto); try apply all_vars_nodup.
        intros y H1 H2. rewrite minus_in in H1, H2. tauto.
      - intros y. rewrite in_app_iff, !minus_in.
        assert (Q : In y (all_vars jt) <-> In y (seq 0 (length (m_vars m)))).
        { split; apply Permutation_in; [|symmetry]; now apply (all_vars_model card). }
        rewrite <- Q. destruct (in_dec Nat.eq_dec y (c_vars (clq jt c))) as [J|J].
        + assert (In y (all_vars jt)) by (apply all_vars_in; eauto). tauto.
        + split; [tauto|]. intros [(H1 & _)|(H1 & H2)]; [tauto|]. split; auto. intros [<-|[]]. auto. }
    rewrite (sumv_perm card _ _ (joint jt) a P) by apply joint_is_ext.
    rewrite sumv_app. apply (near_sumv u Hu0 Hu1 card); auto. intros b Hb. apply near_sym; auto.
    apply (r_clique_marginal_ok u Hu0 Hu1 card); auto; apply HM. }
  assert (NN : Forall (fun y => (0 <= y)%Qc) r).
  { apply Forall_forall. intros y Hy. apply (In_nth _ _ 0%Qc) in Hy. destruct Hy as (i & Hi & <-).
    exact (proj2 (near_nonneg u Hu0 Hu1 _ _ _ (Hx i Hi))). }
  destruct (r_normalise_array_ok u fl Hu0 Hu1 Hfl r NN) as (r2 & Er2 & Lr2 & _ & Hr2).
  rewrite <- Lr, Er2. cbn [bind]. exists mf, r2. split; [reflexivity|].
  split; [exact F2|]. split; [lia|]. intros x Hxl.
  replace (2 * K + length r + 1) with (2 * K + S (length r)) by lia.
  eapply (near_trans u Hu0 Hu1); [|apply Hr2].
  rewrite <- (sum_where_total card m G v HM Hv HE). rewrite <- Lr. now apply near_normalised.
Qed.

Lemma believed_ext : forall names m os, ext (believed names m os).
Proof.
  intros names m os a b H. unfold believed. f_equal; [f_equal|].
  - unfold original. apply qprod_map_ext. intros i _. unfold AssignSpec.den. f_equal. now apply map_ext.
  - unfold weight, at_state. apply qprod_map_ext. intros v _. now rewrite H.
  - unfold priors, at_state. apply qprod_map_ext. intros v _. now rewrite H.
Qed.

Lemma r_posterior_ok : forall names m os v, model_ok card m -> names_ok card m names ->
  cliques_within card (m_jt m) N -> ~ In Mass os -> Forall (op_ok card names m) os -> v < length (m_vars m) ->
  exists m1 m2 r, r_run (rt fl) names m (Reset :: os ++ [Consistent]) = Ok m1 /\
    r_get_probability (rt fl) m1 v = Ok (m2, Some r) /\ length r = card v /\
    forall x, x < card v ->
      near u (posterior_error m N os (card v))
        (sum_where card m (believed names m os) v x / sum_all card m (believed names m os))%Qc (nth x r 0%Qc).
Proof.
  intros names m os v HM HN HW HS HO Hv.
  destruct (r_history_ok names m os HM HN HW HS HO) as (m0 & E0 & K0).
  destruct (rknows_consistent _ m _ m0 K0 HW) as (m1 & E1 & K1 & C1).
  exists m1. rewrite app_comm_cons, r_run_app, E0. cbn [bind r_run r_run1]. rewrite E1. cbn [bind].
  assert (SM := rn_same K1). assert (LV : length (m_vars m1) = length (m_vars m)) by apply SM.
  assert (LS : length (sps (m_jt m1)) = length (sps (m_jt m))) by (destruct SM as ((_ & Ls & _) & _); exact Ls).
  destruct (r_get_probability_ok m1 v (history_error m os + 4 * length (sps (m_jt m))) (believed names m os))
    as (m2 & r & Eg & S2 & Lr & Hr); auto.
  { apply K1. } { apply (within_shape card N (m_jt m)); auto. apply SM. } { lia. } { apply believed_ext. }
  { intros a Ha. now apply rknows_joint. }
  exists m2, r. split; [reflexivity|]. split; [exact Eg|]. split; [exact Lr|]. intros x Hx.
  specialize (Hr x Hx). unfold sum_where, sum_all in *. rewrite LV in Hr. rewrite LS in Hr.
  unfold posterior_error. exact Hr.
Qed.

End Histories.
