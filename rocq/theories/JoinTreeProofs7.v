(** * The lemmas behind PropertiesJoinTree.v *)
From Coq Require Import Permutation Field Relations.
From Verif Require Import Base BaseProofs PotentialModel PotentialSpec JoinTreeModel
  AssignSpec AssignProofs JoinTreeSpec JoinTreeProofs JoinTreeProofs2 JoinTreeProofs3
  JoinTreeProofs4 JoinTreeProofs5 JoinTreeProofs6.
Import ListNotations.
Open Scope nat_scope.
Local Open Scope res_scope.

Lemma C31_message_lemma : forall card jt c1 s c2,
  shape_ok card jt -> tables_nonneg jt -> s < length (sps jt) -> joins jt s c1 c2 ->
  exists jt', message_pass jt c1 s c2 = Ok (jt', NO_ERROR) /\
    same_shape jt jt' /\ shape_ok card jt' /\ tables_nonneg jt' /\
    forall a, valid card a -> joint jt' a = joint jt a.
Proof.
  intros card jt c1 s c2 HS HN Hs HJ.
  destruct (message_pass_ok card jt c1 s c2) as (jt' & E & M); auto.
  destruct (keeps_mp card jt c1 s c2 jt' HS HN Hs HJ M) as [K1 K2 K3 K4].
  exists jt'. auto.
Qed.

Lemma C31_messages_lemma : forall card ms jt,
  shape_ok card jt -> tables_nonneg jt ->
  Forall (fun m => match m with (c1, s, c2) => s < length (sps jt) /\ joins jt s c1 c2 end) ms ->
  exists jt', pass_all jt ms = Ok jt' /\
    same_shape jt jt' /\ shape_ok card jt' /\ tables_nonneg jt' /\
    forall a, valid card a -> joint jt' a = joint jt a.
Proof.
  intros card ms. induction ms as [|((c1 & s) & c2) ms IH]; intros jt HS HN HF.
  - exists jt. simpl. auto using same_shape_refl.
  - inversion HF as [|? ? Hm HF']; subst. destruct Hm as (Hs & HJ). cbn [pass_all].
    destruct (C31_message_lemma card jt c1 s c2 HS HN Hs HJ) as (j1 & E & SH & HS1 & HN1 & HE1).
    rewrite E. cbn [bind].
    destruct (IH j1 HS1 HN1) as (j2 & E2 & SH2 & HS2 & HN2 & HE2).
    { apply Forall_forall. intros ((x & y) & z) Hin. rewrite Forall_forall in HF'.
      destruct (HF' _ Hin) as (Q1 & Q2). destruct (shape_len _ _ SH) as (_ & ->). split; auto.
      eapply same_shape_joins; eauto. }
    exists j2. split; auto. split; [eapply same_shape_trans; eauto|]. split; auto. split; auto.
    intros a Ha. rewrite HE2 by auto. auto.
Qed.

Lemma C31_content_lemma : forall card jt c1 s c2 jt' e,
  shape_ok card jt -> s < length (sps jt) -> joins jt s c1 c2 ->
  message_pass jt c1 s c2 = Ok (jt', e) ->
  forall a, valid card a ->
    psi jt' s a = sumv card (minus (c_vars (clq jt c1)) (s_vars (sep jt s))) (phi jt c1) a /\
    phi jt' c1 a = phi jt c1 a /\
    phi jt' c2 a = (phi jt c2 a * psi jt' s a / psi jt s a)%Qc.
Proof.
  intros card jt c1 s c2 jt' e HS Hs HJ HE a Ha.
  destruct (message_pass_ok card jt c1 s c2) as (j & E & M); auto. rewrite E in HE.
  inversion HE; subst.
  destruct (joins_incl card jt s c1 c2 HS Hs HJ) as (_ & _ & _ & _ & N).
  split; [now apply (mp_psi _ _ _ _ _ _ M)|]. split.
  - unfold phi. rewrite (mp_clq _ _ _ _ _ _ M) by auto. reflexivity.
  - now apply (mp_phi _ _ _ _ _ _ M).
Qed.

Lemma C32_lemma : forall card jt,
  shape_ok card jt -> tables_nonneg jt -> is_tree jt ->
  exists jt', make_consistent jt = Ok (jt', NO_ERROR) /\
    same_shape jt jt' /\ shape_ok card jt' /\ tables_nonneg jt' /\
    (forall a, valid card a -> joint jt' a = joint jt a) /\
    calibrated card jt'.
Proof.
  intros card jt HS HN HT. destruct (make_consistent_ok card jt HS HN HT) as (jt' & E & [K1 K2 K3 K4] & C).
  exists jt'. auto 10.
Qed.

Lemma is_tree_shape : forall jt jt', same_shape jt jt' -> is_tree jt -> is_tree jt'.
Proof.
  intros jt jt' SH (ns & es & HT & P1 & P2). exists ns, es.
  destruct (shape_len _ _ SH) as (-> & ->). split; auto. clear P1 P2.
  induction HT; [constructor|]. econstructor; eauto. eapply same_shape_joins; eauto.
Qed.

Lemma rip_shape : forall jt jt', same_shape jt jt' -> running_intersection jt -> running_intersection jt'.
Proof.
  intros jt jt' SH H v i j Hi Hj Vi Vj. assert (SH' := SH). destruct SH' as (E1 & E2 & SC & SS).
  rewrite E1 in Hi, Hj. destruct (SC i) as (Ci & _). destruct (SC j) as (Cj & _).
  rewrite Ci in Vi. rewrite Cj in Vj. specialize (H v i j Hi Hj Vi Vj). clear -H SH E2 SS.
  induction H as [x y (s & Hs & HJ & Hv)|x|x y z H1 IH1 H2 IH2].
  - apply rt_step. exists s. rewrite E2. destruct (SS s) as (-> & _). split; auto. split; auto.
    eapply same_shape_joins; eauto.
  - apply rt_refl.
  - eapply rt_trans; eauto.
Qed.

Lemma all_vars_shape : forall jt jt', same_shape jt jt' -> Permutation (all_vars jt') (all_vars jt).
Proof.
  intros jt jt' (E1 & _ & SC & _). apply NoDup_Permutation; try apply all_vars_nodup.
  intros v. rewrite !all_vars_in. rewrite E1. split; intros (x & Hx & Hv); exists x; split; auto;
  destruct (SC x) as (E & _); congruence.
Qed.

Lemma minus_perm : forall a b c, Permutation a b -> Permutation (minus a c) (minus b c).
Proof.
  intros a b c H. unfold minus. induction H; simpl; auto.
  - destruct (negb _); auto.
  - destruct (negb _), (negb _); auto. constructor.
  - etransitivity; eauto.
Qed.

Lemma C33_clique_lemma : forall card jt jt' e,
  shape_ok card jt -> tables_nonneg jt -> is_tree jt -> running_intersection jt ->
  make_consistent jt = Ok (jt', e) ->
  forall k a, k < length (cls jt) -> valid card a ->
    phi jt' k a = sumv card (minus (all_vars jt) (c_vars (clq jt k))) (joint jt) a.
Proof.
  intros card jt jt' e HS HN HT HR HE k a Hk Ha.
  destruct (make_consistent_ok card jt HS HN HT) as (j & E & [K1 K2 K3 K4] & C).
  rewrite E in HE. inversion HE; subst.
  rewrite (clique_marginal_ok card jt' k a); auto.
  - destruct K1 as (L1 & L2 & SC & SS). destruct (SC k) as (-> & _).
    rewrite (sumv_ext card _ _ (joint jt) a Ha) by auto.
    apply sumv_perm; [|apply joint_is_ext]. apply minus_perm, all_vars_shape. repeat split; auto; intros; try apply SC; apply SS.
  - eapply is_tree_shape; eauto.
  - eapply rip_shape; eauto.
  - destruct K1 as (-> & _). auto.
Qed.

Lemma C33_variable_lemma : forall card jt jt' e,
  shape_ok card jt -> tables_nonneg jt -> is_tree jt -> running_intersection jt ->
  make_consistent jt = Ok (jt', e) ->
  forall k v r, k < length (cls jt) -> In v (c_vars (clq jt k)) -> length r = card v ->
    exists r', marginalise_clique jt' k v r = Ok (r', NO_ERROR) /\ length r' = card v /\
      forall a, valid card a ->
        nth (a v) r' 0%Qc = sumv card (minus (all_vars jt) [v]) (joint jt) a.
Proof.
  intros card jt jt' e HS HN HT HR HE k v r Hk Hv Hr.
  assert (HM := C33_clique_lemma card jt jt' e HS HN HT HR HE k).
  destruct (make_consistent_ok card jt HS HN HT) as (j & E & [K1 K2 K3 K4] & C).
  rewrite E in HE. inversion HE; subst.
  assert (K1' := K1). destruct K1' as (L1 & L2 & SC & SS). destruct (SC k) as (Ck & _).
  destruct (marginalise_clique_ok card jt' k v r) as (r' & Er & Lr & Hr'); auto; try congruence.
  exists r'. split; auto. split; auto. intros a Ha. rewrite Hr' by auto. rewrite Ck.
  rewrite (sumv_ext card _ _ (fun b => sumv card (minus (all_vars jt) (c_vars (clq jt k))) (joint jt) b) a Ha)
    by (intros; now apply HM).
  change (fun b => sumv card (minus (all_vars jt) (c_vars (clq jt k))) (joint jt) b)
    with (sumv card (minus (all_vars jt) (c_vars (clq jt k))) (joint jt)).
  rewrite <- sumv_app. apply sumv_perm; [|apply joint_is_ext].
  destruct HS as (_ & HS & _). destruct (HS k Hk) as ((N & _) & _).
  apply NoDup_Permutation.
  - apply NoDup_app_intro; try (apply minus_nodup; auto); try apply all_vars_nodup.
    intros x H1 H2. rewrite minus_in in H1, H2. tauto.
  - apply minus_nodup, all_vars_nodup.
  - intros x. rewrite in_app_iff, !minus_in. destruct (in_dec Nat.eq_dec x (c_vars (clq jt k))) as [I|I].
    + assert (In x (all_vars jt)) by (apply all_vars_in; eauto). tauto.
    + split; [|tauto]. intros [(H1 & _)|(H1 & H2)]; [tauto|]. split; auto. intros [<-|[]]. auto.
Qed.

Lemma C37_mass_lemma : forall card jt jt' e a,
  shape_ok card jt -> tables_nonneg jt -> is_tree jt -> running_intersection jt ->
  make_consistent jt = Ok (jt', e) -> valid card a ->
  exists jt'', probability_mass jt' = Ok (jt'', sumv card (all_vars jt) (joint jt) a).
Proof.
  intros card jt jt' e a HS HN HT HR HE Ha.
  destruct (make_consistent_ok card jt HS HN HT) as (j & E & [K1 K2 K3 K4] & C).
  rewrite E in HE. inversion HE; subst.
  destruct (probability_mass_ok card jt' a) as (j2 & E2 & _); auto.
  - eapply is_tree_shape; eauto.
  - eapply rip_shape; eauto.
  - exists j2. rewrite E2. do 2 f_equal. rewrite (sumv_ext card _ _ (joint jt) a Ha) by auto.
    apply sumv_perm; [|apply joint_is_ext]. now apply all_vars_shape.
Qed.
