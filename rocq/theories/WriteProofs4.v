(** * Proofs: the conditional distributions that are written *)
From Coq Require Import Permutation Field String Ascii.
From Verif Require Import Base BaseProofs PotentialModel PotentialSpec PotentialProofs
  PotentialProofs2 PotentialProofs3 VariableModel VariableProofs JoinTreeModel
  AssignSpec AssignProofs JoinTreeSpec JoinTreeProofs JoinTreeProofs2 JoinTreeProofs3
  JoinTreeProofs4 JoinTreeProofs5 JoinTreeProofs6 JoinTreeProofs7 NipModel NipSpec NipProofs
  NipProofs2 NipProofs3 NipProofs4 GatherProofs GatherProofs2 SliceModel SliceSpec SliceProofs SliceProofs2 SliceProofs3
  SliceProofs4 SliceProofs5 LearnModel LearnSpec LearnProofs LearnProofs2 LearnProofs3 LearnProofs4 LearnProofs5
  ParseModel ParseSpec ParseProofs3 WriteModel WriteSpec.
Import ListNotations.
Open Scope nat_scope.
Local Open Scope res_scope.
Local Notation len := List.length.

Add Field Qcfield_write4 : Qcft.

Lemma Qc_part_le : forall x y : Qc, (0 <= x)%Qc -> (x <= y)%Qc -> (x / y <= 1)%Qc.
Proof.
  intros x y H0 H1. destruct (Qc_eq_dec y 0) as [->|N].
  { rewrite Qc_div_zero; [discriminate|]. now apply Qcle_antisym. }
  assert (P : (0 < y)%Qc).
  { destruct (Qcle_lt_or_eq 0 y) as [K|K]; [eapply Qcle_trans; eauto|auto|congruence]. }
  apply Qcmult_lt_0_le_reg_r with y; auto. replace (x / y * y)%Qc with x by (field; auto).
  now rewrite Qcmult_1_l.
Qed.
Lemma qsum_member : forall l x, (forall y, In y l -> (0 <= y)%Qc) -> In x l -> (x <= qsum l)%Qc.
Proof.
  induction l as [|y l IH]; intros x H Hx; [destruct Hx|]. cbn [qsum].
  assert (HY : (0 <= y)%Qc) by (apply H; simpl; auto).
  assert (HS : (0 <= qsum l)%Qc) by (apply qsum_nonneg; intros; apply H; simpl; auto).
  destruct Hx as [->|Hx].
  - replace x with (x + 0)%Qc at 1 by ring. apply Qcplus_le_compat; [apply Qcle_refl|auto].
  - replace x with (0 + x)%Qc by ring. apply Qcplus_le_compat; auto. apply IH; auto. intros. apply H. simpl; auto.
Qed.
Lemma sumv_member : forall card v f a, valid card a -> (forall b, valid card b -> (0 <= f b)%Qc) ->
  (forall a b, (forall w, a w = b w) -> f a = f b) -> (f a <= sumv card [v] f a)%Qc.
Proof.
  intros card v f a Ha Hf E. cbn [sumv]. rewrite (E a (upd a v (a v))).
  - apply qsum_member.
    + intros y Hy. apply in_map_iff in Hy. destruct Hy as (x & <- & Hx). apply in_seq in Hx. apply Hf. apply upd_valid; auto. lia.
    + apply in_map_iff. exists (a v). split; auto. apply in_seq. assert (H := Ha v). lia.
  - intros w. unfold upd. destruct (Nat.eqb_spec w v) as [->|]; auto.
Qed.

Lemma den_in_data : forall card vs p x, valid card (fun _ => 0) -> table card vs p -> In x (data p) ->
  exists a, valid card a /\ den vs p a = x.
Proof.
  intros card vs p x V0 (ND & (HP & HL & HM) & D) Hx. apply (In_nth _ _ 0%Qc) in Hx. destruct Hx as (j & Hj & <-).
  rewrite HL in Hj. assert (VI := unflat_valid (dims p) j HP).
  destruct (ix_assignment card vs (unflat (dims p) j) (fun _ => 0)) as (a & Va & Ea & _); auto.
  { now rewrite <- D. }
  exists a. split; auto. unfold den. rewrite Ea. unfold cell. now rewrite flat_unflat.
Qed.

Section Family.
Variable card : nat -> nat.
Variable m : model.
Hypothesis HL : learnable card m.
Local Notation n := (len (m_vars m)).
Let HM : model_ok card m := so_model _ _ (le_slices _ _ HL).

Lemma family_cpd_ok : forall m1 v, model_ok card m1 -> same_model m m1 -> v < n -> v_parents (var m v) <> [] ->
  exists m2 p, family_cpd m1 v = Ok (m2, p) /\ model_ok card m2 /\ same_model m m2 /\
    m_jt m2 = m_jt m1 /\ (forall w, v_lik (var m2 w) = v_lik (var m1 w)) /\
    (forall w, v_entered (var m2 w) = v_entered (var m1 w)) /\
    table card (family m v) p /\
    Forall (fun x => (0 <= x)%Qc /\ (x <= 1)%Qc) (data p) /\
    (forall a, valid card a -> den (family m v) p a = distribution card m v a).
Proof.
  intros m1 v M1 S1 Hv NP. unfold family_cpd.
  assert (Ln : len (m_vars m1) = n) by apply S1. assert (Pv : v_parents (var m1 v) = v_parents (var m v)) by apply S1.
  assert (Fi := family_same m m1 v S1).
  rewrite rd_var by lia. cbn [bind]. rewrite Pv. set (P := v_parents (var m v)) in *.
  assert (FL : family m v = v :: P) by reflexivity.
  assert (CV : forall w, w < n -> v_card (var m1 w) = card w) by (intros w Hw; apply (mo_var _ _ M1); lia).
  match goal with |- context [for_up 0 ?k ?b ?s] =>
    destruct (for_up_inv (list nat) (fun j c => len c = len P + 1 /\
      forall t, t <= j -> nth t c 0 = nth t (map card (family m v)) 0) b 0 k s)
      as (cs & Ec & C1 & C2) end.
  { lia. }
  { split; [cbn [List.length]; rewrite repeat_length; lia|]. intros t Ht. assert (t = 0) by lia. subst t.
    cbn. now apply CV. }
  { intros j c Hj (D1 & D2). rewrite (rd_ok _ P j 0) by lia. cbn [bind].
    assert (W : nth j P 0 < n) by (apply (LearnProofs5.family_lt card m HL v); auto; rewrite FL; right; apply nth_In; lia).
    rewrite rd_var by lia. cbn [bind]. rewrite wr_ok by lia. eexists. split; [reflexivity|].
    split; [now rewrite set_nth_length|]. intros t Ht. rewrite nth_set_nth by lia.
    destruct (Nat.eqb_spec t (j + 1)) as [->|]; [|apply D2; lia]. rewrite CV by auto.
    rewrite FL. cbn [map]. rewrite Nat.add_1_r. cbn [nth]. now rewrite (nth_map _ _ _ _ _ 0 0) by lia. }
  rewrite Ec. cbn [bind].
  assert (EC : cs = map card (family m v)).
  { apply (list_ext_nth _ 0). { rewrite map_length, FL. cbn. lia. } intros t Ht. apply C2. lia. }
  destruct (mo_var _ _ HM v Hv) as (_ & _ & (k0 & Hk0 & HI0) & _).
  assert (SH := mo_shape _ _ HM). assert (C0 := shape_card card _ SH). assert (TC := shape_clq card _ _ SH Hk0).
  destruct (new_potential_ok cs (len P + 1) None) as (p0 & Ep0 & Wp0 & Dp0 & _).
  { rewrite firstn_all2 by lia. rewrite EC. split.
    - apply Forall_forall. intros x Hx. apply in_map_iff in Hx. destruct Hx as (y & <- & _). auto.
    - destruct TC as (NC & (_ & _ & MX) & DC). rewrite DC in MX.
      assert (LE := prod_incl card (family m v) _ C0 (le_family _ _ HL v Hv) NC HI0). lia. }
  { lia. } { exact Logic.I. }
  rewrite firstn_all2 in Dp0 by lia. rewrite EC in Dp0.
  rewrite Ep0. cbn [bind].
  destruct (family_mapping_ok card m1 v M1) as (m2 & c & m3 & r & F1 & F2 & M3 & S3 & J3 & L3 & N3 & Hc & HIn & HF & Hr).
  { lia. } { rewrite Fi. now apply (le_family _ _ HL). }
  rewrite F1. cbn [bind]. rewrite F2. cbn [bind]. rewrite J3. rewrite rd_clq by auto. cbn [bind].
  assert (HH : home m v = c).
  { rewrite <- (home_structure m m1 v (same_structure_model _ _ S1)). apply home_first. eapply (find_family_first card m1 v m2 c); eauto. lia. }
  rewrite Fi in HIn, Hr. destruct S1 as (SS & S1'). destruct SS as (SLc & SLs & SC & SSp).
  destruct (SC c) as (VC & _ & OC). rewrite VC in HIn, HF, Hr. rewrite OC. rewrite SLc in Hc.
  set (C := c_vars (clq (m_jt m) c)) in *.
  destruct SH as (_ & HCl & _). destruct (HCl c Hc) as (_ & TO & _). fold C in TO. assert (NF := le_family _ _ HL v Hv).
  destruct (marginalise_table card C (family m v) (c_orig (clq (m_jt m) c)) p0 r C0 TO) as (p1 & Ep & Tp & Hp); auto.
  { split; auto. } { now apply NoDup_incl_length. } { now apply sel_family. }
  rewrite Ep. cbn [bind].
  assert (DNN : forall b, valid card b -> (0 <= den C (c_orig (clq (m_jt m) c)) b)%Qc).
  { intros b Hb. eapply den_nonneg; eauto. apply (mo_orig _ _ HM). auto. }
  assert (NN : nonneg p1).
  { apply nonneg_cells; [apply Tp|]. intros ix Hix. rewrite (proj2 (proj2 Tp)) in Hix.
    destruct (ix_assignment card (family m v) ix (fun _ => 0)) as (a & Va & Ea & _); auto.
    rewrite <- Ea. change (0 <= den (family m v) p1 a)%Qc. rewrite Hp by auto. apply sumv_nonneg; auto. }
  destruct (normalise_cpd_den card C0 (family m v) p1) as (p & En & Tn & Nn & Dn); auto.
  { discriminate. }
  rewrite En. cbn [bind]. exists m3, p. split; auto. split; auto.
  assert (S13 : same_model m m3).
  { eapply same_model_trans; [|exact S3]. split; auto. split; auto. }
  split; auto. split; auto. split; auto. split; auto. split; auto.
  assert (DD : forall a, valid card a -> den (family m v) p a = distribution card m v a).
  { intros a Ha. rewrite Dn by auto. unfold distribution.
    assert (HP : has_parents m v = true). { unfold has_parents. fold P. destruct P; [congruence|reflexivity]. }
    rewrite HP. unfold scaled. cbn [family hd]. fold (family m v).
    assert (FS : forall b, valid card b -> den (family m v) p1 b = family_sum card m v b).
    { intros b Hb. unfold family_sum. cbv zeta. rewrite HH. now apply Hp. }
    rewrite FS by auto. rewrite (sumv_ext card [v] _ (family_sum card m v)) by auto. reflexivity. }
  split; auto. apply Forall_forall. intros x Hx. split.
  - unfold nonneg in Nn. rewrite Forall_forall in Nn. auto.
  - destruct (den_in_data card (family m v) p x) as (a & Va & <-); auto.
    rewrite Dn by auto. unfold scaled. cbn [family hd]. fold (family m v). apply Qc_part_le.
    + eapply den_nonneg; eauto.
    + apply sumv_member; auto.
      * intros b Hb. eapply den_nonneg; eauto.
      * intros b b' E. unfold den. f_equal. apply map_ext. auto.
Qed.
End Family.
