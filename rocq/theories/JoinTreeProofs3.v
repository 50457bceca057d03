(** * Collecting and distributing evidence *)
From Coq Require Import Permutation Field Relations.
From Verif Require Import Base BaseProofs PotentialModel PotentialSpec JoinTreeModel
  AssignSpec AssignProofs JoinTreeSpec JoinTreeProofs JoinTreeProofs2.
Import ListNotations.
Open Scope nat_scope.
Local Open Scope res_scope.
Add Field Qcfield_jt3 : Qcft.

(** Walking over the sepsets of a clique, given its sub-trees. *)
Lemma each_children : forall St (body : nat -> St -> res (St * code))
    (Inv : list (nat * rtree) -> list (nat * rtree) -> St -> Prop) up l ch0 done ch st,
  ch0 = done ++ ch ->
  map fst ch = filter (not_up up) l ->
  Inv done ch st ->
  (forall d r s0 st0, ch0 = d ++ r -> up = Some s0 -> Inv d r st0 ->
     body s0 st0 = Ok (st0, NO_ERROR)) ->
  (forall d r s0 t0 st0, ch0 = d ++ (s0, t0) :: r -> Inv d ((s0, t0) :: r) st0 ->
     exists st1, body s0 st0 = Ok (st1, NO_ERROR) /\ Inv (d ++ [(s0, t0)]) r st1) ->
  exists st', each l body st = Ok (st', NO_ERROR) /\ Inv ch0 [] st'.
Proof.
  intros St body Inv up l. induction l as [|x l IH]; intros ch0 done ch st E0 EM HI Hskip Hstep.
  - simpl in EM. apply map_eq_nil in EM. subst. rewrite app_nil_r. exists st. auto.
  - cbn [each]. simpl in EM. destruct (not_up up x) eqn:EU.
    + destruct ch as [|(s0 & t0) ch]; simpl in EM; [discriminate|]. inversion EM as [[E1 E2]]. subst x.
      destruct (Hstep done ch s0 t0 st E0 HI) as (st1 & B & HI1).
      rewrite B. cbn [bind is_err]. apply (IH ch0 (done ++ [(s0, t0)]) ch); auto.
      rewrite <- app_assoc. exact E0.
    + apply not_up_false in EU. rewrite (Hskip done ch x st) by auto. cbn [bind is_err].
      now apply (IH ch0 done ch).
Qed.

Section Propagation.
Variable card : nat -> nat.
Local Notation valid := (valid card).
Local Notation sumv := (sumv card).
Local Notation shape_ok := (shape_ok card).

(** What an inspected or updated tree keeps of the tree [jt0] it started as. *)
Record keeps (jt0 jt : jtree) : Prop := {
  k_shape : same_shape jt0 jt;
  k_ok : shape_ok jt;
  k_nonneg : tables_nonneg jt;
  k_joint : forall a, valid a -> joint jt a = joint jt0 a
}.

Lemma keeps_refl : forall jt, shape_ok jt -> tables_nonneg jt -> keeps jt jt.
Proof. intros. split; auto using same_shape_refl. Qed.
Lemma keeps_trans : forall a b c, keeps a b -> keeps b c -> keeps a c.
Proof.
  intros a b c [A1 A2 A3 A4] [B1 B2 B3 B4]. split; auto.
  - eapply same_shape_trans; eauto.
  - intros x Hx. rewrite B4 by auto. auto.
Qed.

Lemma shape_len : forall a b, same_shape a b -> length (cls b) = length (cls a) /\ length (sps b) = length (sps a).
Proof. intros a b (H1 & H2 & _). auto. Qed.

Lemma keeps_mp : forall jt c1 s c2 jt', shape_ok jt -> tables_nonneg jt ->
  s < length (sps jt) -> joins jt s c1 c2 -> mp_rel card jt c1 s c2 jt' -> keeps jt jt'.
Proof.
  intros jt c1 s c2 jt' HS HN Hs HJ M. split.
  - apply (mp_shape _ _ _ _ _ _ M).
  - apply (mp_ok _ _ _ _ _ _ M).
  - eapply mp_nonneg; eauto.
  - eapply mp_joint; eauto.
Qed.

(** ** Marks *)
Definition mk (jt : jtree) (i : nat) : jtree :=
  mkJT (set_nth (cls jt) i (set_mark (clq jt i) true)) (sps jt).

Lemma mark_clique_ok : forall jt i, i < length (cls jt) -> mark_clique jt i = Ok (mk jt i).
Proof.
  intros jt i Hi. unfold mark_clique. rewrite rd_clq by auto. cbn [bind]. now apply put_clique_ok.
Qed.

Lemma mk_clq : forall jt i j, i < length (cls jt) ->
  clq (mk jt i) j = if Nat.eqb j i then set_mark (clq jt i) true else clq jt j.
Proof. intros. unfold mk. rewrite clq_set by auto. now rewrite jt_eta. Qed.

Lemma phi_set_mark : forall jt jt' i b, clq jt' i = set_mark (clq jt i) b ->
  forall a, phi jt' i a = phi jt i a.
Proof. intros jt jt' i b H a. unfold phi. now rewrite H. Qed.

(** Trees that differ only in marks. *)
Definition marks_only (jt jt' : jtree) : Prop :=
  sps jt' = sps jt /\ length (cls jt') = length (cls jt) /\
  forall i, i < length (cls jt) -> exists b, clq jt' i = set_mark (clq jt i) b.

Lemma clq_out : forall jt jt' i, length (cls jt') = length (cls jt) -> length (cls jt) <= i ->
  clq jt' i = clq jt i.
Proof. intros jt jt' i E H. unfold clq. rewrite !nth_overflow by lia. reflexivity. Qed.

Lemma marks_only_same : forall jt jt', marks_only jt jt' ->
  same_shape jt jt' /\ (forall i a, phi jt' i a = phi jt i a) /\ (forall s a, psi jt' s a = psi jt s a).
Proof.
  intros jt jt' (E1 & E2 & E3).
  assert (K : forall i, clq jt' i = clq jt i \/ exists b, clq jt' i = set_mark (clq jt i) b).
  { intros i. destruct (Nat.lt_ge_cases i (length (cls jt))); auto. left. now apply clq_out. }
  split; [|split].
  - split; auto. split; [now rewrite E1|]. split.
    + intros i. destruct (K i) as [->|(b & ->)]; auto.
    + intros s. unfold sep. now rewrite E1.
  - intros i a. unfold phi. destruct (K i) as [->|(b & ->)]; auto.
  - intros s a. unfold psi, sep. now rewrite E1.
Qed.

Lemma joint_ext : forall jt jt' a, length (cls jt') = length (cls jt) -> length (sps jt') = length (sps jt) ->
  (forall i, i < length (cls jt) -> phi jt' i a = phi jt i a) ->
  (forall s, s < length (sps jt) -> psi jt' s a = psi jt s a) -> joint jt' a = joint jt a.
Proof.
  intros jt jt' a E1 E2 H1 H2. unfold joint. rewrite E1, E2. f_equal.
  - apply qprod_map_ext. intros i Hi. apply in_seq in Hi. apply H1. lia.
  - apply qprod_map_ext. intros i Hi. apply in_seq in Hi. apply H2. lia.
Qed.

Lemma marks_only_ok : forall jt jt', marks_only jt jt' -> shape_ok jt -> shape_ok jt'.
Proof.
  intros jt jt' HM HS. destruct (marks_only_same _ _ HM) as (SH & _).
  destruct HM as (E1 & E2 & E3).
  apply (shape_ok_change card jt); auto.
  - intros i Hi. destruct (E3 i Hi) as (b & ->). cbn. now apply shape_clq.
  - intros s Hs. unfold sep. rewrite E1. destruct HS as (_ & _ & HS). apply (HS s Hs).
  - intros s Hs. unfold sep. rewrite E1. destruct HS as (_ & _ & HS). apply (HS s Hs).
Qed.

Lemma marks_only_nonneg : forall jt jt', marks_only jt jt' -> tables_nonneg jt -> tables_nonneg jt'.
Proof.
  intros jt jt' (E1 & E2 & E3) (N1 & N2). split.
  - intros i Hi. rewrite E2 in Hi. destruct (E3 i Hi) as (b & ->). cbn. auto.
  - intros s Hs. unfold sep. rewrite E1 in *. now apply N2.
Qed.

Lemma marks_only_keeps : forall jt jt', marks_only jt jt' -> shape_ok jt -> tables_nonneg jt -> keeps jt jt'.
Proof.
  intros jt jt' HM HS HN. destruct (marks_only_same _ _ HM) as (SH & HP & HQ). split; auto.
  - now apply (marks_only_ok jt).
  - now apply (marks_only_nonneg jt).
  - intros a Ha. destruct (shape_len _ _ SH). apply joint_ext; auto.
Qed.

Lemma mk_marks_only : forall jt i, i < length (cls jt) -> marks_only jt (mk jt i).
Proof.
  intros jt i Hi. split; [reflexivity|]. split; [unfold mk; cbn; apply set_nth_length|].
  intros j Hj. rewrite mk_clq by auto. destruct (Nat.eqb_spec j i) as [->|N].
  - exists true. auto.
  - exists (c_mark (clq jt j)). now destruct (clq jt j).
Qed.

Lemma unmark_all_ok : forall jt, exists jt', unmark_all jt = Ok jt' /\ marks_only jt jt' /\
  forall i, i < length (cls jt) -> c_mark (clq jt' i) = false.
Proof.
  intros jt. unfold unmark_all.
  destruct (for_up_inv _ (fun n j => marks_only jt j /\ forall i, i < n -> c_mark (clq j i) = false)
    (fun i jt => let* c := rd (cls jt) i in put_clique jt i (set_mark c false)) 0 (length (cls jt)) jt)
    as (jt' & E & H1 & H2); auto.
  - lia.
  - split; [|intros; lia]. split; auto. split; auto. intros i Hi. exists (c_mark (clq jt i)).
    now destruct (clq jt i).
  - intros i j Hi ((E1 & E2 & E3) & HM). rewrite rd_clq by lia. cbn [bind].
    rewrite put_clique_ok by lia. eexists. split; [reflexivity|]. split.
    + split; [exact E1|]. split; [cbn; rewrite set_nth_length; auto|].
      intros k Hk. rewrite clq_set by lia. destruct (Nat.eqb_spec k i) as [->|N].
      * destruct (E3 i Hk) as (b & ->). exists false. reflexivity.
      * rewrite jt_eta. auto.
    + intros k Hk. rewrite clq_set by lia. destruct (Nat.eqb_spec k i) as [->|N]; auto.
      rewrite jt_eta. apply HM. lia.
  - exists jt'. auto.
Qed.

Lemma clique_marked_ok : forall jt i, i < length (cls jt) -> clique_marked jt i = Ok (c_mark (clq jt i)).
Proof. intros. unfold clique_marked. now rewrite rd_clq. Qed.

(** ** Collected sub-trees *)
Definition up_msg (jt : jtree) (s : nat) (t : rtree) : Prop :=
  forall a, valid a ->
    psi jt s a = sumv (minus (c_vars (clq jt (root t))) (s_vars (sep jt s))) (phi jt (root t)) a.

Inductive collected (jt : jtree) : rtree -> Prop :=
| collected_node : forall i ch,
    (forall s t, In (s, t) ch -> up_msg jt s t /\
       forall a, valid a -> psi jt s a = 0%Qc -> phi jt i a = 0%Qc) ->
    (forall s t, In (s, t) ch -> collected jt t) ->
    collected jt (Node i ch).

(** Agreement of two states on some cliques and sepsets. *)
Definition agree (ns es : list nat) (jt jt' : jtree) : Prop :=
  (forall x a, In x ns -> valid a -> phi jt' x a = phi jt x a) /\
  (forall k a, In k es -> valid a -> psi jt' k a = psi jt k a).

Lemma sumv_phi_eq : forall jt jt' i vs a, valid a ->
  (forall b, valid b -> phi jt' i b = phi jt i b) -> sumv vs (phi jt' i) a = sumv vs (phi jt i) a.
Proof. intros. now apply sumv_ext. Qed.

Lemma collected_agree : forall jt jt' t, same_shape jt jt' -> agree (nodes t) (edges t) jt jt' ->
  collected jt t -> collected jt' t.
Proof.
  intros jt jt' t SH. induction t as [i ch IH] using rtree_ind2. intros (A1 & A2) H.
  inversion H as [i' ch' H1 H2]; subst.
  assert (AC : forall s t, In (s, t) ch -> agree (nodes t) (edges t) jt jt').
  { intros s t Hin. split; intros x a Hx Ha.
    - apply A1; auto. simpl. right. eapply cnodes_in; eauto.
    - apply A2; auto. simpl. eapply cedges_in; eauto. }
  constructor.
  - intros s t Hin. destruct (H1 s t Hin) as (U & Z).
    assert (Ps : forall a, valid a -> psi jt' s a = psi jt s a).
    { intros a Ha. apply A2; auto. simpl. eapply cedges_in; eauto. }
    destruct SH as (_ & _ & SC & SS). split.
    + intros a Ha. destruct (SC (root t)) as (-> & _), (SS s) as (-> & _).
      rewrite Ps by auto. rewrite U by auto. symmetry. apply sumv_phi_eq; auto. intros b Hb.
      apply A1; auto. simpl. right. eapply cnodes_in; eauto. apply root_in.
    + intros a Ha Hz. rewrite Ps in Hz by auto. rewrite A1; simpl; auto.
  - intros s t Hin. apply (IH s t); eauto.
Qed.

(** Multiplying the root of a collected tree leaves it collected. *)
Lemma collected_scale_root : forall jt jt' i ch, same_shape jt jt' ->
  agree (cnodes ch) (cedges ch) jt jt' ->
  (forall a, valid a -> phi jt i a = 0%Qc -> phi jt' i a = 0%Qc) ->
  collected jt (Node i ch) -> collected jt' (Node i ch).
Proof.
  intros jt jt' i ch SH (A1 & A2) HZ H. inversion H as [i' ch' H1 H2]; subst.
  constructor.
  - intros s t Hin. destruct (H1 s t Hin) as (U & Z).
    assert (Ps : forall a, valid a -> psi jt' s a = psi jt s a).
    { intros a Ha. apply A2; auto. eapply cedges_in; eauto. }
    assert (SH' := SH). destruct SH' as (_ & _ & SC & SS). split.
    + intros a Ha. destruct (SC (root t)) as (-> & _), (SS s) as (-> & _).
      rewrite Ps by auto. rewrite U by auto. symmetry. apply sumv_phi_eq; auto. intros b Hb.
      apply A1; auto. eapply cnodes_in; eauto. apply root_in.
    + intros a Ha Hz. rewrite Ps in Hz by auto. auto.
  - intros s t Hin. apply (collected_agree jt); [auto| |eauto]. split; intros x a Hx Ha.
    + apply A1; auto. eapply cnodes_in; eauto.
    + apply A2; auto. eapply cedges_in; eauto.
Qed.

(** ** collect_evidence *)
Lemma rd_same : forall jt jt', same_shape jt jt' -> length (cls jt') = length (cls jt).
Proof. intros jt jt' (H & _). auto. Qed.

(** Marks, cliques and sepsets outside of a region are untouched. *)
Record region (jt0 jt : jtree) (ns es : list nat) : Prop := {
  r_in : forall x, In x ns -> c_mark (clq jt x) = true;
  r_clq : forall x, ~ In x ns -> clq jt x = clq jt0 x;
  r_sep : forall k, ~ In k es -> sep jt k = sep jt0 k
}.

Definition parent_marked (jt : jtree) (up : option nat) (i : nat) : Prop :=
  forall u, up = Some u -> u < length (sps jt) /\ exists p, joins jt u i p /\ c_mark (clq jt p) = true.

Definition finish_collect (parent : option (nat * nat)) (i : nat) (jt : jtree) : res (jtree * code) :=
  match parent with
  | None => Ok (jt, NO_ERROR)
  | Some (c1, s12) => message_pass jt i s12 c1
  end.

Lemma mark_irrel : forall jt s p, s < length (sps jt) -> shape_ok jt ->
  forall i, joins jt s i p -> c_mark (clq jt i) = true -> c_mark (clq jt p) = true ->
  clique_marked jt (s_first (sep jt s)) = Ok true /\ clique_marked jt (s_second (sep jt s)) = Ok true.
Proof.
  intros jt s p Hs HS i HJ H1 H2. destruct (joins_incl card jt s i p HS Hs HJ) as (_ & _ & L1 & L2 & _).
  destruct HJ as [(-> & ->)|(-> & ->)]; rewrite !clique_marked_ok by auto; rewrite H1, H2; auto.
Qed.

Lemma collect_ok : forall t fuel jt up parent, shape_ok jt -> tables_nonneg jt -> ort jt up t ->
  NoDup (nodes t) -> NoDup (edges t) -> (forall x, In x (nodes t) -> x < length (cls jt)) ->
  length (nodes t) <= fuel ->
  (forall x, In x (nodes t) -> c_mark (clq jt x) = false) ->
  parent_marked jt up (root t) -> (forall u, up = Some u -> ~ In u (edges t) /\
     forall p, joins jt u (root t) p -> ~ In p (nodes t)) ->
  exists jt', collect_evidence fuel jt parent (root t) = finish_collect parent (root t) jt' /\
    keeps jt jt' /\ region jt jt' (nodes t) (edges t) /\ collected jt' t.
Proof.
  induction t as [i ch IH] using rtree_ind2.
  intros fuel jt up parent HS HN HO ND NE HX HF HU HP HUP.
  cbn [root] in *. inversion HO as [up' i' ch' OM OJ OL OR]; subst.
  destruct fuel as [|f]; [simpl in HF; lia|].
  assert (Hi : i < length (cls jt)) by (apply HX; simpl; auto).
  cbn [collect_evidence]. rewrite mark_clique_ok by auto. cbn [bind].
  set (jt1 := mk jt i).
  assert (MO : marks_only jt jt1) by (now apply mk_marks_only).
  assert (K1 : keeps jt jt1) by (now apply marks_only_keeps).
  destruct (marks_only_same _ _ MO) as (SH1 & HPh1 & HPs1).
  assert (L1 : length (cls jt1) = length (cls jt)) by (apply (shape_len _ _ SH1)).
  rewrite rd_clq by lia. cbn [bind].
  assert (Es : c_sepsets (clq jt1 i) = c_sepsets (clq jt i)) by (apply SH1).
  rewrite Es.
  inversion ND as [|? ? Ni NDc]; subst. fold (cnodes ch) in Ni, NDc. fold (cedges ch) in NE.
  (* invariant of the loop over the sepsets *)
  set (Inv := fun (d r : list (nat * rtree)) (j : jtree) =>
     keeps jt j /\ region jt j (i :: cnodes d) (cedges d) /\
     (forall s t, In (s, t) d -> up_msg j s t /\
        forall a, valid a -> psi j s a = 0%Qc -> phi j i a = 0%Qc) /\
     (forall s t, In (s, t) d -> collected j t)).
  match goal with |- context [each _ ?b _] => set (body := b) end.
  destruct (each_children _ body Inv up (c_sepsets (clq jt i)) ch [] ch jt1) as (jt' & E & HI); auto.
  - split; [exact K1|]. split; [|split; intros s t []]. split.
    + intros x [<-|[]]. unfold jt1. rewrite mk_clq by auto. now rewrite Nat.eqb_refl.
    + intros x Hx. unfold jt1. rewrite mk_clq by auto. destruct (Nat.eqb_spec x i); auto.
      subst. exfalso. apply Hx. simpl; auto.
    + reflexivity.
  - (* the sepset towards the parent is skipped *)
    intros d r s0 j E0 EU (K & R & _). destruct (HP s0 EU) as (Hs0 & p & HJ & HM).
    assert (SH := k_shape _ _ K). destruct (shape_len _ _ SH) as (La & Lb).
    unfold body. rewrite rd_sep by lia. cbn [bind].
    assert (Mi : c_mark (clq j i) = true) by (apply (r_in _ _ _ _ R); simpl; auto).
    assert (Mp : c_mark (clq j p) = true).
    { destruct (in_dec Nat.eq_dec p (i :: cnodes d)) as [Hin|Hout].
      - now apply (r_in _ _ _ _ R).
      - rewrite (r_clq _ _ _ _ R); auto. }
    destruct (mark_irrel j s0 p) with (i := i) as (M1 & M2); auto; try lia.
    { apply (k_ok _ _ K). }
    { eapply same_shape_joins; eauto. }
    rewrite M1. cbn [bind negb is_err]. rewrite M2. reflexivity.
  - (* a sub-tree *)
    intros d r s0 t0 j E0 (K & R & C1 & C2).
    assert (Hin : In (s0, t0) ch) by (rewrite E0; apply in_or_app; simpl; auto).
    assert (SH := k_shape _ _ K). destruct (shape_len _ _ SH) as (La & Lb).
    assert (Hs0 : s0 < length (sps jt)) by (eapply OL; eauto).
    assert (HJ : joins jt s0 i (root t0)) by (now apply OJ).
    assert (HJj : joins j s0 i (root t0)) by (eapply same_shape_joins; eauto).
    assert (HSj : shape_ok j) by apply K.
    destruct (joins_incl card j s0 i (root t0) HSj) as (I1 & I2 & Li & Lr & Nir); auto; try lia.
    rewrite E0 in NDc, NE.
    destruct (cnodes_nodup _ _ _ _ NDc) as (NDt & Dt).
    destruct (cedges_nodup _ _ _ _ NE) as (NEt & De & Ns0).
    assert (Nit : ~ In i (nodes t0)).
    { intros Q. apply Ni. eapply cnodes_in; eauto. }
    assert (Mi : c_mark (clq j i) = true) by (apply (r_in _ _ _ _ R); simpl; auto).
    assert (Ut : forall x, In x (nodes t0) -> clq j x = clq jt x).
    { intros x Hx. apply (r_clq _ _ _ _ R). intros [<-|Q]; auto. destruct (Dt x Hx); auto. }
    assert (Um : forall x, In x (nodes t0) -> c_mark (clq j x) = false).
    { intros x Hx. rewrite Ut by auto. apply HU. simpl. right. eapply cnodes_in; eauto. }
    destruct (IH s0 t0 Hin f j (Some s0) (Some (i, s0))) as (j1 & E1 & K2 & R2 & C3); auto.
    { apply K. }
    { clear -SH HO Hin OR. specialize (OR s0 t0 Hin). revert OR. generalize (Some s0) as u.
      clear -SH. induction t0 as [k c IHt] using rtree_ind2. intros u H.
      inversion H as [u' k' c' A B C D]; subst. constructor.
      - destruct SH as (_ & _ & SC & _). destruct (SC k) as (_ & -> & _). auto.
      - intros s t Hs. eapply same_shape_joins; eauto.
      - intros s t Hs. destruct SH as (_ & -> & _). eauto.
      - intros s t Hs. apply (IHt s t Hs). auto. }
    { intros x Hx. rewrite La. apply HX. simpl. right. eapply cnodes_in; eauto. }
    { clear -HF Hin. simpl in HF. assert (length (nodes t0) <= length (cnodes ch)); [|unfold cnodes in *; lia].
      apply in_split in Hin. destruct Hin as (l1 & l2 & ->). rewrite cnodes_app. simpl.
      rewrite !app_length. lia. }
    { intros u Eu. inversion Eu; subst. split; [lia|]. exists i. split; auto. now apply joins_sym. }
    { intros u Eu. inversion Eu; subst. split; auto. intros p Hp Hpn.
      assert (p = i); [|subst; auto].
      destruct HJj as [(A & B)|(A & B)], Hp as [(C & D)|(C & D)]; congruence. }
    (* the message to i *)
    assert (SH2 := k_shape _ _ K2). destruct (shape_len _ _ SH2) as (La2 & Lb2).
    assert (HSj1 : shape_ok j1) by apply K2.
    assert (HJ1 : joins j1 s0 (root t0) i) by (apply joins_sym; eapply same_shape_joins; eauto).
    destruct (message_pass_ok card j1 (root t0) s0 i) as (j2 & E2 & M); auto; [lia|].
    assert (K3 : keeps j1 j2).
    { eapply keeps_mp; eauto; [apply K2|lia]. }
    assert (Mi1 : c_mark (clq j1 i) = true) by (rewrite (r_clq _ _ _ _ R2); auto).
    exists j2. split.
    { unfold body. rewrite rd_sep by lia. cbn [bind].
      destruct HJj as [(A & B)|(A & B)]; rewrite A, B.
      - rewrite clique_marked_ok by auto. rewrite Mi. cbn [bind negb is_err].
        rewrite clique_marked_ok by auto. rewrite (Um (root t0) (root_in t0)). cbn [bind negb].
        rewrite E1. exact E2.
      - rewrite clique_marked_ok by auto. rewrite (Um (root t0) (root_in t0)). cbn [bind negb].
        rewrite E1. cbn [finish_collect]. rewrite E2. cbn [bind is_err].
        rewrite clique_marked_ok by (destruct (shape_len _ _ (k_shape _ _ K3)); lia).
        rewrite (mp_marks _ _ _ _ _ _ M), Mi1. reflexivity. }
    assert (KK : keeps jt j2) by (eapply keeps_trans; [exact K|eapply keeps_trans; eauto]).
    split; [exact KK|].
    assert (F1 : forall x, x <> i -> clq j2 x = clq j1 x) by (intros; now apply (mp_clq _ _ _ _ _ _ M)).
    assert (F2 : forall k, k <> s0 -> sep j2 k = sep j1 k) by (intros; now apply (mp_sep _ _ _ _ _ _ M)).
    split; [|split].
    + split.
      * intros x [<-|Hx]; rewrite (mp_marks _ _ _ _ _ _ M); auto.
        rewrite cnodes_app in Hx. apply in_app_or in Hx. destruct Hx as [Hx|Hx].
        -- rewrite (r_clq _ _ _ _ R2).
           ++ apply (r_in _ _ _ _ R). simpl; auto.
           ++ intros Q. destruct (Dt x Q); auto.
        -- simpl in Hx. rewrite app_nil_r in Hx. now apply (r_in _ _ _ _ R2).
      * intros x Hx. rewrite cnodes_app in Hx. simpl in Hx. rewrite app_nil_r, in_app_iff in Hx.
        rewrite F1 by (intros ->; apply Hx; auto).
        rewrite (r_clq _ _ _ _ R2) by tauto. apply (r_clq _ _ _ _ R). simpl. tauto.
      * intros k Hk. rewrite cedges_app in Hk. simpl in Hk. rewrite app_nil_r, in_app_iff in Hk.
        simpl in Hk. rewrite F2 by (intros ->; apply Hk; auto).
        rewrite (r_sep _ _ _ _ R2) by tauto. apply (r_sep _ _ _ _ R). tauto.
    + (* messages *)
      intros s t Hst. apply in_app_or in Hst. destruct Hst as [Hst|[Est|[]]].
      * destruct (C1 s t Hst) as (U & Z).
        assert (Sx : sep j2 s = sep j s).
        { assert (Q : In s (cedges d)) by (eapply cedges_in; eauto).
          rewrite F2.
          - apply (r_sep _ _ _ _ R2). intros Q2. destruct (De s (or_intror Q2)); auto.
          - intros ->. destruct (De s0 (or_introl eq_refl)); auto. }
        assert (Cx : clq j2 (root t) = clq j (root t)).
        { assert (Q : In (root t) (cnodes d)) by (eapply cnodes_in; eauto; apply root_in).
          rewrite F1.
          - apply (r_clq _ _ _ _ R2). intros Q2. destruct (Dt _ Q2); auto.
          - intros Q3. apply Ni. rewrite <- Q3. rewrite E0, cnodes_app. apply in_or_app; auto. }
        split.
        -- intros a Ha. unfold psi. rewrite Sx, Cx. unfold phi. rewrite Cx. apply (U a Ha).
        -- intros a Ha Hz. unfold psi in Hz. rewrite Sx in Hz.
           rewrite (mp_phi _ _ _ _ _ _ M) by auto.
           assert (Q : phi j1 i a = phi j i a) by (unfold phi; rewrite (r_clq _ _ _ _ R2); auto).
           rewrite Q, (Z a Ha Hz). unfold Qcdiv. ring.
      * inversion Est; subst s t. split.
        -- intros a Ha. rewrite (mp_psi _ _ _ _ _ _ M) by auto.
           destruct (k_shape _ _ K3) as (_ & _ & SC & SS).
           destruct (SC (root t0)) as (-> & _), (SS s0) as (-> & _).
           symmetry. apply sumv_phi_eq; auto. intros b Hb. unfold phi. rewrite F1; auto.
        -- intros a Ha Hz. rewrite (mp_phi _ _ _ _ _ _ M) by auto. rewrite Hz. unfold Qcdiv. ring.
    + (* collected sub-trees *)
      intros s t Hst. apply in_app_or in Hst. destruct Hst as [Hst|[Est|[]]].
      * apply (collected_agree j).
        -- eapply same_shape_trans; [exact SH2|apply K3].
        -- split.
           ++ intros x a Hx Ha. assert (Q : In x (cnodes d)) by (eapply cnodes_in; eauto).
              unfold phi. rewrite F1.
              ** rewrite (r_clq _ _ _ _ R2); auto. intros Q2. destruct (Dt _ Q2); auto.
              ** intros ->. apply Ni. rewrite E0, cnodes_app. apply in_or_app; auto.
           ++ intros k a Hk Ha. assert (Q : In k (cedges d)) by (eapply cedges_in; eauto).
              unfold psi. rewrite F2.
              ** rewrite (r_sep _ _ _ _ R2); auto. intros Q2. destruct (De _ (or_intror Q2)); auto.
              ** intros ->. destruct (De s0 (or_introl eq_refl)); auto.
        -- eauto.
      * inversion Est; subst s t. apply (collected_agree j1); [apply K3| |auto].
        split.
        -- intros x a Hx Ha. unfold phi. rewrite F1; auto. intros ->; auto.
        -- intros k a Hk Ha. unfold psi. rewrite F2; auto. intros ->; auto.
  - rewrite E. cbn [bind is_err]. destruct HI as (K & R & C1 & C2).
    exists jt'. split; [reflexivity|]. split; [exact K|]. split; [exact R|].
    constructor; auto.
Qed.

End Propagation.
