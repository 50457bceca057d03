(** * Distributing evidence; make_consistent calibrates *)
From Coq Require Import Permutation Field Relations.
From Verif Require Import Base BaseProofs PotentialModel PotentialSpec JoinTreeModel
  AssignSpec AssignProofs JoinTreeSpec JoinTreeProofs JoinTreeProofs2 JoinTreeProofs3.
Import ListNotations.
Open Scope nat_scope.
Local Open Scope res_scope.
Add Field Qcfield_jt4 : Qcft.

Lemma ort_same_shape : forall jt j t u, same_shape jt j -> ort jt u t -> ort j u t.
Proof.
  intros jt j t u SH. revert u. induction t as [k c IHt] using rtree_ind2. intros u H.
  inversion H as [u' k' c' A B C D]; subst. constructor.
  - destruct SH as (_ & _ & SC & _). destruct (SC k) as (_ & -> & _). auto.
  - intros s t Hs. eapply same_shape_joins; eauto.
  - intros s t Hs. destruct SH as (_ & -> & _). eauto.
  - intros s t Hs. apply (IHt s t Hs). auto.
Qed.

Definition tedges (ch : list (nat * rtree)) : list nat := flat_map (fun c => edges (snd c)) ch.
Lemma tedges_in : forall ch s t x, In (s, t) ch -> In x (edges t) -> In x (tedges ch).
Proof. intros. unfold tedges. apply in_flat_map. exists (s, t). auto. Qed.
Lemma tedges_inv : forall ch x, In x (tedges ch) -> exists s t, In (s, t) ch /\ In x (edges t).
Proof. intros ch x H. apply in_flat_map in H. destruct H as ((s & t) & H1 & H2). eauto. Qed.
Lemma tedges_cedges : forall ch x, In x (tedges ch) -> In x (cedges ch).
Proof. intros ch x H. apply tedges_inv in H. destruct H as (s & t & A & B). eapply cedges_in; eauto. Qed.
Lemma tedges_app : forall a b, tedges (a ++ b) = tedges a ++ tedges b.
Proof. intros. apply flat_map_app. Qed.

(** A sepset above a child is not inside any child. *)
Lemma child_edge_out : forall ch s t, NoDup (cedges ch) -> In (s, t) ch -> ~ In s (tedges ch).
Proof.
  intros ch s t H Hin K. apply in_split in Hin. destruct Hin as (l1 & l2 & ->).
  destruct (cedges_nodup _ _ _ _ H) as (_ & D & N). rewrite tedges_app in K. simpl in K.
  apply in_app_or in K. destruct (D s (or_introl eq_refl)) as (D1 & D2).
  destruct K as [K|K]; [now apply D1, tedges_cedges|].
  apply in_app_or in K. destruct K as [K|K]; auto. now apply D2, tedges_cedges.
Qed.

(** Children with distinct sepsets and roots. *)
Lemma roots_split : forall d s t r, NoDup (cnodes (d ++ (s, t) :: r)) -> ~ In (root t) (map (fun c => root (snd c)) d).
Proof.
  intros d s t r H K. apply in_map_iff in K. destruct K as ((s1 & t1) & E & Hin). simpl in E.
  destruct (cnodes_nodup _ _ _ _ H) as (_ & D). destruct (D (root t) (root_in t)) as (D1 & _).
  apply D1. eapply cnodes_in; eauto. rewrite <- E. apply root_in.
Qed.

Section Propagation.
Variable card : nat -> nat.
Local Notation valid := (valid card).
Local Notation sumv := (sumv card).
Local Notation shape_ok := (shape_ok card).
Local Notation up_msg := (up_msg card).
Local Notation collected := (collected card).
Local Notation keeps := (keeps card).

Definition down_msg (jt : jtree) (i s : nat) : Prop :=
  forall a, valid a ->
    psi jt s a = sumv (minus (c_vars (clq jt i)) (s_vars (sep jt s))) (phi jt i) a.

Inductive calib (jt : jtree) : rtree -> Prop :=
| calib_node : forall i ch,
    (forall s t, In (s, t) ch -> up_msg jt s t /\ down_msg jt i s) ->
    (forall s t, In (s, t) ch -> calib jt t) ->
    calib jt (Node i ch).

Lemma calib_agree : forall jt jt' t, same_shape jt jt' -> agree card (nodes t) (edges t) jt jt' ->
  calib jt t -> calib jt' t.
Proof.
  intros jt jt' t SH. induction t as [i ch IH] using rtree_ind2. intros (A1 & A2) H.
  inversion H as [i' ch' H1 H2]; subst.
  constructor.
  - intros s t Hin. destruct (H1 s t Hin) as (U & D).
    assert (Ps : forall a, valid a -> psi jt' s a = psi jt s a).
    { intros a Ha. apply A2; auto. simpl. eapply cedges_in; eauto. }
    destruct SH as (_ & _ & SC & SS). split.
    + intros a Ha. destruct (SC (root t)) as (-> & _), (SS s) as (-> & _).
      rewrite Ps by auto. rewrite U by auto. symmetry. apply sumv_phi_eq; auto. intros b Hb.
      apply A1; auto. simpl. right. eapply cnodes_in; eauto. apply root_in.
    + intros a Ha. destruct (SC i) as (-> & _), (SS s) as (-> & _).
      rewrite Ps by auto. rewrite D by auto. symmetry. apply sumv_phi_eq; auto. intros b Hb.
      apply A1; auto. simpl. auto.
  - intros s t Hin. apply (IH s t); auto.
    + split; intros x a Hx Ha.
      * apply A1; auto. simpl. right. eapply cnodes_in; eauto.
      * apply A2; auto. simpl. eapply cedges_in; eauto.
    + eauto.
Qed.

(** A message into a clique whose sepset was its marginal makes the new
    sepset its marginal. *)
Lemma mp_absorbed : forall jt i s r jt', shape_ok jt -> s < length (sps jt) -> joins jt s i r ->
  mp_rel card jt i s r jt' ->
  (forall a, valid a -> psi jt s a =
     sumv (minus (c_vars (clq jt r)) (s_vars (sep jt s))) (phi jt r) a) ->
  (forall a, valid a -> psi jt s a = 0%Qc -> phi jt i a = 0%Qc) ->
  (forall a, valid a -> psi jt' s a =
     sumv (minus (c_vars (clq jt r)) (s_vars (sep jt s))) (phi jt' r) a).
Proof.
  intros jt i s r jt' HS Hs HJ M HU HZ a Ha.
  rewrite (sumv_ext card _ (phi jt' r) (fun b => (psi jt' s b / psi jt s b) * phi jt r b)%Qc a Ha).
  - rewrite (sumv_scale card (s_vars (sep jt s))).
    + rewrite <- HU by auto. destruct (Qc_eq_dec (psi jt s a) 0%Qc) as [Z|NZ].
      * rewrite Z. rewrite (mp_psi _ _ _ _ _ _ M) by auto.
        rewrite sumv_zero; [unfold Qcdiv; ring|auto|].
        intros b Hb Hout. apply HZ; auto. rewrite <- Z. apply (psi_dep jt s). intros v Hv.
        apply Hout. rewrite minus_in. tauto.
      * field. auto.
    + intros x y E. f_equal.
      * destruct (mp_shape _ _ _ _ _ _ M) as (_ & _ & _ & SS). destruct (SS s) as (E1 & _).
        apply (psi_dep jt' s). rewrite E1. auto.
      * now apply (psi_dep jt s).
    + intros v Hv. rewrite minus_in. tauto.
  - intros b Hb. rewrite (mp_phi _ _ _ _ _ _ M) by auto. unfold Qcdiv. ring.
Qed.

Lemma distribute_ok : forall t fuel jt up, shape_ok jt -> tables_nonneg jt -> ort jt up t ->
  NoDup (nodes t) -> NoDup (edges t) -> (forall x, In x (nodes t) -> x < length (cls jt)) ->
  length (nodes t) <= fuel ->
  (forall x, In x (nodes t) -> c_mark (clq jt x) = false) ->
  parent_marked jt up (root t) -> (forall u, up = Some u -> ~ In u (edges t) /\
     forall p, joins jt u (root t) p -> ~ In p (nodes t)) ->
  collected jt t ->
  exists jt', distribute_evidence fuel jt (root t) = Ok (jt', NO_ERROR) /\
    keeps jt jt' /\ region jt jt' (nodes t) (edges t) /\
    (forall a, phi jt' (root t) a = phi jt (root t) a) /\ calib jt' t.
Proof.
  induction t as [i ch IH] using rtree_ind2.
  intros fuel jt up HS HN HO ND NE HX HF HU HP HUP HC.
  cbn [root] in *. inversion HO as [up' i' ch' OM OJ OL OR]; subst.
  inversion HC as [i' ch' HC1 HC2]; subst.
  destruct fuel as [|f]; [simpl in HF; lia|].
  assert (Hi : i < length (cls jt)) by (apply HX; simpl; auto).
  cbn [distribute_evidence]. rewrite rd_clq by auto. cbn [bind].
  rewrite mark_clique_ok by auto. cbn [bind].
  set (jt1 := mk jt i).
  assert (MO : marks_only jt jt1) by (now apply mk_marks_only).
  assert (K1 : keeps jt jt1) by (now apply marks_only_keeps).
  destruct (marks_only_same _ _ MO) as (SH1 & HPh1 & HPs1).
  inversion ND as [|? ? Ni NDc]; subst. fold (cnodes ch) in Ni, NDc. fold (cedges ch) in NE.
  assert (Mk1 : c_mark (clq jt1 i) = true).
  { unfold jt1. rewrite mk_clq by auto. now rewrite Nat.eqb_refl. }
  assert (Cq1 : forall x, x <> i -> clq jt1 x = clq jt x).
  { intros x Hx. unfold jt1. rewrite mk_clq by auto. destruct (Nat.eqb_spec x i); congruence. }
  assert (Hpar : forall j s0, keeps jt j -> c_mark (clq j i) = true -> up = Some s0 ->
     (forall p, joins jt s0 i p -> c_mark (clq j p) = c_mark (clq jt p)) ->
     s0 < length (sps j) /\
     clique_marked j (s_first (sep j s0)) = Ok true /\ clique_marked j (s_second (sep j s0)) = Ok true).
  { intros j s0 K Mi EU Hm. destruct (HP s0 EU) as (Hs0 & p & HJ & HM).
    assert (SH := k_shape _ _ _ K). destruct (shape_len _ _ SH) as (La & Lb).
    split; [lia|]. apply (mark_irrel card) with (p := p) (i := i); auto; try lia.
    - apply K.
    - eapply same_shape_joins; eauto.
    - rewrite Hm; auto. }
  assert (Hup_out : forall s0 p, up = Some s0 -> joins jt s0 i p -> p <> i /\ ~ In p (cnodes ch)).
  { intros s0 p EU HJ. destruct (HUP s0 EU) as (_ & Q). specialize (Q p HJ).
    split; [intros ->|intros K]; apply Q; simpl; auto. }
  (* first loop: messages to the children *)
  set (Inv1 := fun (d r : list (nat * rtree)) (j : jtree) =>
     keeps jt j /\ (forall x, c_mark (clq j x) = c_mark (clq jt1 x)) /\
     (forall x, ~ In x (map (fun c => root (snd c)) d) -> clq j x = clq jt1 x) /\
     (forall k, ~ In k (map fst d) -> sep j k = sep jt k) /\
     (forall s t, In (s, t) d -> up_msg j s t /\ down_msg j i s) /\
     (forall s t, In (s, t) ch -> collected j t)).
  match goal with |- context [bind (each _ ?b _) _] => set (body1 := b) end.
  destruct (each_children _ body1 Inv1 up (c_sepsets (clq jt i)) ch [] ch jt1) as (j1 & E1 & HI1); auto.
  { split; [exact K1|]. split; [auto|]. split; [auto|]. split; [reflexivity|].
    split; [intros s t []|]. intros s t Hin. apply (collected_agree card jt); auto.
    - split; intros; [apply HPh1|apply HPs1].
    - eauto. }
  { intros d r s0 j E0 EU (K & Mm & _).
    destruct (Hpar j s0 K) as (Ls & M1 & M2); auto.
    { rewrite Mm. auto. }
    { intros p HJ. rewrite Mm. rewrite Cq1; auto. apply (Hup_out s0 p EU HJ). }
    unfold body1. rewrite rd_sep by auto. cbn [bind]. rewrite M1. cbn [bind negb]. rewrite M2. reflexivity. }
  { intros d r s0 t0 j E0 (K & Mm & Fc & Fs & C1 & C2).
    assert (Hin : In (s0, t0) ch) by (rewrite E0; apply in_or_app; simpl; auto).
    assert (SH := k_shape _ _ _ K). destruct (shape_len _ _ SH) as (La & Lb).
    assert (Hs0 : s0 < length (sps jt)) by (eapply OL; eauto).
    assert (HJ : joins jt s0 i (root t0)) by (now apply OJ).
    assert (HJj : joins j s0 i (root t0)) by (eapply same_shape_joins; eauto).
    assert (HSj : shape_ok j) by apply K.
    destruct (joins_incl card j s0 i (root t0) HSj) as (I1 & I2 & Li & Lr & Nir); auto; try lia.
    assert (NDc' := NDc). assert (NE' := NE). rewrite E0 in NDc', NE'.
    destruct (cnodes_nodup _ _ _ _ NDc') as (NDt & Dt).
    destruct (cedges_nodup _ _ _ _ NE') as (NEt & De & Ns0).
    assert (Rout := roots_split _ _ _ _ NDc').
    assert (Sout : ~ In s0 (map fst d)).
    { intros Q. destruct (De s0 (or_introl eq_refl)) as (Q1 & _). apply Q1.
      apply in_map_iff in Q. destruct Q as ((s1 & t1) & <- & Q). eapply cedges_in; eauto. }
    assert (Iout : ~ In i (map (fun c => root (snd c)) d)).
    { intros Q. apply Ni. apply in_map_iff in Q. destruct Q as ((s1 & t1) & <- & Q).
      rewrite E0, cnodes_app. apply in_or_app. left. eapply cnodes_in; eauto. apply root_in. }
    assert (Ur : c_mark (clq j (root t0)) = false).
    { rewrite Mm, Cq1 by auto. apply HU. simpl. right. eapply cnodes_in; eauto. apply root_in. }
    assert (Mi : c_mark (clq j i) = true) by (rewrite Mm; auto).
    destruct (message_pass_ok card j i s0 (root t0)) as (j2 & E2 & M); auto; [lia|].
    assert (KM : keeps j j2) by (eapply keeps_mp; eauto; [apply K|lia]).
    assert (F1 : forall x, x <> root t0 -> clq j2 x = clq j x) by (intros; now apply (mp_clq _ _ _ _ _ _ M)).
    assert (F2 : forall k, k <> s0 -> sep j2 k = sep j k) by (intros; now apply (mp_sep _ _ _ _ _ _ M)).
    assert (Pi : forall a, phi j i a = phi jt i a).
    { intros a. unfold phi. rewrite Fc by auto. apply HPh1. }
    assert (Pr : forall a, phi j (root t0) a = phi jt (root t0) a).
    { intros a. unfold phi. rewrite Fc by auto. apply HPh1. }
    assert (Ps : forall a, psi j s0 a = psi jt s0 a).
    { intros a. unfold psi. now rewrite Fs. }
    exists j2. split.
    { unfold body1. rewrite rd_sep by lia. cbn [bind].
      destruct HJj as [(A & B)|(A & B)]; rewrite A, B.
      - rewrite clique_marked_ok by auto. rewrite Mi. cbn [bind negb].
        rewrite clique_marked_ok by auto. rewrite Ur. cbn [bind negb]. exact E2.
      - rewrite clique_marked_ok by auto. rewrite Ur. cbn [bind negb]. exact E2. }
    split; [eapply keeps_trans; eauto|].
    split; [intros x; rewrite (mp_marks _ _ _ _ _ _ M); auto|].
    split.
    { intros x Hx. rewrite map_app, in_app_iff in Hx. simpl in Hx. rewrite F1 by (intros ->; tauto).
      apply Fc. tauto. }
    split.
    { intros k Hk. rewrite map_app, in_app_iff in Hk. simpl in Hk. rewrite F2 by (intros ->; tauto).
      apply Fs. tauto. }
    split.
    { intros s t Hst. apply in_app_or in Hst. destruct Hst as [Hst|[Est|[]]].
      - destruct (C1 s t Hst) as (U & D).
        assert (Ns : s <> s0).
        { intros ->. apply Sout. apply (in_map fst) in Hst. auto. }
        assert (Nr : root t <> root t0).
        { intros Q. apply Rout. rewrite <- Q. apply (in_map (fun c => root (snd c))) in Hst. auto. }
        split.
        + intros a Ha. unfold psi, phi. rewrite F1, F2 by auto. apply (U a Ha).
        + intros a Ha. unfold psi, phi. rewrite F1, F2 by auto. apply (D a Ha).
      - inversion Est; subst s t. destruct (HC1 s0 t0 Hin) as (U & Z).
        destruct (k_shape _ _ _ KM) as (_ & _ & SC & SS). split.
        + intros a Ha. destruct (SC (root t0)) as (-> & _), (SS s0) as (-> & _).
          apply (mp_absorbed j i s0 (root t0) j2); auto; [lia| |].
          * intros b Hb. rewrite Ps. destruct SH as (_ & _ & SC0 & SS0).
            destruct (SC0 (root t0)) as (-> & _), (SS0 s0) as (-> & _). rewrite (U b Hb).
            symmetry. apply sumv_phi_eq; auto.
          * intros b Hb Hz. rewrite Pi. rewrite Ps in Hz. auto.
        + intros a Ha. destruct (SC i) as (-> & _), (SS s0) as (-> & _).
          rewrite (mp_psi _ _ _ _ _ _ M) by auto. symmetry. apply sumv_phi_eq; auto.
          intros b Hb. unfold phi. rewrite F1; auto. }
    { intros s t Hst. specialize (C2 s t Hst).
      destruct (Nat.eq_dec s s0) as [Es|Ns].
      - assert (Et : t = t0).
        { subst s. clear -Hst Hin NE E0. apply in_split in Hin. destruct Hin as (l1 & l2 & E).
          rewrite E in Hst, NE. destruct (cedges_nodup _ _ _ _ NE) as (_ & D & _).
          destruct (D s0 (or_introl eq_refl)) as (D1 & D2).
          apply in_app_or in Hst. destruct Hst as [H|[H|H]].
          - exfalso. apply D1. eapply cedges_in; eauto.
          - now inversion H.
          - exfalso. apply D2. eapply cedges_in; eauto. }
        subst s t. destruct t0 as [r0 c0]. cbn [root] in *.
        apply (collected_scale_root card j); auto.
        + apply KM.
        + inversion NDt as [|? ? N0 N1]; subst. split.
          * intros x a Hx Ha. unfold phi. rewrite F1; auto. intros ->. auto.
          * intros k a Hk Ha. unfold psi. rewrite F2; auto. intros ->. auto.
        + intros a Ha Hz. rewrite (mp_phi _ _ _ _ _ _ M) by auto. rewrite Hz. unfold Qcdiv. ring.
      - apply (collected_agree card j); auto; [apply KM|].
        assert (Hdr : In (s, t) d \/ In (s, t) r).
        { rewrite E0 in Hst. apply in_app_or in Hst. destruct Hst as [H|[H|H]]; auto. inversion H; congruence. }
        split.
        + intros x a Hx Ha. unfold phi. rewrite F1; auto. intros ->.
          destruct (Dt (root t0) (root_in t0)) as (Q1 & Q2).
          destruct Hdr as [H|H]; [apply Q1|apply Q2]; eapply cnodes_in; eauto.
        + intros k a Hk Ha. unfold psi. rewrite F2; auto. intros ->.
          destruct (De s0 (or_introl eq_refl)) as (Q1 & Q2).
          destruct Hdr as [H|H]; [apply Q1|apply Q2]; eapply cedges_in; eauto. } }
  destruct HI1 as (Kj & Mm & Fc & Fs & C1 & C2).
  rewrite E1. cbn [bind is_err].
  assert (SHj := k_shape _ _ _ Kj). destruct (shape_len _ _ SHj) as (Laj & Lbj).
  (* second loop: recursion *)
  set (Inv2 := fun (d r : list (nat * rtree)) (j : jtree) =>
     keeps jt j /\ same_shape j1 j /\
     (forall x, In x (cnodes d) -> c_mark (clq j x) = true) /\
     (forall x, ~ In x (cnodes d) -> clq j x = clq j1 x) /\
     (forall k, ~ In k (tedges d) -> sep j k = sep j1 k) /\
     (forall s t, In (s, t) d -> (forall a, phi j (root t) a = phi j1 (root t) a) /\ calib j t)).
  match goal with |- context [each _ ?b _] => set (body2 := b) end.
  destruct (each_children _ body2 Inv2 up (c_sepsets (clq jt i)) ch [] ch j1) as (j2 & E2 & HI2); auto.
  { split; [exact Kj|]. split; [apply same_shape_refl|]. split; [intros x []|]. split; [auto|].
    split; [auto|]. intros s t []. }
  { intros d r s0 j E0 EU (K & S1 & Mc & Fc2 & _).
    assert (Sub : forall x, In x (cnodes d) -> In x (cnodes ch)).
    { intros x Hx. rewrite E0, cnodes_app. apply in_or_app; auto. }
    destruct (Hpar j s0 K) as (Ls & M1 & M2); auto.
    { rewrite Fc2; [rewrite Mm; auto|]. intros Q. apply Ni. auto. }
    { intros p HJ. destruct (Hup_out s0 p EU HJ) as (Q1 & Q2). rewrite Fc2 by auto.
      rewrite Mm, Cq1; auto. }
    unfold body2. rewrite rd_sep by auto. cbn [bind]. rewrite M1. cbn [bind negb]. rewrite M2. reflexivity. }
  { intros d r s0 t0 j E0 (K & S1 & Mc & Fc2 & Fs2 & C3).
    assert (Hin : In (s0, t0) ch) by (rewrite E0; apply in_or_app; simpl; auto).
    assert (SH := k_shape _ _ _ K). destruct (shape_len _ _ SH) as (La & Lb).
    assert (Hs0 : s0 < length (sps jt)) by (eapply OL; eauto).
    assert (HJ : joins jt s0 i (root t0)) by (now apply OJ).
    assert (HJj : joins j s0 i (root t0)) by (eapply same_shape_joins; eauto).
    assert (HSj : shape_ok j) by apply K.
    destruct (joins_incl card j s0 i (root t0) HSj) as (I1 & I2 & Li & Lr & Nir); auto; try lia.
    assert (NDc' := NDc). assert (NE' := NE). rewrite E0 in NDc', NE'.
    destruct (cnodes_nodup _ _ _ _ NDc') as (NDt & Dt).
    destruct (cedges_nodup _ _ _ _ NE') as (NEt & De & Ns0).
    assert (Nit : ~ In i (nodes t0)).
    { intros Q. apply Ni. eapply cnodes_in; eauto. }
    assert (Sub : forall x, In x (cnodes d) -> In x (cnodes ch)).
    { intros x Hx. rewrite E0, cnodes_app. apply in_or_app; auto. }
    assert (Ut : forall x, In x (nodes t0) -> clq j x = clq j1 x).
    { intros x Hx. apply Fc2. destruct (Dt x Hx). auto. }
    assert (Um : forall x, In x (nodes t0) -> c_mark (clq j x) = false).
    { intros x Hx. rewrite Ut, Mm by auto. rewrite Cq1 by (intros ->; auto).
      apply HU. simpl. right. eapply cnodes_in; eauto. }
    assert (Mi : c_mark (clq j i) = true).
    { rewrite Fc2 by auto. rewrite Mm. auto. }
    destruct (IH s0 t0 Hin f j (Some s0)) as (j3 & E3 & K3 & R3 & P3 & C4); auto.
    { apply K. }
    { eapply ort_same_shape; eauto. }
    { intros x Hx. rewrite La. apply HX. simpl. right. eapply cnodes_in; eauto. }
    { clear -HF Hin. simpl in HF. assert (length (nodes t0) <= length (cnodes ch)); [|unfold cnodes in *; lia].
      apply in_split in Hin. destruct Hin as (l1 & l2 & ->). rewrite cnodes_app. simpl.
      rewrite !app_length. lia. }
    { intros u Eu. inversion Eu; subst. split; [lia|]. exists i. split; auto. now apply joins_sym. }
    { intros u Eu. inversion Eu; subst. split; auto. intros p Hp Hpn.
      assert (p = i); [|subst; auto].
      destruct HJj as [(A & B)|(A & B)], Hp as [(C & D)|(C & D)]; congruence. }
    { apply (collected_agree card j1); auto; [|eauto]. split.
      - intros x a Hx Ha. unfold phi. now rewrite Ut.
      - intros k a Hk Ha. unfold psi. rewrite Fs2; auto. intros Q.
        destruct (De k (or_intror Hk)) as (Q1 & _). now apply Q1, tedges_cedges. }
    exists j3. split.
    { unfold body2. rewrite rd_sep by lia. cbn [bind].
      destruct HJj as [(A & B)|(A & B)]; rewrite A, B.
      - rewrite clique_marked_ok by auto. rewrite Mi. cbn [bind negb].
        rewrite clique_marked_ok by auto. rewrite (Um _ (root_in t0)). cbn [bind negb]. exact E3.
      - rewrite clique_marked_ok by auto. rewrite (Um _ (root_in t0)). cbn [bind negb]. exact E3. }
    split; [eapply keeps_trans; eauto|].
    split; [eapply same_shape_trans; [exact S1|apply K3]|].
    split.
    { intros x Hx. rewrite cnodes_app, in_app_iff in Hx. simpl in Hx. rewrite app_nil_r in Hx.
      destruct Hx as [Hx|Hx].
      - rewrite (r_clq _ _ _ _ R3); auto. intros Q. destruct (Dt x Q); auto.
      - now apply (r_in _ _ _ _ R3). }
    split.
    { intros x Hx. rewrite cnodes_app, in_app_iff in Hx. simpl in Hx. rewrite app_nil_r in Hx.
      rewrite (r_clq _ _ _ _ R3) by tauto. apply Fc2. tauto. }
    split.
    { intros k Hk. rewrite tedges_app, in_app_iff in Hk. simpl in Hk. rewrite app_nil_r in Hk.
      rewrite (r_sep _ _ _ _ R3) by tauto. apply Fs2. tauto. }
    { intros s t Hst. apply in_app_or in Hst. destruct Hst as [Hst|[Est|[]]].
      - destruct (C3 s t Hst) as (Q1 & Q2).
        assert (Fx : forall x, In x (nodes t) -> clq j3 x = clq j x).
        { intros x Hx. apply (r_clq _ _ _ _ R3). intros Q. destruct (Dt x Q) as (Q3 & _).
          apply Q3. eapply cnodes_in; eauto. }
        split.
        + intros a. unfold phi. rewrite Fx by apply root_in. apply Q1.
        + apply (calib_agree j); auto; [apply K3|]. split.
          * intros x a Hx Ha. unfold phi. now rewrite Fx.
          * intros k a Hk Ha. unfold psi. rewrite (r_sep _ _ _ _ R3); auto.
            intros Q. destruct (De k (or_intror Q)) as (Q3 & _). apply Q3. eapply cedges_in; eauto.
      - inversion Est; subst s t. split; auto. intros a. rewrite P3. unfold phi.
        rewrite Ut; auto. apply root_in. } }
  destruct HI2 as (K2 & S2 & Mc & Fc2 & Fs2 & C3).
  exists j2. split; [exact E2|]. split; [exact K2|]. split; [|split].
  - split.
    + intros x Hx. simpl in Hx. destruct Hx as [<-|Hx]; auto.
      rewrite Fc2 by auto. rewrite Mm. auto.
    + intros x Hx. simpl in Hx. rewrite Fc2 by tauto. rewrite Fc.
      * apply Cq1. intros ->. tauto.
      * intros Q. apply Hx. right. apply in_map_iff in Q. destruct Q as ((s1 & t1) & <- & Q).
        eapply cnodes_in; eauto. apply root_in.
    + intros k Hk. simpl in Hk. rewrite Fs2.
      * apply Fs. intros Q. apply Hk. apply in_map_iff in Q. destruct Q as ((s1 & t1) & <- & Q).
        eapply cedges_in; eauto.
      * intros Q. apply Hk. now apply tedges_cedges.
  - intros a. unfold phi. rewrite Fc2 by auto. rewrite Fc; [apply HPh1|].
    intros Q. apply Ni. apply in_map_iff in Q. destruct Q as ((s1 & t1) & <- & Q).
    eapply cnodes_in; eauto. apply root_in.
  - constructor.
    + intros s t Hst. destruct (C1 s t Hst) as (U & D). destruct (C3 s t Hst) as (Q1 & _).
      assert (Es : sep j2 s = sep j1 s) by (apply Fs2; eapply child_edge_out; eauto).
      assert (Ei : clq j2 i = clq j1 i) by (apply Fc2; auto).
      assert (Ps : forall a, psi j2 s a = psi j1 s a) by (intros a; unfold psi; now rewrite Es).
      split.
      * intros a Ha. rewrite Ps, Es. destruct S2 as (_ & _ & SC & _).
        destruct (SC (root t)) as (-> & _). rewrite (U a Ha). symmetry. apply sumv_phi_eq; auto.
      * intros a Ha. rewrite Ps, Es, Ei. rewrite (D a Ha). symmetry. apply sumv_phi_eq; auto.
        intros b Hb. unfold phi. now rewrite Ei.
    + intros s t Hst. now apply (C3 s t).
Qed.

(** ** make_consistent *)
Lemma is_tree_ort : forall jt k, shape_ok jt -> is_tree jt -> k < length (cls jt) ->
  exists t, ort jt None t /\ root t = k /\ NoDup (nodes t) /\ NoDup (edges t) /\
    Permutation (nodes t) (seq 0 (length (cls jt))) /\ Permutation (edges t) (seq 0 (length (sps jt))).
Proof.
  intros jt k HS (ns & es & HT & P1 & P2) Hk.
  destruct (tree_of_rt _ _ _ HT k) as (t & HR & Hr & Q1 & Q2).
  { apply (Permutation_in _ (Permutation_sym P1)). apply in_seq. lia. }
  destruct (rt_ort card jt es t None HS P2) as (t' & HO & Hr' & Q3 & Q4); auto.
  { intros x Hx. apply (Permutation_in _ Q1) in Hx. apply (Permutation_in _ P1) in Hx.
    apply in_seq in Hx. lia. }
  assert (N : Permutation (nodes t') (seq 0 (length (cls jt)))) by (now rewrite Q3, Q1).
  assert (E : Permutation (edges t') (seq 0 (length (sps jt)))) by (now rewrite Q4, Q2).
  exists t'. split; auto. split; [congruence|].
  split; [apply (Permutation_NoDup (Permutation_sym N)), seq_NoDup|].
  split; [apply (Permutation_NoDup (Permutation_sym E)), seq_NoDup|]. auto.
Qed.

Lemma calib_calibrated : forall jt t, shape_ok jt -> calib jt t ->
  ort jt None t -> Permutation (edges t) (seq 0 (length (sps jt))) -> calibrated card jt.
Proof.
  intros jt t HS HC HO HE s i a Hs Hi Ha.
  assert (Hin : In s (edges t)).
  { apply (Permutation_in _ (Permutation_sym HE)). apply in_seq. lia. }
  assert (G : forall t u, calib jt t -> ort jt u t -> In s (edges t) -> down_msg jt i s).
  { clear -Hi. induction t as [k ch IH] using rtree_ind2. intros u HC HO Hin.
    inversion HC as [k' ch' H1 H2]; subst. inversion HO as [u' k' ch' OM OJ OL OR]; subst.
    simpl in Hin. apply cedges_inv in Hin. destruct Hin as (s1 & t1 & Hc & [->|Hin]).
    - destruct (H1 s1 t1 Hc) as (U & D).
      destruct (incident_joins _ _ _ _ i (OJ s1 t1 Hc)) as [->| ->]; auto.
      apply incident_spec. auto.
    - eapply (IH s1 t1); eauto. }
  exact (G t None HC HO Hin a Ha).
Qed.

Lemma make_consistent_ok : forall jt, shape_ok jt -> tables_nonneg jt -> is_tree jt ->
  exists jt', make_consistent jt = Ok (jt', NO_ERROR) /\ keeps jt jt' /\ calibrated card jt'.
Proof.
  intros jt HS HN HT. unfold make_consistent.
  assert (H0 : 0 < length (cls jt)).
  { destruct HT as (ns & es & HT & P1 & _). apply Permutation_length in P1. rewrite seq_length in P1.
    destruct HT; simpl in P1; lia. }
  destruct (unmark_all_ok jt) as (j0 & E0 & MO & M0). rewrite E0. cbn [bind].
  assert (K0 : keeps jt j0) by (now apply marks_only_keeps).
  destruct (is_tree_ort jt 0 HS HT H0) as (t & HO & Hr & ND & NE & PN & PE).
  assert (SH0 := k_shape _ _ _ K0). destruct (shape_len _ _ SH0) as (La & Lb).
  assert (HX : forall x, In x (nodes t) -> x < length (cls jt)).
  { intros x Hx. apply (Permutation_in _ PN) in Hx. apply in_seq in Hx. lia. }
  assert (HL : length (nodes t) = length (cls jt)).
  { rewrite (Permutation_length PN). apply seq_length. }
  destruct (collect_ok card t (length (cls j0)) j0 None None) as (j1 & E1 & K1 & R1 & C1); auto.
  { apply K0. } { apply K0. } { exact (ort_same_shape _ _ _ _ SH0 HO). }
  { intros x Hx. rewrite La. auto. } { lia. }
  { intros u Hu; discriminate. } { intros u Hu; discriminate. }
  rewrite <- Hr. rewrite E1. cbn [finish_collect bind is_err].
  destruct (unmark_all_ok j1) as (j2 & E2 & MO2 & M2). rewrite E2. cbn [bind].
  assert (K2 : keeps j1 j2) by (apply marks_only_keeps; auto; apply K1).
  assert (K02 : keeps jt j2) by (eapply keeps_trans; [exact K0|eapply keeps_trans; eauto]).
  assert (SH2 := k_shape _ _ _ K02). destruct (shape_len _ _ SH2) as (La2 & Lb2).
  destruct (marks_only_same _ _ MO2) as (SH12 & HPh & HPs).
  destruct (shape_len _ _ SH12) as (La3 & Lb3).
  destruct (distribute_ok t (length (cls j2)) j2 None) as (j3 & E3 & K3 & R3 & P3 & C3); auto.
  { apply K02. } { apply K02. } { exact (ort_same_shape _ _ _ _ SH2 HO). }
  { intros x Hx. rewrite La2. auto. } { lia. }
  { intros x Hx. apply M2. specialize (HX x Hx). lia. }
  { intros u Hu; discriminate. } { intros u Hu; discriminate. }
  { apply (collected_agree card j1); auto. split; intros; auto. }
  rewrite E3. cbn [bind is_err]. exists j3. split; [reflexivity|].
  assert (K : keeps jt j3) by (eapply keeps_trans; eauto). split; [exact K|].
  apply (calib_calibrated j3 t); auto.
  - apply K.
  - eapply ort_same_shape; [|exact HO]. apply K.
  - destruct (shape_len _ _ (k_shape _ _ _ K)) as (_ & ->). auto.
Qed.

End Propagation.
