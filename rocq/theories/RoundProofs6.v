(** * Rounded arithmetic: distributing evidence, make_consistent *)
From Coq Require Import ZArith QArith Qcanon Field Lia Permutation.
From Verif Require Import Base BaseProofs PotentialModel PotentialSpec PotentialProofs PotentialProofs2
  PotentialProofs3 VariableModel VariableProofs JoinTreeModel AssignSpec AssignProofs JoinTreeSpec
  JoinTreeProofs JoinTreeProofs2 JoinTreeProofs3 JoinTreeProofs4 RoundModel RoundSpec RoundProofs RoundProofs3
  RoundProofs4 RoundProofs5.
Import ListNotations.
Open Scope nat_scope.
Local Open Scope res_scope.
Add Field QcfieldRound6 : Qcft.

Section Propagation.
Variable u : Qc.
Variable fl : Qc -> Qc.
Hypothesis Hu0 : (0 <= u)%Qc.
Hypothesis Hu1 : (u < 1)%Qc.
Hypothesis Hfl : forall x, (0 <= x)%Qc -> near u 1 x (fl x).
Variable card : nat -> nat.
Variable N : nat.
Local Notation valid := (valid card).
Local Notation sumv := (sumv card).
Local Notation shape_ok := (shape_ok card).
Local Notation rup_msg := (rup_msg u card).
Local Notation rcollected := (rcollected u card N).
Local Notation rkeeps := (rkeeps u card N).

Definition rdown_msg (k : nat) (jt : jtree) (i s : nat) : Prop :=
  forall a, valid a ->
    near u k (sumv (minus (c_vars (clq jt i)) (s_vars (sep jt s))) (phi jt i) a) (psi jt s a).

Inductive rcalib (jt : jtree) : rtree -> Prop :=
| rcalib_node : forall i ch,
    (forall s t, In (s, t) ch -> rup_msg (N + 2) jt s t /\ rdown_msg (N + 2) jt i s) ->
    (forall s t, In (s, t) ch -> rcalib jt t) ->
    rcalib jt (Node i ch).

(** Every sepset table is nearly the marginal of both neighbouring cliques. *)
Definition rcalibrated (k : nat) (jt : jtree) : Prop :=
  forall s i a, s < length (sps jt) ->
    (s_first (sep jt s) = i \/ s_second (sep jt s) = i) -> valid a ->
    near u k (sumv (minus (c_vars (clq jt i)) (s_vars (sep jt s))) (phi jt i) a) (psi jt s a).

(** Multiplying the root of a collected tree leaves it collected. *)
Lemma rcollected_scale_root : forall jt jt' i ch, same_shape jt jt' ->
  agree card (cnodes ch) (cedges ch) jt jt' ->
  (forall a, valid a -> phi jt i a = 0%Qc -> phi jt' i a = 0%Qc) ->
  rcollected jt (Node i ch) -> rcollected jt' (Node i ch).
Proof.
  intros jt jt' i ch SH (A1 & A2) HZ H. inversion H as [i' ch' H1 H2]; subst.
  constructor.
  - intros s t Hin. destruct (H1 s t Hin) as (U & Z).
    assert (Ps : forall a, valid a -> psi jt' s a = psi jt s a).
    { intros a Ha. apply A2; auto. eapply cedges_in; eauto. }
    assert (SH' := SH). destruct SH' as (_ & _ & SC & SS). split.
    + intros a Ha. destruct (SC (root t)) as (-> & _), (SS s) as (-> & _).
      rewrite Ps by auto. rewrite (sumv_phi_eq card jt jt') by (auto; intros b Hb; apply A1; auto; eapply cnodes_in; eauto; apply root_in).
      now apply U.
    + intros a Ha Hz. rewrite Ps in Hz by auto. auto.
  - intros s t Hin. apply (rcollected_agree u card N jt); [auto| |eauto]. split; intros x a Hx Ha.
    + apply A1; auto. eapply cnodes_in; eauto.
    + apply A2; auto. eapply cedges_in; eauto.
Qed.

Lemma rcalib_agree : forall jt jt' t, same_shape jt jt' -> agree card (nodes t) (edges t) jt jt' ->
  rcalib jt t -> rcalib jt' t.
Proof.
  intros jt jt' t SH. induction t as [i ch IH] using rtree_ind2. intros (A1 & A2) H.
  inversion H as [i' ch' H1 H2]; subst.
  constructor.
  - intros s t Hin. destruct (H1 s t Hin) as (U & D).
    assert (Ps : forall a, valid a -> psi jt' s a = psi jt s a).
    { intros a Ha. apply A2; auto. simpl. eapply cedges_in; eauto. }
    destruct SH as (_ & _ & SC & SS). split.
    + intros a Ha. destruct (SC (root t)) as (-> & _), (SS s) as (-> & _).
      rewrite Ps by auto. rewrite (sumv_phi_eq card jt jt') by (auto; intros b Hb; apply A1; auto; simpl; right; eapply cnodes_in; eauto; apply root_in).
      now apply U.
    + intros a Ha. destruct (SC i) as (-> & _), (SS s) as (-> & _).
      rewrite Ps by auto. rewrite (sumv_phi_eq card jt jt') by (auto; intros b Hb; apply A1; auto; simpl; auto).
      now apply D.
  - intros s t Hin. apply (IH s t); auto.
    + split; intros x a Hx Ha.
      * apply A1; auto. simpl. right. eapply cnodes_in; eauto.
      * apply A2; auto. simpl. eapply cedges_in; eauto.
    + eauto.
Qed.

(** A message into a clique whose sepset was its marginal makes the new
    sepset its marginal. *)
Lemma r_mp_absorbed : forall jt i s r jt', shape_ok jt -> tables_nonneg jt -> s < length (sps jt) -> joins jt s i r ->
  rmp u card N jt i s r jt' ->
  (forall a, valid a -> near u N (sumv (minus (c_vars (clq jt r)) (s_vars (sep jt s))) (phi jt r) a) (psi jt s a)) ->
  (forall a, valid a -> psi jt s a = 0%Qc -> phi jt i a = 0%Qc) ->
  (forall a, valid a ->
     near u (N + 2) (sumv (minus (c_vars (clq jt r)) (s_vars (sep jt s))) (phi jt' r) a) (psi jt' s a)).
Proof.
  intros jt i s r jt' HS HN Hs HJ M HU HZ a Ha.
  set (vs := minus (c_vars (clq jt r)) (s_vars (sep jt s))).
  assert (HN' := r_mp_nonneg u Hu0 Hu1 card N jt i s r jt' HS Hs HJ HN M).
  assert (Sh := rm_ok M). assert (L := rm_shape M). destruct (shape_len _ _ L) as (_ & Ls).
  assert (PS : (0 <= psi jt' s a)%Qc) by (apply (psi_nonneg card); auto; lia).
  assert (P0 : (0 <= psi jt s a)%Qc) by (apply (psi_nonneg card); auto).
  assert (F : near u 2 (psi jt' s a / psi jt s a * sumv vs (phi jt r) a)%Qc (sumv vs (phi jt' r) a)).
  { rewrite <- (sumv_scale card (s_vars (sep jt s)) vs (fun b => psi jt' s b / psi jt s b)%Qc).
    - apply near_sumv; auto. intros b Hb.
      replace (psi jt' s b / psi jt s b * phi jt r b)%Qc with (phi jt r b * psi jt' s b / psi jt s b)%Qc by (unfold Qcdiv; ring).
      now apply (rm_phi M).
    - intros x y E. f_equal.
      + destruct (rm_shape M) as (_ & _ & _ & SS). destruct (SS s) as (E1 & _).
        apply (psi_dep jt' s). rewrite E1. auto.
      + now apply (psi_dep jt s).
    - intros v Hv. unfold vs. rewrite minus_in. tauto. }
  destruct (Qc_eq_dec (psi jt s a) 0%Qc) as [Z|NZ].
  - assert (Z' : psi jt' s a = 0%Qc).
    { apply (near_zero u Hu0 Hu1 _ _ _ (rm_psi M a Ha)). apply sumv_zero; auto.
      intros b Hb Hout. apply HZ; auto. rewrite <- Z. apply (psi_dep jt s). intros v Hv.
      apply Hout. rewrite minus_in. tauto. }
    rewrite Z' in *. replace (0 / psi jt s a * sumv vs (phi jt r) a)%Qc with 0%Qc in F by (unfold Qcdiv; ring).
    rewrite (proj1 (near_zero u Hu0 Hu1 _ _ _ F) eq_refl). apply near_refl; auto.
  - apply near_sym; auto. apply (near_trans u Hu0 Hu1) with (psi jt' s a / psi jt s a * sumv vs (phi jt r) a)%Qc; auto.
    replace (psi jt' s a) with (psi jt' s a / psi jt s a * psi jt s a)%Qc at 1 by (field; auto).
    apply near_mul_l; auto.
    + now apply Qc_div_nonneg.
    + apply near_sym; auto.
Qed.

Lemma cedges_length : forall ch, length (cedges ch) = length ch + length (tedges ch).
Proof.
  induction ch as [|(s & t) ch IH]; auto. cbn [cedges tedges flat_map fst snd length]. rewrite !app_length. cbn [length].
  unfold cedges, tedges in IH. unfold cedges, tedges. lia.
Qed.

Lemma r_distribute_ok : forall t fuel jt up, shape_ok jt -> tables_nonneg jt -> cliques_within card jt N -> ort jt up t ->
  NoDup (nodes t) -> NoDup (edges t) -> (forall x, In x (nodes t) -> x < length (cls jt)) ->
  length (nodes t) <= fuel ->
  (forall x, In x (nodes t) -> c_mark (clq jt x) = false) ->
  parent_marked jt up (root t) -> (forall u1, up = Some u1 -> ~ In u1 (edges t) /\
     forall p, joins jt u1 (root t) p -> ~ In p (nodes t)) ->
  rcollected jt t ->
  exists jt', r_distribute_evidence (rt fl) fuel jt (root t) = Ok (jt', NO_ERROR) /\
    rkeeps (2 * length (edges t)) jt jt' /\ region jt jt' (nodes t) (edges t) /\
    (forall a, phi jt' (root t) a = phi jt (root t) a) /\ rcalib jt' t.
Proof.
  induction t as [i ch IH] using rtree_ind2.
  intros fuel jt up HS HN HW HO ND NE HX HF HU HP HUP HC.
  cbn [root] in *. inversion HO as [up' i' ch' OM OJ OL OR]; subst.
  inversion HC as [i' ch' HC1 HC2]; subst.
  destruct fuel as [|f]; [simpl in HF; lia|].
  assert (Hi : i < length (cls jt)) by (apply HX; simpl; auto).
  cbn [r_distribute_evidence]. rewrite rd_clq by auto. cbn [bind].
  rewrite mark_clique_ok by auto. cbn [bind].
  set (jt1 := mk jt i).
  assert (MO : marks_only jt jt1) by (now apply mk_marks_only).
  assert (K1 : rkeeps 0 jt jt1) by (now apply marks_only_rkeeps).
  destruct (marks_only_same _ _ MO) as (SH1 & HPh1 & HPs1).
  inversion ND as [|? ? Ni NDc]; subst. fold (cnodes ch) in Ni, NDc. fold (cedges ch) in NE.
  assert (Mk1 : c_mark (clq jt1 i) = true).
  { unfold jt1. rewrite mk_clq by auto. now rewrite Nat.eqb_refl. }
  assert (Cq1 : forall x, x <> i -> clq jt1 x = clq jt x).
  { intros x Hx. unfold jt1. rewrite mk_clq by auto. destruct (Nat.eqb_spec x i); congruence. }
  assert (Hpar : forall kk j s0, rkeeps kk jt j -> c_mark (clq j i) = true -> up = Some s0 ->
     (forall p, joins jt s0 i p -> c_mark (clq j p) = c_mark (clq jt p)) ->
     s0 < length (sps j) /\
     clique_marked j (s_first (sep j s0)) = Ok true /\ clique_marked j (s_second (sep j s0)) = Ok true).
  { intros kk j s0 K Mi EU Hm. destruct (HP s0 EU) as (Hs0 & p & HJ & HM).
    assert (SH := rk_shape K). destruct (shape_len _ _ SH) as (La & Lb).
    split; [lia|]. apply (mark_irrel card) with (p := p) (i := i); auto; try lia.
    - apply K.
    - eapply same_shape_joins; eauto.
    - rewrite Hm; auto. }
  assert (Hup_out : forall s0 p, up = Some s0 -> joins jt s0 i p -> p <> i /\ ~ In p (cnodes ch)).
  { intros s0 p EU HJ. destruct (HUP s0 EU) as (_ & Q). specialize (Q p HJ).
    split; [intros ->|intros K]; apply Q; simpl; auto. }
  (* first loop: messages to the children *)
  set (Inv1 := fun (d r : list (nat * rtree)) (j : jtree) =>
     rkeeps (2 * length d) jt j /\ (forall x, c_mark (clq j x) = c_mark (clq jt1 x)) /\
     (forall x, ~ In x (map (fun c => root (snd c)) d) -> clq j x = clq jt1 x) /\
     (forall k, ~ In k (map fst d) -> sep j k = sep jt k) /\
     (forall s t, In (s, t) d -> rup_msg (N + 2) j s t /\ rdown_msg (N + 2) j i s) /\
     (forall s t, In (s, t) ch -> rcollected j t)).
  match goal with |- context [bind (each _ ?b _) _] => set (body1 := b) end.
  destruct (each_children _ body1 Inv1 up (c_sepsets (clq jt i)) ch [] ch jt1) as (j1 & E1 & HI1); auto.
  { split; [exact K1|]. split; [auto|]. split; [auto|]. split; [reflexivity|].
    split; [intros s t []|]. intros s t Hin. apply (rcollected_agree u card N jt); auto.
    - split; intros; [apply HPh1|apply HPs1].
    - eauto. }
  { intros d r s0 j E0 EU (K & Mm & _).
    destruct (Hpar _ j s0 K) as (Ls & M1 & M2); auto.
    { rewrite Mm. auto. }
    { intros p HJ. rewrite Mm. rewrite Cq1; auto. apply (Hup_out s0 p EU HJ). }
    unfold body1. rewrite rd_sep by auto. cbn [bind]. rewrite M1. cbn [bind negb]. rewrite M2. reflexivity. }
  { intros d r s0 t0 j E0 (K & Mm & Fc & Fs & C1 & C2).
    assert (Hin : In (s0, t0) ch) by (rewrite E0; apply in_or_app; simpl; auto).
    assert (SH := rk_shape K). destruct (shape_len _ _ SH) as (La & Lb).
    assert (Hs0 : s0 < length (sps jt)) by (eapply OL; eauto).
    assert (HJ : joins jt s0 i (root t0)) by (now apply OJ).
    assert (HJj : joins j s0 i (root t0)) by (eapply same_shape_joins; eauto).
    assert (HSj : shape_ok j) by apply K.
    destruct (joins_incl card j s0 i (root t0) HSj) as (I1 & I2 & Li & Lr & Nir); auto; try lia.
    assert (NDc' := NDc). assert (NE' := NE). rewrite E0 in NDc', NE'.
    destruct (cnodes_nodup _ _ _ _ NDc') as (NDt & Dt).
    destruct (cedges_nodup _ _ _ _ NE') as (NEt & De & Ns0).
    assert (Rout := roots_split _ _ _ _ NDc').
    assert (Sout : ~ In s0 (map fst d)).
    { intros Q. destruct (De s0 (or_introl eq_refl)) as (Q1 & _). apply Q1.
      apply in_map_iff in Q. destruct Q as ((s1 & t1) & <- & Q). eapply cedges_in; eauto. }
    assert (Iout : ~ In i (map (fun c => root (snd c)) d)).
    { intros Q. apply Ni. apply in_map_iff in Q. destruct Q as ((s1 & t1) & <- & Q).
      rewrite E0, cnodes_app. apply in_or_app. left. eapply cnodes_in; eauto. apply root_in. }
    assert (Ur : c_mark (clq j (root t0)) = false).
    { rewrite Mm, Cq1 by auto. apply HU. simpl. right. eapply cnodes_in; eauto. apply root_in. }
    assert (Mi : c_mark (clq j i) = true) by (rewrite Mm; auto).
    destruct (r_message_pass_ok u fl Hu0 Hu1 Hfl card N j i s0 (root t0)) as (j2 & E2 & M); auto; [apply K|apply K|lia|].
    assert (KM : rkeeps 2 j j2) by (eapply rkeeps_mp; eauto; [apply K|apply K|lia]).
    assert (F1 : forall x, x <> root t0 -> clq j2 x = clq j x) by (intros; now apply (rm_clq M)).
    assert (F2 : forall k, k <> s0 -> sep j2 k = sep j k) by (intros; now apply (rm_sep M)).
    assert (Pi : forall a, phi j i a = phi jt i a).
    { intros a. unfold phi. rewrite Fc by auto. apply HPh1. }
    assert (Pr : forall a, phi j (root t0) a = phi jt (root t0) a).
    { intros a. unfold phi. rewrite Fc by auto. apply HPh1. }
    assert (Ps : forall a, psi j s0 a = psi jt s0 a).
    { intros a. unfold psi. now rewrite Fs. }
    exists j2. split.
    { unfold body1. rewrite rd_sep by lia. cbn [bind].
      destruct HJj as [(A & B)|(A & B)]; rewrite A, B.
      - rewrite clique_marked_ok by auto. rewrite Mi. cbn [bind negb].
        rewrite clique_marked_ok by auto. rewrite Ur. cbn [bind negb]. exact E2.
      - rewrite clique_marked_ok by auto. rewrite Ur. cbn [bind negb]. exact E2. }
    split; [rewrite app_length; cbn [length]; replace (2 * _) with (2 * length d + 2) by lia; eapply rkeeps_trans; eauto|].
    split; [intros x; rewrite (rm_marks M); auto|].
    split.
    { intros x Hx. rewrite map_app, in_app_iff in Hx. simpl in Hx. rewrite F1 by (intros ->; tauto).
      apply Fc. tauto. }
    split.
    { intros k Hk. rewrite map_app, in_app_iff in Hk. simpl in Hk. rewrite F2 by (intros ->; tauto).
      apply Fs. tauto. }
    split.
    { intros s t Hst. apply in_app_or in Hst. destruct Hst as [Hst|[Est|[]]].
      - destruct (C1 s t Hst) as (U & D).
        assert (Ns : s <> s0).
        { intros ->. apply Sout. apply (in_map fst) in Hst. auto. }
        assert (Nr : root t <> root t0).
        { intros Q. apply Rout. rewrite <- Q. apply (in_map (fun c => root (snd c))) in Hst. auto. }
        split.
        + intros a Ha. unfold psi, phi. rewrite F1, F2 by auto. apply (U a Ha).
        + intros a Ha. unfold psi, phi. rewrite F1, F2 by auto. apply (D a Ha).
      - inversion Est; subst s t. destruct (HC1 s0 t0 Hin) as (U & Z).
        destruct (rk_shape KM) as (_ & _ & SC & SS). split.
        + intros a Ha. destruct (SC (root t0)) as (-> & _), (SS s0) as (-> & _).
          apply (r_mp_absorbed j i s0 (root t0) j2); auto; [apply K|lia| |].
          * intros b Hb. rewrite Ps. destruct SH as (_ & _ & SC0 & SS0).
            destruct (SC0 (root t0)) as (-> & _), (SS0 s0) as (-> & _).
            rewrite (sumv_phi_eq card jt j) by auto. now apply U.
          * intros b Hb Hz. rewrite Pi. rewrite Ps in Hz. auto.
        + intros a Ha. destruct (SC i) as (-> & _), (SS s0) as (-> & _).
          rewrite (sumv_phi_eq card j j2) by (auto; intros b Hb; unfold phi; rewrite F1; auto).
          apply near_le with N; auto; [lia|]. now apply (rm_psi M). }
    { intros s t Hst. specialize (C2 s t Hst).
      destruct (Nat.eq_dec s s0) as [Es|Ns].
      - assert (Et : t = t0).
        { subst s. clear -Hst Hin NE E0. apply in_split in Hin. destruct Hin as (l1 & l2 & E).
          rewrite E in Hst, NE. destruct (cedges_nodup _ _ _ _ NE) as (_ & D & _).
          destruct (D s0 (or_introl eq_refl)) as (D1 & D2).
          apply in_app_or in Hst. destruct Hst as [H|[H|H]].
          - exfalso. apply D1. eapply cedges_in; eauto.
          - now inversion H.
          - exfalso. apply D2. eapply cedges_in; eauto. }
        subst s t. destruct t0 as [r0 c0]. cbn [root] in *.
        apply (rcollected_scale_root j); auto.
        + apply KM.
        + inversion NDt as [|? ? N0 N1]; subst. split.
          * intros x a Hx Ha. unfold phi. rewrite F1; auto. intros ->. auto.
          * intros k a Hk Ha. unfold psi. rewrite F2; auto. intros ->. auto.
        + intros a Ha Hz. apply (near_zero u Hu0 Hu1 _ _ _ (rm_phi M a Ha)). rewrite Hz. unfold Qcdiv. ring.
      - apply (rcollected_agree u card N j); auto; [apply KM|].
        assert (Hdr : In (s, t) d \/ In (s, t) r).
        { rewrite E0 in Hst. apply in_app_or in Hst. destruct Hst as [H|[H|H]]; auto. inversion H; congruence. }
        split.
        + intros x a Hx Ha. unfold phi. rewrite F1; auto. intros ->.
          destruct (Dt (root t0) (root_in t0)) as (Q1 & Q2).
          destruct Hdr as [H|H]; [apply Q1|apply Q2]; eapply cnodes_in; eauto.
        + intros k a Hk Ha. unfold psi. rewrite F2; auto. intros ->.
          destruct (De s0 (or_introl eq_refl)) as (Q1 & Q2).
          destruct Hdr as [H|H]; [apply Q1|apply Q2]; eapply cedges_in; eauto. } }
  destruct HI1 as (Kj & Mm & Fc & Fs & C1 & C2).
  rewrite E1. cbn [bind is_err].
  assert (SHj := rk_shape Kj). destruct (shape_len _ _ SHj) as (Laj & Lbj).
  (* second loop: recursion *)
  set (Inv2 := fun (d r : list (nat * rtree)) (j : jtree) =>
     rkeeps (2 * length ch + 2 * length (tedges d)) jt j /\ same_shape j1 j /\
     (forall x, In x (cnodes d) -> c_mark (clq j x) = true) /\
     (forall x, ~ In x (cnodes d) -> clq j x = clq j1 x) /\
     (forall k, ~ In k (tedges d) -> sep j k = sep j1 k) /\
     (forall s t, In (s, t) d -> (forall a, phi j (root t) a = phi j1 (root t) a) /\ rcalib j t)).
  match goal with |- context [each _ ?b _] => set (body2 := b) end.
  destruct (each_children _ body2 Inv2 up (c_sepsets (clq jt i)) ch [] ch j1) as (j2 & E2 & HI2); auto.
  { split; [cbn [tedges flat_map length]; rewrite Nat.mul_0_r, Nat.add_0_r; exact Kj|]. split; [apply same_shape_refl|]. split; [intros x []|]. split; [auto|].
    split; [auto|]. intros s t []. }
  { intros d r s0 j E0 EU (K & S1 & Mc & Fc2 & _).
    assert (Sub : forall x, In x (cnodes d) -> In x (cnodes ch)).
    { intros x Hx. rewrite E0, cnodes_app. apply in_or_app; auto. }
    destruct (Hpar _ j s0 K) as (Ls & M1 & M2); auto.
    { rewrite Fc2; [rewrite Mm; auto|]. intros Q. apply Ni. auto. }
    { intros p HJ. destruct (Hup_out s0 p EU HJ) as (Q1 & Q2). rewrite Fc2 by auto.
      rewrite Mm, Cq1; auto. }
    unfold body2. rewrite rd_sep by auto. cbn [bind]. rewrite M1. cbn [bind negb]. rewrite M2. reflexivity. }
  { intros d r s0 t0 j E0 (K & S1 & Mc & Fc2 & Fs2 & C3).
    assert (Hin : In (s0, t0) ch) by (rewrite E0; apply in_or_app; simpl; auto).
    assert (SH := rk_shape K). destruct (shape_len _ _ SH) as (La & Lb).
    assert (Hs0 : s0 < length (sps jt)) by (eapply OL; eauto).
    assert (HJ : joins jt s0 i (root t0)) by (now apply OJ).
    assert (HJj : joins j s0 i (root t0)) by (eapply same_shape_joins; eauto).
    assert (HSj : shape_ok j) by apply K.
    destruct (joins_incl card j s0 i (root t0) HSj) as (I1 & I2 & Li & Lr & Nir); auto; try lia.
    assert (NDc' := NDc). assert (NE' := NE). rewrite E0 in NDc', NE'.
    destruct (cnodes_nodup _ _ _ _ NDc') as (NDt & Dt).
    destruct (cedges_nodup _ _ _ _ NE') as (NEt & De & Ns0).
    assert (Nit : ~ In i (nodes t0)).
    { intros Q. apply Ni. eapply cnodes_in; eauto. }
    assert (Sub : forall x, In x (cnodes d) -> In x (cnodes ch)).
    { intros x Hx. rewrite E0, cnodes_app. apply in_or_app; auto. }
    assert (Ut : forall x, In x (nodes t0) -> clq j x = clq j1 x).
    { intros x Hx. apply Fc2. destruct (Dt x Hx). auto. }
    assert (Um : forall x, In x (nodes t0) -> c_mark (clq j x) = false).
    { intros x Hx. rewrite Ut, Mm by auto. rewrite Cq1 by (intros ->; auto).
      apply HU. simpl. right. eapply cnodes_in; eauto. }
    assert (Mi : c_mark (clq j i) = true).
    { rewrite Fc2 by auto. rewrite Mm. auto. }
    destruct (IH s0 t0 Hin f j (Some s0)) as (j3 & E3 & K3 & R3 & P3 & C4); auto.
    { apply K. }
    { apply K. }
    { eapply ort_same_shape; eauto. }
    { intros x Hx. rewrite La. apply HX. simpl. right. eapply cnodes_in; eauto. }
    { clear -HF Hin. simpl in HF. assert (length (nodes t0) <= length (cnodes ch)); [|unfold cnodes in *; lia].
      apply in_split in Hin. destruct Hin as (l1 & l2 & ->). rewrite cnodes_app. simpl.
      rewrite !app_length. lia. }
    { intros u1 Eu. inversion Eu; subst. split; [lia|]. exists i. split; auto. now apply joins_sym. }
    { intros u1 Eu. inversion Eu; subst. split; auto. intros p Hp Hpn.
      assert (p = i); [|subst; auto].
      destruct HJj as [(A & B)|(A & B)], Hp as [(C & D)|(C & D)]; congruence. }
    { apply (rcollected_agree u card N j1); auto; [|eauto]. split.
      - intros x a Hx Ha. unfold phi. now rewrite Ut.
      - intros k a Hk Ha. unfold psi. rewrite Fs2; auto. intros Q.
        destruct (De k (or_intror Hk)) as (Q1 & _). now apply Q1, tedges_cedges. }
    exists j3. split.
    { unfold body2. rewrite rd_sep by lia. cbn [bind].
      destruct HJj as [(A & B)|(A & B)]; rewrite A, B.
      - rewrite clique_marked_ok by auto. rewrite Mi. cbn [bind negb].
        rewrite clique_marked_ok by auto. rewrite (Um _ (root_in t0)). cbn [bind negb]. exact E3.
      - rewrite clique_marked_ok by auto. rewrite (Um _ (root_in t0)). cbn [bind negb]. exact E3. }
    split.
    { rewrite tedges_app, app_length. cbn [tedges flat_map snd]. rewrite app_nil_r.
      replace (2 * length ch + _) with ((2 * length ch + 2 * length (tedges d)) + 2 * length (edges t0)) by lia.
      eapply rkeeps_trans; eauto. }
    split; [eapply same_shape_trans; [exact S1|apply K3]|].
    split.
    { intros x Hx. rewrite cnodes_app, in_app_iff in Hx. simpl in Hx. rewrite app_nil_r in Hx.
      destruct Hx as [Hx|Hx].
      - rewrite (r_clq _ _ _ _ R3); auto. intros Q. destruct (Dt x Q); auto.
      - now apply (r_in _ _ _ _ R3). }
    split.
    { intros x Hx. rewrite cnodes_app, in_app_iff in Hx. simpl in Hx. rewrite app_nil_r in Hx.
      rewrite (r_clq _ _ _ _ R3) by tauto. apply Fc2. tauto. }
    split.
    { intros k Hk. rewrite tedges_app, in_app_iff in Hk. simpl in Hk. rewrite app_nil_r in Hk.
      rewrite (r_sep _ _ _ _ R3) by tauto. apply Fs2. tauto. }
    { intros s t Hst. apply in_app_or in Hst. destruct Hst as [Hst|[Est|[]]].
      - destruct (C3 s t Hst) as (Q1 & Q2).
        assert (Fx : forall x, In x (nodes t) -> clq j3 x = clq j x).
        { intros x Hx. apply (r_clq _ _ _ _ R3). intros Q. destruct (Dt x Q) as (Q3 & _).
          apply Q3. eapply cnodes_in; eauto. }
        split.
        + intros a. unfold phi. rewrite Fx by apply root_in. apply Q1.
        + apply (rcalib_agree j); auto; [apply K3|]. split.
          * intros x a Hx Ha. unfold phi. now rewrite Fx.
          * intros k a Hk Ha. unfold psi. rewrite (r_sep _ _ _ _ R3); auto.
            intros Q. destruct (De k (or_intror Q)) as (Q3 & _). apply Q3. eapply cedges_in; eauto.
      - inversion Est; subst s t. split; auto. intros a. rewrite P3. unfold phi.
        rewrite Ut; auto. apply root_in. } }
  destruct HI2 as (K2 & S2 & Mc & Fc2 & Fs2 & C3).
  exists j2. split; [exact E2|].
  split; [cbn [edges]; fold (cedges ch); rewrite cedges_length, Nat.mul_add_distr_l; exact K2|]. split; [|split].
  - split.
    + intros x Hx. simpl in Hx. destruct Hx as [<-|Hx]; auto.
      rewrite Fc2 by auto. rewrite Mm. auto.
    + intros x Hx. simpl in Hx. rewrite Fc2 by tauto. rewrite Fc.
      * apply Cq1. intros ->. tauto.
      * intros Q. apply Hx. right. apply in_map_iff in Q. destruct Q as ((s1 & t1) & <- & Q).
        eapply cnodes_in; eauto. apply root_in.
    + intros k Hk. simpl in Hk. rewrite Fs2.
      * apply Fs. intros Q. apply Hk. apply in_map_iff in Q. destruct Q as ((s1 & t1) & <- & Q).
        eapply cedges_in; eauto.
      * intros Q. apply Hk. now apply tedges_cedges.
  - intros a. unfold phi. rewrite Fc2 by auto. rewrite Fc; [apply HPh1|].
    intros Q. apply Ni. apply in_map_iff in Q. destruct Q as ((s1 & t1) & <- & Q).
    eapply cnodes_in; eauto. apply root_in.
  - constructor.
    + intros s t Hst. destruct (C1 s t Hst) as (U & D). destruct (C3 s t Hst) as (Q1 & _).
      assert (Es : sep j2 s = sep j1 s) by (apply Fs2; eapply child_edge_out; eauto).
      assert (Ei : clq j2 i = clq j1 i) by (apply Fc2; auto).
      assert (Ps : forall a, psi j2 s a = psi j1 s a) by (intros a; unfold psi; now rewrite Es).
      split.
      * intros a Ha. rewrite Ps, Es. destruct S2 as (_ & _ & SC & _).
        destruct (SC (root t)) as (-> & _). rewrite (sumv_phi_eq card j1 j2) by auto. apply (U a Ha).
      * intros a Ha. rewrite Ps, Es, Ei. rewrite (sumv_phi_eq card j1 j2) by (auto; intros b Hb; unfold phi; now rewrite Ei). apply (D a Ha).
    + intros s t Hst. now apply (C3 s t).
Qed.

(** ** make_consistent *)
Lemma rcalib_calibrated : forall jt t, shape_ok jt -> rcalib jt t ->
  ort jt None t -> Permutation (edges t) (seq 0 (length (sps jt))) -> rcalibrated (N + 2) jt.
Proof.
  intros jt t HS HC HO HE s i a Hs Hi Ha.
  assert (Hin : In s (edges t)).
  { apply (Permutation_in _ (Permutation_sym HE)). apply in_seq. lia. }
  assert (G : forall t u1, rcalib jt t -> ort jt u1 t -> In s (edges t) -> rdown_msg (N + 2) jt i s).
  { clear -Hi. induction t as [k ch IH] using rtree_ind2. intros u1 HC HO Hin.
    inversion HC as [k' ch' H1 H2]; subst. inversion HO as [u1' k' ch' OM OJ OL OR]; subst.
    simpl in Hin. apply cedges_inv in Hin. destruct Hin as (s1 & t1 & Hc & [->|Hin]).
    - destruct (H1 s1 t1 Hc) as (U & D).
      destruct (incident_joins _ _ _ _ i (OJ s1 t1 Hc)) as [->| ->]; auto.
      apply incident_spec. auto.
    - eapply (IH s1 t1); eauto. }
  exact (G t None HC HO Hin a Ha).
Qed.

Lemma r_make_consistent_ok : forall jt, shape_ok jt -> tables_nonneg jt -> cliques_within card jt N -> is_tree jt ->
  exists jt', r_make_consistent (rt fl) jt = Ok (jt', NO_ERROR) /\ rkeeps (4 * length (sps jt)) jt jt' /\ rcalibrated (N + 2) jt'.
Proof.
  intros jt HS HN HW HT. unfold r_make_consistent.
  assert (H0 : 0 < length (cls jt)).
  { destruct HT as (ns & es & HT & P1 & _). apply Permutation_length in P1. rewrite seq_length in P1.
    destruct HT; simpl in P1; lia. }
  destruct (unmark_all_ok jt) as (j0 & E0 & MO & M0). rewrite E0. cbn [bind].
  assert (K0 : rkeeps 0 jt j0) by (now apply marks_only_rkeeps).
  destruct (is_tree_ort card jt 0 HS HT H0) as (t & HO & Hr & ND & NE & PN & PE).
  assert (SH0 := rk_shape K0). destruct (shape_len _ _ SH0) as (La & Lb).
  assert (HX : forall x, In x (nodes t) -> x < length (cls jt)).
  { intros x Hx. apply (Permutation_in _ PN) in Hx. apply in_seq in Hx. lia. }
  assert (HL : length (nodes t) = length (cls jt)).
  { rewrite (Permutation_length PN). apply seq_length. }
  destruct (r_collect_ok u fl Hu0 Hu1 Hfl card N t (length (cls j0)) j0 None None) as (j1 & E1 & K1 & R1 & C1); auto.
  { apply K0. } { apply K0. } { apply K0. } { exact (ort_same_shape _ _ _ _ SH0 HO). }
  { intros x Hx. rewrite La. auto. } { lia. }
  { intros u1 Hu; discriminate. } { intros u1 Hu; discriminate. }
  rewrite Hr in E1. rewrite E1. cbn [r_finish_collect bind is_err].
  destruct (unmark_all_ok j1) as (j2 & E2 & MO2 & M2). rewrite E2. cbn [bind].
  assert (K2 : rkeeps 0 j1 j2) by (apply marks_only_rkeeps; auto; apply K1).
  assert (K02 : rkeeps (0 + (2 * length (edges t) + 0)) jt j2) by (eapply (rkeeps_trans u Hu0 Hu1); [exact K0|eapply rkeeps_trans; eauto]).
  assert (SH2 := rk_shape K02). destruct (shape_len _ _ SH2) as (La2 & Lb2).
  destruct (marks_only_same _ _ MO2) as (SH12 & HPh & HPs).
  destruct (shape_len _ _ SH12) as (La3 & Lb3).
  destruct (r_distribute_ok t (length (cls j2)) j2 None) as (j3 & E3 & K3 & R3 & P3 & C3); auto.
  { apply K02. } { apply K02. } { apply K02. } { exact (ort_same_shape _ _ _ _ SH2 HO). }
  { intros x Hx. rewrite La2. auto. } { lia. }
  { intros x Hx. apply M2. specialize (HX x Hx). lia. }
  { intros u1 Hu; discriminate. } { intros u1 Hu; discriminate. }
  { apply (rcollected_agree u card N j1); auto. split; intros; auto. }
  rewrite Hr in E3. rewrite E3. cbn [bind is_err]. exists j3. split; [reflexivity|].
  assert (K : rkeeps (4 * length (sps jt)) jt j3).
  { assert (HE : length (edges t) = length (sps jt)) by (rewrite (Permutation_length PE); apply seq_length).
    apply rkeeps_le with ((0 + (2 * length (edges t) + 0)) + 2 * length (edges t)); auto; [lia|].
    eapply rkeeps_trans; eauto. }
  idtac. split; [exact K|].
  apply (rcalib_calibrated j3 t); auto.
  - apply K.
  - eapply ort_same_shape; [|exact HO]. apply K.
  - destruct (shape_len _ _ (rk_shape K)) as (_ & ->). auto.
Qed.

End Propagation.
