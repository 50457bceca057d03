(** * Rounded arithmetic: collecting evidence *)
From Coq Require Import ZArith QArith Qcanon Field Lia Permutation.
From Verif Require Import Base BaseProofs PotentialModel PotentialSpec PotentialProofs PotentialProofs2
  PotentialProofs3 VariableModel VariableProofs JoinTreeModel AssignSpec AssignProofs JoinTreeSpec
  JoinTreeProofs JoinTreeProofs2 JoinTreeProofs3 RoundModel RoundSpec RoundProofs RoundProofs3 RoundProofs4.
Import ListNotations.
Open Scope nat_scope.
Local Open Scope res_scope.
Add Field QcfieldRound5 : Qcft.

Section Propagation.
Variable u : Qc.
Variable fl : Qc -> Qc.
Hypothesis Hu0 : (0 <= u)%Qc.
Hypothesis Hu1 : (u < 1)%Qc.
Hypothesis Hfl : forall x, (0 <= x)%Qc -> near u 1 x (fl x).
Variable card : nat -> nat.
Variable N : nat.
Local Notation valid := (valid card).
Local Notation sumv := (sumv card).
Local Notation shape_ok := (shape_ok card).

(** What an updated tree keeps of the tree [jt0] it started as, after [k]
    roundings of each product. *)
Record rkeeps (k : nat) (jt0 jt : jtree) : Prop := {
  rk_shape : same_shape jt0 jt;
  rk_ok : shape_ok jt;
  rk_nonneg : tables_nonneg jt;
  rk_within : cliques_within card jt N;
  rk_joint : forall a, valid a -> near u k (joint jt0 a) (joint jt a)
}.

Lemma within_shape : forall a b, same_shape a b -> cliques_within card a N -> cliques_within card b N.
Proof.
  intros a b (L & _ & SC & _) H i Hi. destruct (SC i) as (-> & _). apply H. lia.
Qed.

Lemma joint_nonneg_tables : forall jt a, shape_ok jt -> tables_nonneg jt -> valid a -> (0 <= joint jt a)%Qc.
Proof.
  intros jt a HS HN Ha. apply Qc_div_nonneg; apply qprod_nonneg; intros x Hx; apply in_map_iff in Hx;
    destruct Hx as (i & <- & Hi); apply in_seq in Hi.
  - apply (phi_nonneg card); auto. lia.
  - apply (psi_nonneg card); auto. lia.
Qed.

Lemma rkeeps_le : forall k k' jt0 jt, k <= k' -> rkeeps k jt0 jt -> rkeeps k' jt0 jt.
Proof.
  intros k k' jt0 jt L [A1 A2 A3 A4 A5]. split; auto. intros a Ha.
  apply near_le with k; auto.
Qed.

Lemma rkeeps_keeps : forall jt jt', shape_ok jt -> tables_nonneg jt -> cliques_within card jt N ->
  keeps card jt jt' -> rkeeps 0 jt jt'.
Proof.
  intros jt jt' HS HN HW [A1 A2 A3 A4]. split; auto.
  - now apply (within_shape jt).
  - intros a Ha. apply near_eq; auto; [now apply joint_nonneg_tables|]. symmetry. auto.
Qed.

Lemma rkeeps_refl : forall jt, shape_ok jt -> tables_nonneg jt -> cliques_within card jt N -> rkeeps 0 jt jt.
Proof. intros. apply rkeeps_keeps; auto. now apply keeps_refl. Qed.

Lemma rkeeps_trans : forall j k a b c, rkeeps j a b -> rkeeps k b c -> rkeeps (j + k) a c.
Proof.
  intros j k a b c [A1 A2 A3 A4 A5] [B1 B2 B3 B4 B5]. split; auto.
  - eapply same_shape_trans; eauto.
  - intros x Hx. eapply near_trans; eauto.
Qed.

Lemma rkeeps_mp : forall jt c1 s c2 jt', shape_ok jt -> tables_nonneg jt -> cliques_within card jt N ->
  s < length (sps jt) -> joins jt s c1 c2 -> rmp u card N jt c1 s c2 jt' -> rkeeps 2 jt jt'.
Proof.
  intros jt c1 s c2 jt' HS HN HW Hs HJ M. split.
  - apply (rm_shape M).
  - apply (rm_ok M).
  - eapply r_mp_nonneg; eauto.
  - apply (within_shape jt); auto. apply (rm_shape M).
  - eapply r_mp_joint; eauto.
Qed.

Lemma marks_only_rkeeps : forall jt jt', marks_only jt jt' -> shape_ok jt -> tables_nonneg jt ->
  cliques_within card jt N -> rkeeps 0 jt jt'.
Proof. intros. apply rkeeps_keeps; auto. now apply marks_only_keeps. Qed.

(** ** Collected sub-trees *)
Definition rup_msg (k : nat) (jt : jtree) (s : nat) (t : rtree) : Prop :=
  forall a, valid a ->
    near u k (sumv (minus (c_vars (clq jt (root t))) (s_vars (sep jt s))) (phi jt (root t)) a) (psi jt s a).

Inductive rcollected (jt : jtree) : rtree -> Prop :=
| rcollected_node : forall i ch,
    (forall s t, In (s, t) ch -> rup_msg N jt s t /\
       forall a, valid a -> psi jt s a = 0%Qc -> phi jt i a = 0%Qc) ->
    (forall s t, In (s, t) ch -> rcollected jt t) ->
    rcollected jt (Node i ch).

Lemma rcollected_agree : forall jt jt' t, same_shape jt jt' -> agree card (nodes t) (edges t) jt jt' ->
  rcollected jt t -> rcollected jt' t.
Proof.
  intros jt jt' t SH. induction t as [i ch IH] using rtree_ind2. intros (A1 & A2) H.
  inversion H as [i' ch' H1 H2]; subst.
  assert (AC : forall s t, In (s, t) ch -> agree card (nodes t) (edges t) jt jt').
  { intros s t Hin. split; intros x a Hx Ha.
    - apply A1; auto. simpl. right. eapply cnodes_in; eauto.
    - apply A2; auto. simpl. eapply cedges_in; eauto. }
  constructor.
  - intros s t Hin. destruct (H1 s t Hin) as (U & Z).
    assert (Ps : forall a, valid a -> psi jt' s a = psi jt s a).
    { intros a Ha. apply A2; auto. simpl. eapply cedges_in; eauto. }
    destruct SH as (_ & _ & SC & SS). split.
    + intros a Ha. destruct (SC (root t)) as (-> & _), (SS s) as (-> & _).
      rewrite Ps by auto. replace (sumv _ (phi jt' (root t)) a) with (sumv (minus (c_vars (clq jt (root t))) (s_vars (sep jt s))) (phi jt (root t)) a); [now apply U|].
      symmetry. apply sumv_phi_eq; auto. intros b Hb.
      apply A1; auto. simpl. right. eapply cnodes_in; eauto. apply root_in.
    + intros a Ha Hz. rewrite Ps in Hz by auto. rewrite A1; simpl; auto.
  - intros s t Hin. apply (IH s t); eauto.
Qed.

Definition r_finish_collect (parent : option (nat * nat)) (i : nat) (jt : jtree) : res (jtree * code) :=
  match parent with
  | None => Ok (jt, NO_ERROR)
  | Some (c1, s12) => r_message_pass (rt fl) jt i s12 c1
  end.

Lemma r_collect_ok : forall t fuel jt up parent, shape_ok jt -> tables_nonneg jt -> cliques_within card jt N -> ort jt up t ->
  NoDup (nodes t) -> NoDup (edges t) -> (forall x, In x (nodes t) -> x < length (cls jt)) ->
  length (nodes t) <= fuel ->
  (forall x, In x (nodes t) -> c_mark (clq jt x) = false) ->
  parent_marked jt up (root t) -> (forall u, up = Some u -> ~ In u (edges t) /\
     forall p, joins jt u (root t) p -> ~ In p (nodes t)) ->
  exists jt', r_collect_evidence (rt fl) fuel jt parent (root t) = r_finish_collect parent (root t) jt' /\
    rkeeps (2 * length (edges t)) jt jt' /\ region jt jt' (nodes t) (edges t) /\ rcollected jt' t.
Proof.
  induction t as [i ch IH] using rtree_ind2.
  intros fuel jt up parent HS HN HW HO ND NE HX HF HU HP HUP.
  cbn [root] in *. inversion HO as [up' i' ch' OM OJ OL OR]; subst.
  destruct fuel as [|f]; [simpl in HF; lia|].
  assert (Hi : i < length (cls jt)) by (apply HX; simpl; auto).
  cbn [r_collect_evidence]. rewrite mark_clique_ok by auto. cbn [bind].
  set (jt1 := mk jt i).
  assert (MO : marks_only jt jt1) by (now apply mk_marks_only).
  assert (K1 : rkeeps 0 jt jt1) by (now apply marks_only_rkeeps).
  destruct (marks_only_same _ _ MO) as (SH1 & HPh1 & HPs1).
  assert (L1 : length (cls jt1) = length (cls jt)) by (apply (shape_len _ _ SH1)).
  rewrite rd_clq by lia. cbn [bind].
  assert (Es : c_sepsets (clq jt1 i) = c_sepsets (clq jt i)) by (apply SH1).
  rewrite Es.
  inversion ND as [|? ? Ni NDc]; subst. fold (cnodes ch) in Ni, NDc. fold (cedges ch) in NE.
  (* invariant of the loop over the sepsets *)
  set (Inv := fun (d r : list (nat * rtree)) (j : jtree) =>
     rkeeps (2 * length (cedges d)) jt j /\ region jt j (i :: cnodes d) (cedges d) /\
     (forall s t, In (s, t) d -> rup_msg N j s t /\
        forall a, valid a -> psi j s a = 0%Qc -> phi j i a = 0%Qc) /\
     (forall s t, In (s, t) d -> rcollected j t)).
  match goal with |- context [each _ ?b _] => set (body := b) end.
  destruct (each_children _ body Inv up (c_sepsets (clq jt i)) ch [] ch jt1) as (jt' & E & HI); auto.
  - split; [exact K1|]. split; [|split; intros s t []]. split.
    + intros x [<-|[]]. unfold jt1. rewrite mk_clq by auto. now rewrite Nat.eqb_refl.
    + intros x Hx. unfold jt1. rewrite mk_clq by auto. destruct (Nat.eqb_spec x i); auto.
      subst. exfalso. apply Hx. simpl; auto.
    + reflexivity.
  - (* the sepset towards the parent is skipped *)
    intros d r s0 j E0 EU (K & R & _). destruct (HP s0 EU) as (Hs0 & p & HJ & HM).
    assert (SH := rk_shape _ _ _ K). destruct (shape_len _ _ SH) as (La & Lb).
    unfold body. rewrite rd_sep by lia. cbn [bind].
    assert (Mi : c_mark (clq j i) = true) by (apply (r_in _ _ _ _ R); simpl; auto).
    assert (Mp : c_mark (clq j p) = true).
    { destruct (in_dec Nat.eq_dec p (i :: cnodes d)) as [Hin|Hout].
      - now apply (r_in _ _ _ _ R).
      - rewrite (r_clq _ _ _ _ R); auto. }
    destruct (mark_irrel card j s0 p) with (i := i) as (M1 & M2); auto; try lia.
    { apply (rk_ok _ _ _ K). }
    { eapply same_shape_joins; eauto. }
    rewrite M1. cbn [bind negb is_err]. rewrite M2. reflexivity.
  - (* a sub-tree *)
    intros d r s0 t0 j E0 (K & R & C1 & C2).
    assert (Hin : In (s0, t0) ch) by (rewrite E0; apply in_or_app; simpl; auto).
    assert (SH := rk_shape _ _ _ K). destruct (shape_len _ _ SH) as (La & Lb).
    assert (Hs0 : s0 < length (sps jt)) by (eapply OL; eauto).
    assert (HJ : joins jt s0 i (root t0)) by (now apply OJ).
    assert (HJj : joins j s0 i (root t0)) by (eapply same_shape_joins; eauto).
    assert (HSj : shape_ok j) by apply K.
    destruct (joins_incl card j s0 i (root t0) HSj) as (I1 & I2 & Li & Lr & Nir); auto; try lia.
    rewrite E0 in NDc, NE.
    destruct (cnodes_nodup _ _ _ _ NDc) as (NDt & Dt).
    destruct (cedges_nodup _ _ _ _ NE) as (NEt & De & Ns0).
    assert (Nit : ~ In i (nodes t0)).
    { intros Q. apply Ni. eapply cnodes_in; eauto. }
    assert (Mi : c_mark (clq j i) = true) by (apply (r_in _ _ _ _ R); simpl; auto).
    assert (Ut : forall x, In x (nodes t0) -> clq j x = clq jt x).
    { intros x Hx. apply (r_clq _ _ _ _ R). intros [<-|Q]; auto. destruct (Dt x Hx); auto. }
    assert (Um : forall x, In x (nodes t0) -> c_mark (clq j x) = false).
    { intros x Hx. rewrite Ut by auto. apply HU. simpl. right. eapply cnodes_in; eauto. }
    destruct (IH s0 t0 Hin f j (Some s0) (Some (i, s0))) as (j1 & E1 & K2 & R2 & C3); auto.
    { apply K. }
    { apply K. }
    { clear -SH HO Hin OR. specialize (OR s0 t0 Hin). revert OR. generalize (Some s0) as u0.
      clear -SH. induction t0 as [k c IHt] using rtree_ind2. intros u0 H.
      inversion H as [u1 k' c' A B C D]; subst. constructor.
      - destruct SH as (_ & _ & SC & _). destruct (SC k) as (_ & -> & _). auto.
      - intros s t Hs. eapply same_shape_joins; eauto.
      - intros s t Hs. destruct SH as (_ & -> & _). eauto.
      - intros s t Hs. apply (IHt s t Hs). auto. }
    { intros x Hx. rewrite La. apply HX. simpl. right. eapply cnodes_in; eauto. }
    { clear -HF Hin. simpl in HF. assert (length (nodes t0) <= length (cnodes ch)); [|unfold cnodes in *; lia].
      apply in_split in Hin. destruct Hin as (l1 & l2 & ->). rewrite cnodes_app. simpl.
      rewrite !app_length. lia. }
    { intros u0 Eu. inversion Eu; subst. split; [lia|]. exists i. split; auto. now apply joins_sym. }
    { intros u0 Eu. inversion Eu; subst. split; auto. intros p Hp Hpn.
      assert (p = i); [|subst; auto].
      destruct HJj as [(A & B)|(A & B)], Hp as [(C & D)|(C & D)]; congruence. }
    (* the message to i *)
    assert (SH2 := rk_shape _ _ _ K2). destruct (shape_len _ _ SH2) as (La2 & Lb2).
    assert (HSj1 : shape_ok j1) by apply K2.
    assert (HJ1 : joins j1 s0 (root t0) i) by (apply joins_sym; eapply same_shape_joins; eauto).
    destruct (r_message_pass_ok u fl Hu0 Hu1 Hfl card N j1 (root t0) s0 i) as (j2 & E2 & M); auto; [apply K2|apply K2|lia|].
    assert (K3 : rkeeps 2 j1 j2).
    { eapply rkeeps_mp; eauto; [apply K2|apply K2|lia]. }
    assert (Mi1 : c_mark (clq j1 i) = true) by (rewrite (r_clq _ _ _ _ R2); auto).
    exists j2. split.
    { unfold body. rewrite rd_sep by lia. cbn [bind].
      destruct HJj as [(A & B)|(A & B)]; rewrite A, B.
      - rewrite clique_marked_ok by auto. rewrite Mi. cbn [bind negb is_err].
        rewrite clique_marked_ok by auto. rewrite (Um (root t0) (root_in t0)). cbn [bind negb].
        rewrite E1. exact E2.
      - rewrite clique_marked_ok by auto. rewrite (Um (root t0) (root_in t0)). cbn [bind negb].
        rewrite E1. cbn [r_finish_collect]. rewrite E2. cbn [bind is_err].
        rewrite clique_marked_ok by (destruct (shape_len _ _ (rk_shape _ _ _ K3)); lia).
        rewrite (rm_marks M), Mi1. reflexivity. }
    assert (KK : rkeeps (2 * length (cedges (d ++ [(s0, t0)]))) jt j2).
    { rewrite cedges_app. cbn [cedges flat_map fst snd]. rewrite app_nil_r, app_length. cbn [length].
      replace (2 * _) with (2 * length (cedges d) + (2 * length (edges t0) + 2)) by lia.
      eapply rkeeps_trans; [exact K|eapply rkeeps_trans; eauto]. }
    idtac.
    split; [exact KK|].
    assert (F1 : forall x, x <> i -> clq j2 x = clq j1 x) by (intros; now apply (rm_clq M)).
    assert (F2 : forall k, k <> s0 -> sep j2 k = sep j1 k) by (intros; now apply (rm_sep M)).
    split; [|split].
    + split.
      * intros x [<-|Hx]; rewrite (rm_marks M); auto.
        rewrite cnodes_app in Hx. apply in_app_or in Hx. destruct Hx as [Hx|Hx].
        -- rewrite (r_clq _ _ _ _ R2).
           ++ apply (r_in _ _ _ _ R). simpl; auto.
           ++ intros Q. destruct (Dt x Q); auto.
        -- simpl in Hx. rewrite app_nil_r in Hx. now apply (r_in _ _ _ _ R2).
      * intros x Hx. rewrite cnodes_app in Hx. simpl in Hx. rewrite app_nil_r, in_app_iff in Hx.
        rewrite F1 by (intros ->; apply Hx; auto).
        rewrite (r_clq _ _ _ _ R2) by tauto. apply (r_clq _ _ _ _ R). simpl. tauto.
      * intros k Hk. rewrite cedges_app in Hk. simpl in Hk. rewrite app_nil_r, in_app_iff in Hk.
        simpl in Hk. rewrite F2 by (intros ->; apply Hk; auto).
        rewrite (r_sep _ _ _ _ R2) by tauto. apply (r_sep _ _ _ _ R). tauto.
    + (* messages *)
      intros s t Hst. apply in_app_or in Hst. destruct Hst as [Hst|[Est|[]]].
      * destruct (C1 s t Hst) as (U & Z).
        assert (Sx : sep j2 s = sep j s).
        { assert (Q : In s (cedges d)) by (eapply cedges_in; eauto).
          rewrite F2.
          - apply (r_sep _ _ _ _ R2). intros Q2. destruct (De s (or_intror Q2)); auto.
          - intros ->. destruct (De s0 (or_introl eq_refl)); auto. }
        assert (Cx : clq j2 (root t) = clq j (root t)).
        { assert (Q : In (root t) (cnodes d)) by (eapply cnodes_in; eauto; apply root_in).
          rewrite F1.
          - apply (r_clq _ _ _ _ R2). intros Q2. destruct (Dt _ Q2); auto.
          - intros Q3. apply Ni. rewrite <- Q3. rewrite E0, cnodes_app. apply in_or_app; auto. }
        split.
        -- intros a Ha. unfold psi. rewrite Sx, Cx. unfold phi. rewrite Cx. apply (U a Ha).
        -- intros a Ha Hz. unfold psi in Hz. rewrite Sx in Hz.
           assert (Q : phi j1 i a = phi j i a) by (unfold phi; rewrite (r_clq _ _ _ _ R2); auto).
           apply (near_zero u Hu0 Hu1 _ _ _ (rm_phi M a Ha)).
           rewrite Q, (Z a Ha Hz). unfold Qcdiv. ring.
      * inversion Est; subst s t. split.
        -- intros a Ha. destruct (rk_shape _ _ _ K3) as (_ & _ & SC & SS).
           destruct (SC (root t0)) as (-> & _), (SS s0) as (-> & _).
           rewrite (sumv_phi_eq card j1 j2) by (auto; intros b Hb; unfold phi; rewrite F1; auto).
           now apply (rm_psi M).
        -- intros a Ha Hz. apply (near_zero u Hu0 Hu1 _ _ _ (rm_phi M a Ha)). rewrite Hz. unfold Qcdiv. ring.
    + (* rcollected sub-trees *)
      intros s t Hst. apply in_app_or in Hst. destruct Hst as [Hst|[Est|[]]].
      * apply (rcollected_agree j).
        -- eapply same_shape_trans; [exact SH2|apply K3].
        -- split.
           ++ intros x a Hx Ha. assert (Q : In x (cnodes d)) by (eapply cnodes_in; eauto).
              unfold phi. rewrite F1.
              ** rewrite (r_clq _ _ _ _ R2); auto. intros Q2. destruct (Dt _ Q2); auto.
              ** intros ->. apply Ni. rewrite E0, cnodes_app. apply in_or_app; auto.
           ++ intros k a Hk Ha. assert (Q : In k (cedges d)) by (eapply cedges_in; eauto).
              unfold psi. rewrite F2.
              ** rewrite (r_sep _ _ _ _ R2); auto. intros Q2. destruct (De _ (or_intror Q2)); auto.
              ** intros ->. destruct (De s0 (or_introl eq_refl)); auto.
        -- eauto.
      * inversion Est; subst s t. apply (rcollected_agree j1); [apply K3| |auto].
        split.
        -- intros x a Hx Ha. unfold phi. rewrite F1; auto. intros ->; auto.
        -- intros k a Hk Ha. unfold psi. rewrite F2; auto. intros ->; auto.
  - rewrite E. cbn [bind is_err]. destruct HI as (K & R & C1 & C2).
    exists jt'. split; [reflexivity|]. split; [exact K|]. split; [exact R|].
    constructor; auto.
Qed.

End Propagation.
Arguments rk_shape {u card N k jt0 jt}.
Arguments rk_ok {u card N k jt0 jt}.
Arguments rk_nonneg {u card N k jt0 jt}.
Arguments rk_within {u card N k jt0 jt}.
Arguments rk_joint {u card N k jt0 jt}.
