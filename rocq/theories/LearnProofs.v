(** * Proofs: the E-step *)
From Coq Require Import Permutation Field.
From Verif Require Import Base BaseProofs PotentialModel PotentialSpec PotentialProofs
  PotentialProofs2 PotentialProofs3 VariableModel VariableProofs JoinTreeModel
  AssignSpec AssignProofs JoinTreeSpec JoinTreeProofs JoinTreeProofs2 JoinTreeProofs3
  JoinTreeProofs4 JoinTreeProofs5 JoinTreeProofs6 JoinTreeProofs7 NipModel NipSpec NipProofs
  NipProofs2 NipProofs3 NipProofs4 GatherProofs GatherProofs2 SliceModel SliceSpec SliceProofs SliceProofs2 SliceProofs3
  SliceProofs4 SliceProofs5 LearnModel LearnSpec.
Import ListNotations.
Open Scope nat_scope.
Local Open Scope res_scope.

Add Field Qcfield_learn : Qcft.

Lemma Qc_ltb_true : forall x y, Qc_ltb x y = true <-> (x < y)%Qc.
Proof.
  intros x y. unfold Qc_ltb. destruct (Qclt_le_dec x y) as [H|H]; split; auto; try discriminate.
  intros K. exfalso. now apply (Qclt_not_le _ _ K).
Qed.
Lemma Qc_ltb_false : forall x y, Qc_ltb x y = false <-> (y <= x)%Qc.
Proof.
  intros x y. unfold Qc_ltb. destruct (Qclt_le_dec x y) as [H|H]; split; auto; try discriminate.
  intros K. exfalso. now apply (Qclt_not_le _ _ H).
Qed.

(** ** The family of a variable and its positions *)
Lemma family_mapping_ok : forall card m v, model_ok card m -> v < length (m_vars m) -> NoDup (family m v) ->
  exists m1 k m2 r, find_family m v = Ok (m1, Some k) /\ find_family_mapping m1 k v = Ok (m2, r) /\
    model_ok card m2 /\ same_model m m2 /\ m_jt m2 = m_jt m /\
    (forall w, v_lik (var m2 w) = v_lik (var m w)) /\ (forall w, v_entered (var m2 w) = v_entered (var m w)) /\
    k < length (cls (m_jt m)) /\ incl (family m v) (c_vars (clq (m_jt m) k)) /\
    Forall (fun i => i < length (c_vars (clq (m_jt m) k))) r /\
    map (fun i => nth i (c_vars (clq (m_jt m) k)) 0) r = family m v.
Proof.
  intros card m v HM Hv HN.
  destruct (find_family_ok card m v HM Hv) as (m1 & k & E1 & M1 & S1 & J1 & L1 & N1 & Hk & HI & HF).
  assert (Lv : length (m_vars m1) = length (m_vars m)) by apply S1.
  assert (Pv : v_parents (var m1 v) = v_parents (var m v)) by apply S1.
  destruct (v_fmap (var m1 v)) as [r|] eqn:EM.
  - exists m1, k, m1, r. split; auto. split.
    { unfold find_family_mapping. rewrite rd_var by lia. cbn [bind]. now rewrite EM. }
    split; auto. split; auto. split; auto. split; auto. split; auto. split; auto. split; auto.
    destruct (mo_var _ _ M1 v) as (_ & _ & _ & _ & X); [lia|].
    destruct (X r EM) as (k' & Ek & A & B). rewrite HF in Ek. inversion Ek; subst k'.
    rewrite J1 in A, B. split; auto. rewrite B, Pv. reflexivity.
  - destruct (C57_mapping_lemma card m1 k v (mo_shape _ _ M1)) as (m2 & r & E2 & A & B & _); auto.
    { lia. } { now rewrite J1. } { rewrite J1, Pv. exact HI. } { rewrite Pv. exact HN. }
    assert (E2' := E2). unfold find_family_mapping in E2'. rewrite rd_var in E2' by lia. cbn [bind] in E2'.
    rewrite EM in E2'. inv_as E2' kc Ek. inv_as E2' ff Ef. inv_as E2' r1 Er1. inv_as E2' r2 Er2.
    unfold put_var in E2'. inv_as E2' m3 Em3.
    injection E2'. intros -> ->. inv_as Em3 l El. injection Em3 as Em3. rewrite wr_ok in El by lia. injection El as El.
    assert (Em : m2 = putv m1 v (set_fmap (var m1 v) (Some r))).
    { rewrite <- Em3, <- El. reflexivity. }
    assert (FR : frame (var m1 v) (set_fmap (var m1 v) (Some r))) by (repeat split).
    assert (VO : var_ok card (m_jt m1) v (set_fmap (var m1 v) (Some r))).
    { destruct (mo_var _ _ M1 v) as (X1 & X2 & X3 & X4 & X5); [lia|]. split; auto. split; auto. split; auto. split; auto.
      intros r' H. cbn [v_fmap set_fmap] in H. injection H as <-. exists k. split; auto. }
    assert (S2 : same_model m1 m2) by (rewrite Em; apply same_model_putv; auto; lia).
    exists m1, k, m2, r. split; auto. split; auto.
    split. { rewrite Em. apply model_ok_putv; auto. lia. }
    split; [eapply same_model_trans; eauto|].
    split. { rewrite Em. cbn. auto. }
    split. { intros w. rewrite <- L1. rewrite Em, var_putv by lia. destruct (Nat.eqb_spec w v) as [->|]; reflexivity. }
    split. { intros w. rewrite <- N1. rewrite Em, var_putv by lia. destruct (Nat.eqb_spec w v) as [->|]; reflexivity. }
    split; auto. split; auto. rewrite J1 in A, B. split; auto. rewrite B, Pv. reflexivity.
Qed.

Lemma sel_family : forall (C r F : list nat), Forall (fun i => i < length C) r ->
  map (fun i => nth i C 0) r = F -> forall b : nat -> nat, sel r (map b C) = map b F.
Proof.
  intros C r F H <- b. unfold sel. rewrite map_map. apply map_ext_in. intros i Hi.
  rewrite Forall_forall in H. now rewrite (nth_map _ _ _ _ _ 0) by auto.
Qed.


Section Estep.
Variable card : nat -> nat.
Variable m0 : model.
Variable ts : time_series.
Hypothesis HM : slices_ok card m0.
Hypothesis HTS : series_ok m0 ts.
Hypothesis HFam : forall v, v < length (m_vars m0) -> NoDup (family m0 v).
Local Notation n := (length (m_vars m0)).
Local Notation T := (length (ts_data ts)).
Local Notation sums := (fun g => sumv card (seq 0 n) g (fun _ => 0)).

Lemma family_in : forall v w, v < n -> In w (family m0 v) -> w < n.
Proof.
  intros v w Hv Hw. destruct (mo_var _ _ (so_model _ _ HM) v Hv) as (_ & _ & (k & K1 & K2) & _).
  apply (mo_scope _ _ (so_model _ _ HM) k); auto.
Qed.
Lemma family_incl : forall v, v < n -> incl (family m0 v) (seq 0 n).
Proof. intros v Hv w Hw. apply in_seq. split; [lia|]. simpl. now apply (family_in v). Qed.

(** The marginal of a family from a calibrated tree. *)
Definition family_table (v : nat) (p : potential) : Prop :=
  wf p /\ dims p = map card (family m0 v).

Lemma count_one : forall m v p g c, model_ok card m -> same_model m0 m -> calibrated card (m_jt m) ->
  v < n -> family_table v p -> ext g -> (0 < c)%Qc ->
  (forall a, valid card a -> joint (m_jt m) a = c * g a)%Qc -> sums g <> 0%Qc ->
  exists m1 k m2 r p1 p2, find_family m v = Ok (m1, Some k) /\ find_family_mapping m1 k v = Ok (m2, r) /\
    rd (cls (m_jt m2)) k = Ok (clq (m_jt m) k) /\
    general_marginalise (c_p (clq (m_jt m) k)) p r = Ok (p1, NO_ERROR) /\
    normalise_potential (Some p1) = Ok (Some p2, NO_ERROR) /\
    model_ok card m2 /\ same_model m0 m2 /\ m_jt m2 = m_jt m /\ family_table v p2 /\
    (forall ix, valid_ix (map card (family m0 v)) ix ->
      cell p2 ix = (sums (fun b => given (ix_eqb (map b (family m0 v)) ix) (g b)) / sums g)%Qc) /\
    forall ix, valid_ix (map card (family m0 v)) ix -> (0 <= cell p2 ix)%Qc.
Proof.
  intros m v p g c M1 S1 C1 Hv (WP & DP) HE Pc HJ HZ.
  assert (Lv : length (m_vars m) = n) by apply S1.
  assert (Ef : family m v = family m0 v). { unfold family. destruct S1 as (_ & _ & SV & _). destruct (SV v) as (_ & _ & -> & _). reflexivity. }
  destruct (family_mapping_ok card m v M1) as (m1 & k & m2 & r & E1 & E2 & M2 & S2 & J2 & _ & _ & Hk & HI & HF & Hr).
  { lia. } { rewrite Ef. auto. }
  rewrite Ef in HI, Hr. set (V := family m0 v) in *. set (C := c_vars (clq (m_jt m) k)) in *.
  assert (HS := mo_shape _ _ M1). assert (TC := shape_clq card (m_jt m) _ HS Hk). fold C in TC.
  assert (NC : NoDup C) by apply TC. assert (NV : NoDup V) by (apply HFam; auto).
  assert (HC0 := shape_card card _ HS).
  destruct (marginalise_table card C V (c_p (clq (m_jt m) k)) p r HC0 TC) as (p1 & E3 & T1 & H1); auto.
  { split; auto. } { now apply NoDup_incl_length. } { now apply sel_family. }
  assert (ZV := ZV card m0 HM).
  assert (D1 : forall a, valid card a -> den V p1 a = (c * sumv card (minus (seq 0 n) V) g a)%Qc).
  { intros a Ha. rewrite H1 by auto.
    change (sumv card (minus C V) (phi (m_jt m) k) a = (c * sumv card (minus (seq 0 n) V) g a)%Qc).
    etransitivity; [apply (clique_interface card m k V a); auto|]. rewrite Lv. rewrite <- sumv_const_out. apply sumv_ext; auto. }
  assert (W1 : wf p1) by apply T1. assert (DD1 : dims p1 = map card V) by apply T1.
  assert (TOT : qsum (data p1) = (c * sums g)%Qc).
  { rewrite <- total_data by (apply W1). rewrite (total_sumv card V p1 (fun _ => 0)) by auto.
    rewrite (sumv_ext card V _ (fun a => c * sumv card (minus (seq 0 n) V) g a)%Qc) by auto.
    rewrite sumv_const_out. f_equal. rewrite <- sumv_app. apply sumv_perm; auto.
    symmetry. apply split_perm; auto using seq_NoDup. apply family_incl; auto. }
  assert (NT : qsum (data p1) <> 0%Qc).
  { rewrite TOT. intros K. apply Qcmult_integral in K. destruct K as [K|K]; auto. now apply (Qc_pos_neq c). }
  exists m1, k, m2, r, p1, (mkPot (dims p1) (normalised (data p1))).
  split; auto. split; auto. split. { rewrite J2. now apply rd_clq. } split; auto. split. { apply normalise_potential_ok. }
  split; auto. split; [eapply same_model_trans; eauto|]. split; auto.
  split. { split; [apply wf_same_shape; auto; apply normalised_length|]. exact DD1. }
  assert (CE : forall ix, valid_ix (map card V) ix -> cell (mkPot (dims p1) (normalised (data p1))) ix =
     (sums (fun b => given (ix_eqb (map b V) ix) (g b)) / sums g)%Qc).
  { intros ix Hix. unfold cell. cbn [dims data]. rewrite nth_normalised.
    destruct (qzero (qsum (data p1))) eqn:Z; [apply qzero_true in Z; tauto|].
    fold (cell p1 ix). rewrite TOT.
    destruct (ix_assignment card V ix (fun _ => 0) NV ZV Hix) as (a & Va & Ea & Oa).
    assert (X : cell p1 ix = (c * sums (fun b => given (ix_eqb (map b V) ix) (g b)))%Qc).
    { rewrite <- Ea at 1. change (cell p1 (map a V)) with (den V p1 a). rewrite D1 by auto. f_equal.
      assert (IV : incl V (seq 0 n)) by (now apply family_incl).
      rewrite (marginal_given card (seq 0 n) V g a ix); auto using seq_NoDup.
      apply sumv_base.
      - intros b b' Eb. now rewrite (HE b b' Eb), (map_ext b b' Eb).
      - intros w Hw. apply Oa. intros K. apply Hw. now apply (family_incl v Hv). }
    rewrite X. now apply scaled_ratio. }
  split; auto.
  intros ix Hix. rewrite CE by auto.
  assert (GN : forall b, valid card b -> (0 <= g b)%Qc).
  { intros b Hb. assert (JN : (0 <= joint (m_jt m) b)%Qc) by (apply (joint_nonneg card); auto; apply M1).
    rewrite HJ in JN by auto. destruct (Qclt_le_dec (g b) 0%Qc) as [K|K]; auto. exfalso.
    apply (Qclt_not_le (c * g b)%Qc 0%Qc); auto.
    assert (X : (g b * c < 0 * c)%Qc) by (now apply Qcmult_lt_compat_r).
    replace (g b * c)%Qc with (c * g b)%Qc in X by ring. replace (0 * c)%Qc with 0%Qc in X by ring. auto. }
  unfold Qcdiv. apply Qc_mul_nonneg.
  - apply sumv_nonneg; auto. intros b Hb. apply given_nonneg. auto.
  - apply Qc_inv_nonneg. apply sumv_nonneg; auto.
Qed.

Definition tables_for (l : list potential) : Prop :=
  length l = n /\ forall v, v < n -> family_table v (param l v).

(** The counts of one slice. *)
Lemma rd_param : forall l v, v < length l -> rd l v = Ok (param l v).
Proof. intros. now apply rd_ok. Qed.
Lemma param_set : forall l i p v, i < length l -> param (set_nth l i p) v = if Nat.eqb v i then p else param l v.
Proof. intros. unfold param. now rewrite nth_set_nth by auto. Qed.

Definition share (g : (nat -> nat) -> Qc) (v : nat) (ix : list nat) : Qc :=
  (sums (fun b => given (ix_eqb (map b (family m0 v)) ix) (g b)) / sums g)%Qc.
Definition counted (t v : nat) : bool := (Nat.eqb t 0 || negb (v_old (var m0 v)))%bool.

Lemma add_counts_ok : forall t m rs ps g c, model_ok card m -> same_model m0 m -> calibrated card (m_jt m) ->
  tables_for rs -> tables_for ps -> ext g -> (0 < c)%Qc ->
  (forall a, valid card a -> joint (m_jt m) a = c * g a)%Qc -> sums g <> 0%Qc ->
  exists m' rs' ps', add_counts t m rs ps = Ok (m', rs', ps') /\ model_ok card m' /\ same_model m0 m' /\
    m_jt m' = m_jt m /\ tables_for rs' /\ tables_for ps' /\
    forall v ix, v < n -> valid_ix (map card (family m0 v)) ix ->
      cell (param ps' v) ix = (cell (param ps v) ix + given (counted t v) (share g v ix))%Qc /\
      (0 <= given (counted t v) (share g v ix))%Qc.
Proof.
  intros t m rs ps g c M1 S1 C1 HR HP HE Pc HJ HZ. unfold add_counts.
  assert (Lv : length (m_vars m) = n) by apply S1. rewrite Lv.
  match goal with |- context [for_up 0 ?k ?b ?s] =>
    destruct (for_up_inv (model * list potential * list potential)
      (fun i '(m', rs', ps') => model_ok card m' /\ same_model m0 m' /\ m_jt m' = m_jt m /\
         tables_for rs' /\ tables_for ps' /\ (forall v, i <= v < n -> param ps' v = param ps v) /\
         forall v ix, v < i -> valid_ix (map card (family m0 v)) ix ->
           cell (param ps' v) ix = (cell (param ps v) ix + given (counted t v) (share g v ix))%Qc /\
           (0 <= given (counted t v) (share g v ix))%Qc) b 0 k s)
      as (((m' & rs') & ps') & E & A1 & A2 & A3 & A4 & A5 & _ & A6) end.
  { lia. }
  { split; auto. split; auto. split; auto. split; auto. split; auto. split; auto. intros; lia. }
  { intros i [[mi ri] pi] Hi (B1 & B2 & B3 & B4 & B5 & B6 & B7).
    assert (Li : length (m_vars mi) = n) by apply B2.
    rewrite rd_param by (destruct B4; lia). cbn [bind]. rewrite rd_var by lia. cbn [bind].
    assert (Eo : v_old (var mi i) = v_old (var m0 i)). { destruct B2 as (_ & _ & SV & _). apply SV. }
    rewrite Eo.
    assert (EC : counted t i = negb (Nat.ltb 0 t && v_old (var m0 i))).
    { unfold counted. destruct t; cbn; auto. }
    destruct (Nat.ltb 0 t && v_old (var m0 i))%bool eqn:EB; cbn [negb] in EC.
    - eexists. split; [reflexivity|]. cbn beta iota. split; auto. split; auto. split; auto. split; auto. split; auto.
      split; [intros; apply B6; lia|]. intros v ix Hv Hix.
      destruct (Nat.eq_dec v i) as [->|N]; [|apply B7; auto; lia].
      rewrite EC. cbn [given]. rewrite B6 by lia. split; [ring|discriminate].
    - destruct (count_one mi i (param ri i) g c) as (mf & k & mg & r & p1 & p2 & E1 & E2 & E3 & E4 & E5 & X1 & X2 & X3 & X4 & X5 & X6); auto.
      { now rewrite B3. } { lia. } { apply B4. lia. } { now rewrite B3. }
      rewrite E1. cbn [bind]. rewrite E2. cbn [bind]. rewrite E3. cbn [bind]. rewrite E4. cbn [bind]. rewrite E5. cbn [bind].
      assert (Lr : length ri = n) by apply B4. assert (Lp : length pi = n) by apply B5.
      rewrite wr_ok by lia. cbn [bind]. rewrite rd_param by lia. cbn [bind].
      destruct (B5) as (_ & B5'). destruct (B5' i) as (W & D); [lia|].
      destruct (sum_potential_ok (param pi i) p2 W) as (s & Es & Ds & Ws & Hs).
      { apply X4. } { rewrite D. symmetry. apply X4. }
      rewrite Es. cbn [bind]. rewrite wr_ok by lia. cbn [bind]. eexists. split; [reflexivity|]. cbn beta iota.
      split; auto. split; auto. split; [congruence|].
      split. { split; [now rewrite set_nth_length|]. intros v Hv. rewrite param_set by lia.
        destruct (Nat.eqb_spec v i) as [->|]; auto. now apply B4. }
      split. { split; [now rewrite set_nth_length|]. intros v Hv. rewrite param_set by lia.
        destruct (Nat.eqb_spec v i) as [->|]; auto. split; auto. congruence. }
      split. { intros v Hv. rewrite param_set by lia. destruct (Nat.eqb_spec v i); [lia|]. apply B6. lia. }
      intros v ix Hv Hix. rewrite param_set by lia. destruct (Nat.eqb_spec v i) as [->|]; [|apply B7; auto; lia].
      rewrite Hs by (rewrite D; auto). rewrite (B6 i) by lia. rewrite X5 by auto. rewrite EC. cbn [given]. split; auto.
      unfold share. rewrite <- X5 by auto. auto. }
  rewrite E. exists m', rs', ps'. auto 10.
Qed.

(** ** The forward phase *)
Definition rate (t : nat) : Qc := qprod (map (fun s => zev card m0 ts s / zref card m0 ts s)%Qc (seq 0 t)).
Lemma rate_S : forall t, rate (S t) = (rate t * (zev card m0 ts t / zref card m0 ts t))%Qc.
Proof.
  intros t. unfold rate. rewrite seq_S, map_app, qprod_app. cbn [map qprod plus]. ring.
Qed.

Definition alphas (t : nat) (ag : list potential) : Prop :=
  tables_ok card m0 ts ag /\ forall s d, s < t -> alpha_ok card m0 ts s (nth s ag d).

Definition stopped : Prop :=
  exists s, s < T /\ (zref card m0 ts s = 0 \/ zev card m0 ts s = 0 \/ 1 < rate (S s))%Qc.

Lemma Qc_pos_cases : forall c x, (0 < c)%Qc -> (0 <= x)%Qc -> Qc_ltb 0 (c * x) = negb (qzero x).
Proof.
  intros c x Pc Hx. destruct (qzero x) eqn:Z; cbn [negb].
  - apply qzero_true in Z. subst. apply Qc_ltb_false. replace (c * 0)%Qc with 0%Qc by ring. apply Qcle_refl.
  - apply Qc_ltb_true. apply Qc_mul_pos; auto. apply Qcle_lt_or_eq in Hx. destruct Hx as [|K]; auto.
    subst. vm_compute in Z. discriminate.
Qed.
Lemma zev_nonneg : forall t, (0 <= zev card m0 ts t)%Qc.
Proof.
  intros t. rewrite zev_eq by auto. apply sumv_nonneg; [apply (ZV card m0 HM)|]. intros b Hb. now apply G_nonneg.
Qed.
Lemma zref_nonneg : forall t, (0 <= zref card m0 ts t)%Qc.
Proof.
  intros t. rewrite zref_eq by auto. apply sumv_nonneg; [apply (ZV card m0 HM)|]. intros b Hb. apply Qc_mul_nonneg.
  - now apply (sl_nonneg card m0 HM).
  - destruct t; cbn [inflow]; [discriminate|]. apply sumv_nonneg; [apply (ZV card m0 HM)|].
    intros d Hd. apply given_nonneg. now apply G_nonneg.
Qed.

Lemma e_forward_ok : forall k t m ag, t + k = T ->
  fresh card m0 (Nat.ltb 0 t && Nat.ltb 1 T)%bool m -> alphas t ag ->
  (forall s, s < t -> zev card m0 ts s <> 0%Qc) ->
  exists m' ag' ll bad, e_forward ts k t m ag (rate t) = Ok (m', ag', ll, bad) /\
    model_ok card m' /\ same_model m0 m' /\
    if (bad : bool) then stopped
    else fresh card m0 (Nat.ltb 1 T) m' /\ alphas T ag' /\ ll = rate T /\
      (forall s, s < T -> zev card m0 ts s <> 0%Qc) /\ (forall s, t <= s < T -> rate (S s) <= 1)%Qc.
Proof.
  induction k as [|k IH]; intros t m ag Ht HF HA HZ; cbn [e_forward].
  - rewrite Nat.add_0_r in Ht. subst t. exists m, ag, (rate T), false. split; auto.
    split; [apply HF|]. split; [apply HF|]. split.
    + replace (1 <? T) with ((0 <? T) && (1 <? T))%bool; auto.
      destruct (Nat.ltb_spec 0 T), (Nat.ltb_spec 1 T); auto; lia.
    + split; auto. split; auto. split; auto. intros; lia.
  - unfold e_forward_step.
    assert (HF' : fresh card m0 (Nat.ltb 0 t) m).
    { destruct (Nat.ltb_spec 0 t); auto. destruct (Nat.ltb_spec 1 T); [auto|lia]. }
    destruct HA as (HT & HA). assert (L2 : length ag = T + 1) by apply HT.
    destruct (interface_potential_ok card m0 HM) as (al & _ & _ & _).
    destruct (observe_slice card m0 ts HM HTS t m (nth (t - 1) ag al) true [])
      as (ma & mb & z & mc & md & me & l' & c & O1 & O2 & O3 & O4 & O5 & O6 & O7 & O8 & Pc & O9 & O10); auto.
    { lia. } { intros P. apply HA. lia. }
    replace (if 0 <? t then let* a := rd ag (t - 1) in finish_message m FORWARD a None else Ok m) with (Ok ma).
    2: { rewrite <- O1. destruct (0 <? t); auto. rewrite (rd_ok _ ag (t - 1) al) by lia. reflexivity. }
    cbn [bind]. unfold reference_mass in O2. inv_as O2 mx Ex. cbn [bind]. rewrite O2. cbn [bind].
    rewrite O3. cbn [bind]. rewrite O4. cbn [bind]. unfold evidence_mass in O5. inv_as O5 my Ey. destruct my as (my & m2).
    cbn [bind]. destruct (Qclt_le_dec m2 0%Qc); [discriminate|]. injection O5 as -> O5.
    rewrite <- O5 in O10. cbn [app] in O10. injection O10 as Em1 Em2.
    rewrite <- (zref_eq card m0 ts HM) in Em1. rewrite <- (zev_eq card m0 ts HM) in Em2.
    subst z m2. rewrite !Qc_pos_cases by auto using zref_nonneg, zev_nonneg.
    destruct (qzero (zref card m0 ts t)) eqn:Z1.
    { cbn [negb andb orb bind]. eexists _, _, _, true. split; [reflexivity|]. split; auto. split; auto.
      exists t. split; [lia|]. left. now apply qzero_true. }
    destruct (qzero (zev card m0 ts t)) eqn:Z2.
    { cbn [negb andb orb bind]. eexists _, _, _, true. split; [reflexivity|]. split; auto. split; auto.
      exists t. split; [lia|]. right. left. now apply qzero_true. }
    cbn [negb andb orb]. rewrite scaled_ratio by auto. rewrite <- rate_S.
    destruct (Qc_ltb 1 (rate (S t))) eqn:Z3.
    { cbn [bind]. eexists _, _, _, true. split; [reflexivity|]. split; auto. split; auto.
      exists t. split; [lia|]. right. right. now apply Qc_ltb_true. }
    rewrite (rd_ok _ ag t al) by lia. cbn [bind].
    assert (NZ : zev card m0 ts t <> 0%Qc) by (intros K; rewrite K in Z2; vm_compute in Z2; discriminate).
    destruct (leave_slice card m0 HM me FORWARD (nth t ag al) (G card m0 ts t) c) as (p' & Y1 & Y2 & Y3); auto.
    { apply HT. lia. } { apply HT. lia. } { now apply G_ext. } { right. rewrite <- zev_eq by auto. auto. }
    rewrite Y1. cbn [bind].
    destruct (tables_write card m0 ts ag t p' HT) as (ag' & X1 & X2 & X3); auto; [lia|].
    rewrite X1. cbn [bind].
    destruct (next_fresh card m0 HM me (Nat.ltb 1 T) O6 O7) as (mg & mh & W1 & W2 & W3). rewrite W1. cbn [bind]. rewrite W2. cbn [bind].
    destruct (IH (t + 1) mh ag') as (m' & ag'' & ll & bad & E & M' & S' & R).
    { lia. }
    { replace (0 <? t + 1) with true; auto. symmetry. apply Nat.ltb_lt. lia. }
    { split; auto. intros s d Hs. rewrite X3 by lia. destruct (Nat.eqb_spec s t) as [->|]; [split; auto|]. apply HA. lia. }
    { intros s Hs. destruct (Nat.eq_dec s t) as [->|]; auto. apply HZ. lia. }
    rewrite (Nat.add_comm t 1) in E at 2. cbn [plus] in E.
    exists m', ag'', ll, bad. split; auto. split; auto. split; auto. destruct bad; auto.
    destruct R as (R1 & R2 & R3 & R4 & R5). split; auto. split; auto. split; auto. split; auto.
    intros s Hs. destruct (Nat.eq_dec s t) as [->|]; [now apply Qc_ltb_false|]. apply R5. lia.
Qed.

(** ** The backward phase *)
Lemma e_backward_ok : forall m ag rs ps, fresh card m0 (Nat.ltb 1 T) m -> alphas T ag ->
  tables_for rs -> tables_for ps -> likelihood card m0 ts <> 0%Qc ->
  exists m' ag' rs' ps', e_backward m ts ag rs ps = Ok (m', ag', rs', ps') /\
    model_ok card m' /\ same_model m0 m' /\ tables_for ps' /\
    forall v ix, v < n -> valid_ix (map card (family m0 v)) ix ->
      cell (param ps' v) ix =
        (cell (param ps v) ix + qsum (map (fun t => given (counted t v) (share (GB card m0 ts t) v ix)) (seq 0 T)))%Qc /\
      (cell (param ps v) ix <= cell (param ps' v) ix)%Qc.
Proof.
  intros m ag rs ps HF (HT & HA) HR HP HZ. unfold e_backward.
  destruct (interface_potential_ok card m0 HM) as (al & _ & _ & _).
  match goal with |- context [for_down ?k 0 ?b ?s] =>
    destruct (for_down_inv (model * list potential * list potential * list potential)
      (fun t '(m, ag, rs0, ps0) => fresh card m0 (Nat.ltb 0 (t - 1)) m /\ tables_ok card m0 ts ag /\
         (forall s0 d, s0 < t -> s0 < T -> alpha_ok card m0 ts s0 (nth s0 ag d)) /\
         (forall d, 0 < t < T -> gamma_ok card m0 ts t (nth t ag d)) /\
         tables_for rs0 /\ tables_for ps0 /\
         forall v ix, v < n -> valid_ix (map card (family m0 v)) ix ->
           cell (param ps0 v) ix =
             (cell (param ps v) ix + qsum (map (fun t => given (counted t v) (share (GB card m0 ts t) v ix)) (seq t (T - t))))%Qc /\
           (cell (param ps v) ix <= cell (param ps0 v) ix)%Qc) b k 0 s)
      as ((((m' & ag') & rs') & ps') & E3 & A1 & A2 & A3 & A4 & A5 & A6 & A7) end.
  { lia. }
  { split. { replace (0 <? T - 1) with (1 <? T); auto. destruct (Nat.ltb_spec 1 T), (Nat.ltb_spec 0 (T - 1)); auto; lia. }
    split; auto. split; auto. split; [intros; lia|]. split; auto. split; auto.
    intros v ix Hv Hix. rewrite Nat.sub_diag. cbn. split; [ring|apply Qcle_refl]. }
  { intros t [[[mi agi] ri] pi] Ht (B1 & B2 & B3 & B4 & B5 & B6 & B7). rewrite Nat.sub_succ, Nat.sub_0_r in B1.
    assert (L2 : length agi = T + 1) by apply B2.
    destruct (revise_slice card m0 ts HM HTS t mi (nth (t - 1) agi al) (nth t agi al) (nth (t + 1) agi al)) as (ma & mb & mc & md & c & O1 & O3 & O4 & O5 & O6 & O7 & O8 & Pc & O9); auto.
    { lia. } { intros P. apply B3; lia. } { intros P. split; [apply B3; lia|]. rewrite Nat.add_1_r. apply B4. lia. }
    replace (if 0 <? t then let* a := rd agi (t - 1) in finish_message mi FORWARD a None else Ok mi) with (Ok ma).
    2: { rewrite <- O1. destruct (0 <? t); auto. rewrite (rd_ok _ agi (t - 1) al) by lia. reflexivity. }
    cbn [bind]. rewrite O3. cbn [bind].
    replace (if t <? T - 1 then let* g := rd agi (t + 1) in let* a := rd agi t in finish_message mb BACKWARD g (Some a) else Ok mb) with (Ok mc).
    2: { rewrite <- O4. destruct (t <? T - 1); auto. rewrite (rd_ok _ agi (t + 1) al), (rd_ok _ agi t al) by lia. reflexivity. }
    cbn [bind]. rewrite O5. cbn [bind].
    assert (GZ : sums (GB card m0 ts t) <> 0%Qc) by (rewrite (GB_total card m0 ts HM) by lia; auto).
    destruct (add_counts_ok t md ri pi (GB card m0 ts t) c) as (mf & ri' & pi' & W1 & W2 & W3 & W4 & W5 & W6 & W7); auto.
    { now apply GB_ext. }
    rewrite W1. cbn [bind].
    assert (Y : exists ag', (if 0 <? t then let* g := rd agi t in let* g := start_message mf BACKWARD g in wr agi t g else Ok agi) = Ok ag' /\
       tables_ok card m0 ts ag' /\ (forall s d, s < t -> alpha_ok card m0 ts s (nth s ag' d)) /\ (forall d, 0 < t < T -> gamma_ok card m0 ts t (nth t ag' d))).
    { destruct (Nat.ltb_spec 0 t) as [P|P].
      - rewrite (rd_ok _ agi t al) by lia. cbn [bind].
        destruct (leave_slice card m0 HM mf BACKWARD (nth t agi al) (GB card m0 ts t) c) as (p' & Y1 & Y2 & Y3); auto.
        { rewrite W4. auto. } { apply B2. lia. } { apply B2. lia. } { now apply GB_ext. } { intros a Ha. rewrite W4. auto. }
        rewrite Y1. cbn [bind]. destruct (tables_write card m0 ts agi t p' B2) as (ag' & U1 & U2 & U3); auto; [lia|].
        exists ag'. split; auto. split; auto. split.
        + intros s d Hs. rewrite U3 by lia. destruct (Nat.eqb_spec s t); [lia|]. apply B3; lia.
        + intros d _. rewrite U3 by lia. rewrite Nat.eqb_refl. split; auto.
      - exists agi. split; auto. split; auto. split; intros; lia. }
    destruct Y as (ag' & Y1 & Y2 & Y3 & Y4). rewrite Y1. cbn [bind].
    destruct (next_fresh card m0 HM mf (Nat.ltb 1 t) W2 W3) as (mg & mh & Z1 & Z2 & Z3). rewrite Z1. cbn [bind]. rewrite Z2. cbn [bind].
    eexists. split; [reflexivity|]. cbn beta iota.
    split. { replace (0 <? t - 1) with (1 <? t); auto. destruct (Nat.ltb_spec 1 t), (Nat.ltb_spec 0 (t - 1)); auto; lia. }
    split; auto. split; auto. split; auto. split; auto. split; auto.
    intros v ix Hv Hix. destruct (W7 v ix Hv Hix) as (W8 & W9). destruct (B7 v ix Hv Hix) as (B8 & B9).
    rewrite W8. split.
    - rewrite B8. replace (T - t) with (S (T - S t)) by lia. cbn [seq map qsum]. ring.
    - eapply Qcle_trans; [exact B9|]. rewrite <- (Qcplus_0_r (cell (param pi v) ix)) at 1.
      apply Qcplus_le_compat; auto. apply Qcle_refl. }
  rewrite E3. exists m', ag', rs', ps'. split; auto. split; [apply A1|]. split; [apply A1|]. split; auto.
  rewrite Nat.sub_0_r in A7. auto.
Qed.

Lemma share_family : forall t v ix, t < T -> share (GB card m0 ts t) v ix = family_at card m0 ts t v ix.
Proof.
  intros t v ix Ht. unfold share, family_at. rewrite (GB_total card m0 ts HM) by auto. f_equal.
  set (h := fun b => given (ix_eqb (map b (family m0 v)) ix) 1%Qc).
  transitivity (sums (fun b => GB card m0 ts t b * h b)%Qc).
  - apply sumv_ext_free. intros d _. unfold h. destruct (ix_eqb _ _); cbn [given]; ring.
  - rewrite <- (steps_smooth card m0 ts HM t h) by (auto; intros a b E; unfold h; now rewrite (map_ext a b E)).
    apply sumv_ext_free. intros d _. unfold h. destruct (ix_eqb _ _); cbn [given]; ring.
Qed.

Lemma new_like_ok : forall ps, tables_for ps ->
  exists rs, new_results_like n ps = Ok rs /\ tables_for rs.
Proof.
  intros ps (LP & HP). unfold new_results_like.
  match goal with |- context [for_up 0 ?k ?b ?s] =>
    destruct (for_up_inv (list potential) (fun i l => length l = i /\ forall v, v < i -> family_table v (param l v)) b 0 k s)
      as (rs & E & A1 & A2) end.
  { lia. }
  { split; auto. intros; lia. }
  { intros i l Hi (B1 & B2). rewrite rd_param by lia. cbn [bind].
    destruct (HP i) as (W & D); [lia|].
    assert (CA : firstn (dimensionality (param ps i)) (card_array (param ps i)) = map card (family m0 i)).
    { unfold dimensionality, card_array. rewrite D. unfold family. cbn [map length]. rewrite firstn_all2; auto. }
    destruct (new_potential_ok (card_array (param ps i)) (dimensionality (param ps i)) None) as (q & Eq & Wq & Dq & _).
    - rewrite CA, <- D. split; apply W.
    - unfold dimensionality, card_array. rewrite D. cbn. lia.
    - exact Logic.I.
    - rewrite Eq. cbn [bind]. eexists. split; [reflexivity|]. split; [rewrite app_length; simpl; lia|].
      intros v Hv. unfold param. destruct (Nat.eq_dec v i) as [->|N].
      + rewrite app_nth2 by lia. rewrite B1, Nat.sub_diag. cbn [nth]. split; auto. congruence.
      + rewrite app_nth1 by lia. apply B2. lia. }
  rewrite E. exists rs. split; auto. split; auto.
Qed.

Theorem e_step_ok : forall ps, tables_for ps ->
  exists m' ps' ll e, e_step m0 ts ps = Ok (m', ps', ll, e) /\ model_ok card m' /\ same_model m0 m' /\
    ((e = BAD_LUCK /\ ps' = ps /\ stopped) \/
     (e = NO_ERROR /\ tables_for ps' /\ ll = rate T /\ (forall s, s < T -> zev card m0 ts s <> 0%Qc) /\
      (forall s, s < T -> (rate (S s) <= 1)%Qc) /\
      forall v ix, v < n -> valid_ix (map card (family m0 v)) ix ->
        cell (param ps' v) ix = (cell (param ps v) ix + expected card m0 ts v ix)%Qc /\
        (cell (param ps v) ix <= cell (param ps' v) ix)%Qc)).
Proof.
  intros ps HP. unfold e_step.
  destruct (new_like_ok ps HP) as (rs & E0 & HR). rewrite E0. cbn [bind].
  destruct (interface_potential_ok card m0 HM) as (al & Ea & Wa & Da). rewrite Ea. cbn [bind].
  destruct (next_fresh card m0 HM m0 false (so_model _ _ HM) (same_model_refl m0)) as (m1 & m2 & E1 & E2 & F2).
  rewrite E1. cbn [bind]. rewrite E2. cbn [bind].
  destruct (e_forward_ok T 0 m2 (repeat al (T + 1))) as (m3 & ag & ll & bad & E3 & M3 & S3 & R); auto.
  { split; [|intros; lia]. split; [apply repeat_length|]. intros s d Hs. rewrite nth_repeat_lt by auto. auto. }
  { intros; lia. }
  change (rate 0) with 1%Qc in E3. rewrite E3. cbn [bind]. destruct bad.
  - exists m3, ps, ll, BAD_LUCK. auto 10.
  - destruct R as (R1 & R2 & R3 & R4 & R5).
    assert (HL : likelihood card m0 ts <> 0%Qc).
    { unfold likelihood. cbv zeta. destruct T as [|t] eqn:ET; [discriminate|]. apply (R4 t). lia. }
    destruct (e_backward_ok m3 ag rs ps R1 R2 HR HP HL) as (m4 & ag' & rs' & ps' & E4 & M4 & S4 & T4 & H4).
    rewrite E4. cbn [bind]. exists m4, ps', ll, NO_ERROR. split; auto. split; auto. split; auto. right.
    split; auto. split; auto. split; auto. split; auto. split; [intros; apply R5; lia|].
    intros v ix Hv Hix. destruct (H4 v ix Hv Hix) as (H5 & H6). split; auto. rewrite H5. f_equal.
    unfold expected. apply qsum_map_ext. intros t Ht. apply in_seq in Ht. unfold counted.
    rewrite share_family by lia. reflexivity.
Qed.
End Estep.
