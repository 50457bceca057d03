(** * Rounded arithmetic: masses and the counts of one time step *)
From Coq Require Import ZArith QArith Qcanon Field Lia Permutation String.
From Verif Require Import Base BaseProofs PotentialModel PotentialSpec PotentialProofs PotentialProofs2
  PotentialProofs3 VariableModel VariableProofs JoinTreeModel AssignSpec AssignProofs JoinTreeSpec
  JoinTreeProofs JoinTreeProofs2 JoinTreeProofs3 JoinTreeProofs4 JoinTreeProofs5 JoinTreeProofs6 JoinTreeProofs7
  NipModel NipSpec NipProofs NipProofs2 NipProofs3 GatherProofs2 SliceModel SliceSpec SliceProofs SliceProofs2
  SliceProofs3 SliceProofs4 LearnModel LearnSpec LearnProofs LearnProofs5 RoundModel RoundModel2 RoundSpec RoundSpec2
  RoundProofs RoundProofs3 RoundProofs4 RoundProofs5 RoundProofs6 RoundProofs7 RoundProofs8 RoundProofs9 RoundProofs13
  RoundProofs14.
Import ListNotations.
Open Scope nat_scope.
Local Open Scope list_scope.
Local Open Scope res_scope.
Add Field QcfieldRound16 : Qcft.

Section Mass.
Variable u : Qc.
Variable fl : Qc -> Qc.
Hypothesis Hu0 : (0 <= u)%Qc.
Hypothesis Hu1 : (u < 1)%Qc.
Hypothesis Hfl : forall x, (0 <= x)%Qc -> near u 1 x (fl x).
Variable card : nat -> nat.

Lemma fl_zero : fl 0%Qc = 0%Qc.
Proof. apply (near_zero u Hu0 Hu1 1 0%Qc (fl 0%Qc)); [apply Hfl; apply Qcle_refl|reflexivity]. Qed.

Definition rsum (l : list Qc) : Qc := fold_left (fun s x => fl (s + x)%Qc) l 0%Qc.

Lemma r_data_mass_ok : forall p, r_data_mass (rt fl) p = Ok (rsum (data p)).
Proof.
  intros p. unfold r_data_mass, size_of_data.
  destruct (for_up_inv Qc (fun k s => s = rsum (firstn k (data p)))
    (fun i s => let* x := rd (data p) i in rt fl (s + x)%Qc) 0 (length (data p)) 0%Qc) as (s & E & H); auto.
  - lia.
  - intros i s Hi ->. rewrite (rd_ok _ _ _ 0%Qc) by lia. cbn [bind]. eexists. split; [reflexivity|].
    rewrite (firstn_S_nth _ (data p) i 0%Qc) by lia. unfold rsum. rewrite fold_left_app. reflexivity.
  - rewrite E, H. now rewrite firstn_all.
Qed.

Lemma rsum_zero : forall l, (forall x, In x l -> x = 0%Qc) -> rsum l = 0%Qc.
Proof.
  unfold rsum. induction l as [|x l IH]; intros H; [reflexivity|]. cbn [fold_left].
  rewrite (H x (or_introl eq_refl)), Qcplus_0_l, fl_zero. apply IH. intros y Hy. apply H. now right.
Qed.

Definition rmass_c (i : nat) (st : jtree * Qc) : jtree * Qc :=
  (fst st, fl (snd st + rsum (data (c_p (clq (fst st) i)))))%Qc.
Definition rmass_s (s : nat) (st : jtree * Qc) : jtree * Qc :=
  (fst st, fl (snd st - rsum (data (s_new (sep (fst st) s)))))%Qc.

Definition no_mass (jt : jtree) : Prop :=
  (forall i x, i < length (cls jt) -> In x (data (c_p (clq jt i))) -> x = 0%Qc) /\
  (forall s x, s < length (sps jt) -> In x (data (s_new (sep jt s))) -> x = 0%Qc).

Lemma rmass_run : forall evs jt j acc, marks_only jt j ->
  (forall i, In i (flat_map is_c evs) -> i < length (cls jt)) ->
  (forall i, In i (flat_map is_s evs) -> i < length (sps jt)) ->
  let st := fold_left (dstep rmass_c rmass_s) evs (j, acc) in
  marks_only jt (fst st) /\ (no_mass jt -> acc = 0%Qc -> snd st = 0%Qc).
Proof.
  induction evs as [|e evs IH]; intros jt j acc HM HX HY; [simpl; auto|].
  cbn [fold_left]. destruct e as [i|s].
  - assert (Hi : i < length (cls jt)) by (apply HX; simpl; auto).
    assert (HM2 : marks_only jt (mk j i)).
    { eapply marks_only_trans; [exact HM|]. apply mk_marks_only. destruct HM as (_ & -> & _). auto. }
    destruct (IH jt (mk j i) (fl (acc + rsum (data (c_p (clq (mk j i) i)))))%Qc HM2) as (H1 & H2).
    { intros x Hx. apply HX. simpl. auto. } { intros x Hx. apply HY. simpl. auto. }
    split; [exact H1|]. intros (Z1 & Z2) ->. apply H2; [split; auto|].
    destruct HM2 as (_ & _ & E). destruct (E i Hi) as (b & ->). cbn [c_p].
    rewrite rsum_zero by (intros x Hx; now apply (Z1 i)). rewrite Qcplus_0_l. apply fl_zero.
  - assert (Hs : s < length (sps jt)) by (apply HY; simpl; auto).
    destruct (IH jt j (fl (acc - rsum (data (s_new (sep j s)))))%Qc HM) as (H1 & H2).
    { intros x Hx. apply HX. simpl. auto. } { intros x Hx. apply HY. simpl. auto. }
    split; [exact H1|]. intros (Z1 & Z2) ->. apply H2; [split; auto|].
    destruct HM as (E & _). unfold sep. rewrite E. fold (sep jt s).
    rewrite rsum_zero by (intros x Hx; now apply (Z2 s)). replace (0 - 0)%Qc with 0%Qc by ring. apply fl_zero.
Qed.

Lemma r_probability_mass_ok : forall jt, shape_ok card jt -> is_tree jt ->
  exists jt' z, r_probability_mass (rt fl) jt = Ok (jt', z) /\ marks_only jt jt' /\ (no_mass jt -> z = 0%Qc).
Proof.
  intros jt HS HT. unfold r_probability_mass.
  destruct (unmark_all_ok jt) as (j0 & E0 & MO & M0). rewrite E0. cbn [bind].
  assert (L0 : length (cls j0) = length (cls jt)) by (destruct MO as (_ & -> & _); auto).
  rewrite L0.
  assert (G0 : good card jt j0).
  { split; [now apply (marks_only_ok card jt)|]. now apply marks_only_same. }
  destruct (dfs_all_ok card Qc (r_clique_mass (rt fl)) (r_neg_sepset_mass (rt fl)) rmass_c rmass_s jt j0 0%Qc)
    as (evs & P1 & P2 & E & G); auto.
  { intros i j acc Gj Hi. unfold r_clique_mass. rewrite rd_clq by auto. cbn [bind].
    rewrite r_data_mass_ok. cbn [bind]. split; [reflexivity|]. split; [exact Gj|]. intros x; reflexivity. }
  { intros i j acc Gj Hi. unfold r_neg_sepset_mass. rewrite rd_sep by auto. cbn [bind].
    rewrite r_data_mass_ok. cbn [bind]. split; [reflexivity|]. split; [exact Gj|]. intros x; reflexivity. }
  destruct (rmass_run evs jt j0 0%Qc MO) as (H1 & H2).
  { intros i Hi. apply (Permutation_in _ P1) in Hi. apply in_seq in Hi. lia. }
  { intros i Hi. apply (Permutation_in _ P2) in Hi. apply in_seq in Hi. lia. }
  rewrite E. cbn [bind]. eexists. eexists. split; [reflexivity|]. auto.
Qed.

(** A tree whose joint is zero has no mass. *)
Variable N : nat.
Lemma zero_no_mass : forall m, model_ok card m -> rcalibrated u card (N + 2) (m_jt m) ->
  (forall a, valid card a -> joint (m_jt m) a = 0%Qc) -> no_mass (m_jt m).
Proof.
  intros m HM HC HZ. assert (HS := mo_shape _ _ HM). assert (NN := mo_nonneg _ _ HM).
  assert (ZV := zero_valid card m HM). assert (HC0 := shape_card card _ HS).
  assert (PZ : forall i a, i < length (cls (m_jt m)) -> valid card a -> phi (m_jt m) i a = 0%Qc).
  { intros i a Hi Ha.
    assert (Q := r_clique_marginal_ok u Hu0 Hu1 card (m_jt m) (N + 2) i a HS NN (mo_tree _ _ HM) (mo_rip _ _ HM) HC Hi Ha).
    apply (near_zero u Hu0 Hu1 _ _ _ Q). apply sumv_zero; auto. }
  assert (TZ : forall vs p, table card vs p -> (forall a, valid card a -> den vs p a = 0%Qc) -> forall x, In x (data p) -> x = 0%Qc).
  { intros vs p (T1 & T2 & T3) H x Hx. apply (In_nth _ _ 0%Qc) in Hx. destruct Hx as (k & Hk & <-).
    rewrite (wf_data_length _ T2) in Hk. assert (PD : Forall (fun d => 0 < d) (dims p)) by apply T2.
    rewrite <- cell_unflat by auto.
    destruct (ix_assignment card vs (unflat (dims p) k) (fun _ => 0) T1 ZV) as (a & Va & Ea & _).
    { rewrite <- T3. now apply unflat_valid. }
    rewrite <- Ea. apply (H a Va). }
  split.
  - intros i x Hi. apply (TZ (c_vars (clq (m_jt m) i))); [now apply shape_clq|]. intros a Ha. now apply PZ.
  - intros s x Hs. apply (TZ (s_vars (sep (m_jt m) s))).
    + destruct HS as (_ & _ & H). destruct (H s Hs) as (_ & X & _). exact X.
    + intros a Ha. assert (Q := HC s (s_first (sep (m_jt m) s)) a Hs (or_introl eq_refl) Ha).
      apply (near_zero u Hu0 Hu1 _ _ _ Q).
      apply sumv_zero; auto. intros b Hb _. apply PZ; auto.
      destruct HS as (_ & _ & H). assert (X := H s Hs). tauto.
Qed.

Lemma r_mass_ok : forall m, model_ok card m -> exists jt' z, r_model_prob_mass (rt fl) m = Ok (set_jt m jt', z) /\
  model_ok card (set_jt m jt') /\ same_model m (set_jt m jt') /\
  (forall a, joint jt' a = joint (m_jt m) a) /\
  (rcalibrated u card (N + 2) (m_jt m) -> rcalibrated u card (N + 2) jt' /\
     ((forall a, valid card a -> joint (m_jt m) a = 0%Qc) -> z = 0%Qc)).
Proof.
  intros m HM. unfold r_model_prob_mass.
  destruct (r_probability_mass_ok (m_jt m) (mo_shape _ _ HM) (mo_tree _ _ HM)) as (jt' & z & E & MO & HZ).
  rewrite E. cbn [bind]. exists jt', z. split; [reflexivity|].
  destruct (marks_only_same _ _ MO) as (SH & PH & PS).
  assert (J : forall a, joint jt' a = joint (m_jt m) a).
  { intros a. destruct (shape_len _ _ SH) as (L1 & L2). apply joint_ext; auto. }
  split. { apply model_ok_jt; auto; [apply (marks_only_ok card (m_jt m)); auto|apply (marks_only_nonneg (m_jt m)); auto]; apply HM. }
  split; [now apply same_model_jt|]. split; auto.
  intros HC. split.
  - intros s i a Hs Hi Ha. destruct SH as (L1 & L2 & SC & SS). rewrite PS.
    destruct (SS s) as (-> & E1 & E2). destruct (SC i) as (-> & _).
    rewrite (sumv_ext card _ (phi jt' i) (phi (m_jt m) i)) by auto.
    apply (HC s i a); auto; [lia|]. rewrite <- E1, <- E2. exact Hi.
  - intros Z. apply HZ. now apply zero_no_mass.
Qed.
End Mass.

(** ** Adding a table *)
Section Counts.
Variable u : Qc.
Variable fl : Qc -> Qc.
Hypothesis Hu0 : (0 <= u)%Qc.
Hypothesis Hu1 : (u < 1)%Qc.
Hypothesis Hfl : forall x, (0 <= x)%Qc -> near u 1 x (fl x).
Variable card : nat -> nat.
Variable N : nat.
Variable m0 : model.
Variable ts : time_series.
Hypothesis HM : slices_ok card m0.
Hypothesis HTS : series_ok m0 ts.
Hypothesis HFam : forall v, v < length (m_vars m0) -> NoDup (family m0 v).
Hypothesis HW : cliques_within card (m_jt m0) N.
Local Notation n := (length (m_vars m0)).
Local Notation T := (length (ts_data ts)).
Local Notation sums := (fun g => sumv card (seq 0 n) g (fun _ => 0)).
Local Notation s0 := (length (sps (m_jt m0))).

Lemma r_sum_potential_ok : forall s inc, wf s -> wf inc -> dims s = dims inc ->
  exists s', r_sum_potential (rt fl) (Some s) (Some inc) = Ok (Some s', NO_ERROR) /\ dims s' = dims s /\ wf s' /\
    forall ix, valid_ix (dims s) ix -> cell s' ix = fl (cell s ix + cell inc ix)%Qc.
Proof.
  intros s inc HS HI HD. unfold r_sum_potential.
  assert (HLs : length (data s) = length (data inc))
    by (rewrite (wf_data_length _ HS), (wf_data_length _ HI); congruence).
  unfold size_of_data at 1 2. rewrite HLs, Nat.eqb_refl. cbn [negb].
  assert (Hpos : Forall (fun d => 0 < d) (dims s)) by (destruct HS; auto).
  match goal with |- context [for_up 0 _ ?b _] => set (body := b) end.
  destruct (table_pointwise s (fun ix x => fl (x + cell inc ix)%Qc) body HS)
    as (d & E & _ & HW' & H).
  - intros k d Hk HL Hnk. unfold body.
    rewrite (rd_ok _ d k 0%Qc) by lia. cbn [bind].
    rewrite (rd_ok _ (data inc) k 0%Qc) by (rewrite <- HLs, (wf_data_length _ HS); lia). cbn [bind rt].
    rewrite wr_ok by lia. rewrite Hnk. unfold cell. rewrite <- HD, flat_unflat by auto. reflexivity.
  - rewrite E. cbn [bind]. eexists; split; [reflexivity|]. simpl. auto.
Qed.

(** The states of a family add up to everything. *)
Lemma family_total : forall V g, NoDup V -> incl V (seq 0 n) -> ext g ->
  qsum (map (fun jx => sums (fun b => given (ix_eqb (map b V) jx) (g b))) (all_ix (map card V))) = sums g.
Proof.
  intros V g NV IV HE. assert (ZV := ZV card m0 HM). assert (HC0 := shape_card card _ (mo_shape _ _ (so_model _ _ HM))).
  rewrite (sum_all_ix card V _ (fun _ => 0) NV ZV).
  rewrite (sumv_ext_on card V _ (fun a => sumv card (minus (seq 0 n) V) g a)); auto.
  - rewrite <- sumv_app. apply sumv_perm; auto. symmetry. apply split_perm; auto using seq_NoDup.
  - intros a Ha Oa. cbv beta. rewrite (marginal_given card (seq 0 n) V g a (map a V)); auto using seq_NoDup.
    + apply sumv_base.
      * intros b b' Eb. now rewrite (HE b b' Eb), (map_ext b b' Eb).
      * intros w Hw. symmetry. apply Oa. intros X. apply Hw. now apply IV.
    + now apply valid_ix_map.
Qed.

Lemma share_scale : forall c g v ix, (0 < c)%Qc -> share card m0 (fun a => c * g a)%Qc v ix = share card m0 g v ix.
Proof.
  intros c g v ix Pc. unfold share.
  rewrite (sumv_ext_free card (seq 0 n) (fun b => given (ix_eqb (map b (family m0 v)) ix) (c * g b)%Qc)
    (fun b => c * given (ix_eqb (map b (family m0 v)) ix) (g b))%Qc).
  - rewrite !sumv_const_out. now apply scaled_ratio.
  - intros b _. destruct (ix_eqb _ _); cbn [given]; ring.
Qed.

(** The marginal of a family from a nearly calibrated tree. *)
Lemma r_count_one : forall m v p g k, model_ok card m -> same_model m0 m -> rcalibrated u card (N + 2) (m_jt m) ->
  v < n -> family_table card m0 v p -> ext g ->
  (forall a, valid card a -> near u k (g a) (joint (m_jt m) a)) ->
  exists m1 c m2 r p1 p2, find_family m v = Ok (m1, Some c) /\ find_family_mapping m1 c v = Ok (m2, r) /\
    rd (cls (m_jt m2)) c = Ok (clq (m_jt m) c) /\
    r_general_marginalise (rt fl) (c_p (clq (m_jt m) c)) p r = Ok (p1, NO_ERROR) /\
    r_normalise_potential (rt fl) (Some p1) = Ok (Some p2, NO_ERROR) /\
    model_ok card m2 /\ same_model m0 m2 /\ m_jt m2 = m_jt m /\ family_table card m0 v p2 /\
    (forall ix, valid_ix (map card (family m0 v)) ix ->
      near u (2 * (k + s0 * (N + 2) + N) + N + 1) (share card m0 g v ix) (cell p2 ix)).
Proof.
  intros m v p g k M1 S1 C1 Hv (WP & DP) HE HJ.
  assert (Lv : length (m_vars m) = n) by apply S1.
  assert (Ef : family m v = family m0 v). { unfold family. destruct S1 as (_ & _ & SV & _). destruct (SV v) as (_ & _ & -> & _). reflexivity. }
  destruct (family_mapping_ok card m v M1) as (m1 & c & m2 & r & E1 & E2 & M2 & S2 & J2 & _ & _ & Hk & HI & HF & Hr).
  { lia. } { rewrite Ef. auto. }
  rewrite Ef in HI, Hr. set (V := family m0 v) in *. set (C := c_vars (clq (m_jt m) c)) in *.
  assert (HS := mo_shape _ _ M1). assert (TC := shape_clq card (m_jt m) _ HS Hk). fold C in TC.
  assert (NC : NoDup C) by apply TC. assert (NV : NoDup V) by (apply HFam; auto).
  assert (HC0 := shape_card card _ HS). assert (ZV := ZV card m0 HM).
  assert (PT : nonneg (c_p (clq (m_jt m) c))) by (now apply (proj1 (mo_nonneg _ _ M1))).
  assert (HWm := within_same card N m0 HW m S1).
  destruct (r_marginalise_table u fl Hu0 Hu1 Hfl card N C V (c_p (clq (m_jt m) c)) p r HC0 TC PT (HWm c Hk)) as (p1 & E3 & T1 & H1); auto.
  { split; auto. } { now apply NoDup_incl_length. } { now apply sel_family. }
  set (K := k + s0 * (N + 2) + N).
  assert (D1 : forall a, valid card a -> near u K (sumv card (minus (seq 0 n) V) g a) (den V p1 a)).
  { intros a Ha. eapply (near_trans u Hu0 Hu1); [|exact (H1 a Ha)].
    assert (Q := r_clique_interface u Hu0 Hu1 card N m c V a M1 C1 Hk NV HI Ha). rewrite Lv, (sps_same m0 m S1) in Q.
    eapply (near_trans u Hu0 Hu1); [|exact Q]. apply (near_sumv u Hu0 Hu1 card); auto. }
  assert (W1 : wf p1) by apply T1. assert (DD1 : dims p1 = map card V) by apply T1.
  assert (IV : incl V (seq 0 n)) by (now apply (family_incl card m0 HM)).
  assert (CE : forall ix, valid_ix (map card V) ix ->
     near u K (sums (fun b => given (ix_eqb (map b V) ix) (g b))) (cell p1 ix)).
  { intros ix Hix. destruct (ix_assignment card V ix (fun _ => 0) NV ZV Hix) as (a & Va & Ea & Oa).
    replace (sums (fun b => given (ix_eqb (map b V) ix) (g b))) with (sumv card (minus (seq 0 n) V) g a).
    - rewrite <- Ea at 1. exact (D1 a Va).
    - rewrite (marginal_given card (seq 0 n) V g a ix); auto using seq_NoDup.
      apply sumv_base.
      + intros b b' Eb. now rewrite (HE b b' Eb), (map_ext b b' Eb).
      + intros w Hw. apply Oa. intros X. apply Hw. now apply IV. }
  assert (LP : length (data p1) = prod (map card V)) by (now rewrite (wf_data_length _ W1), DD1).
  assert (LN : length (data p1) <= N).
  { rewrite LP. eapply Nat.le_trans; [|exact (HWm c Hk)]. fold C. now apply LearnProofs5.prod_incl. }
  assert (PD : Forall (fun d => 0 < d) (map card V)) by (rewrite <- DD1; apply W1).
  set (f := fun i => sums (fun b => given (ix_eqb (map b V) (unflat (map card V) i)) (g b))).
  assert (FX : forall i, i < length (data p1) -> near u K (f i) (nth i (data p1) 0%Qc)).
  { intros i Hi. unfold f. rewrite LP in Hi.
    rewrite <- cell_unflat by (auto; now rewrite DD1). rewrite DD1. apply CE. now apply unflat_valid. }
  assert (NN : Forall (fun y => (0 <= y)%Qc) (data p1)).
  { apply Forall_forall. intros y Hy. apply (In_nth _ _ 0%Qc) in Hy. destruct Hy as (i & Hi & <-).
    exact (proj2 (near_nonneg u Hu0 Hu1 _ _ _ (FX i Hi))). }
  destruct (r_normalise_array_ok u fl Hu0 Hu1 Hfl (data p1) NN) as (l2 & El & Ll & _ & Hl).
  exists m1, c, m2, r, p1, (mkPot (dims p1) l2).
  split; auto. split; auto. split. { rewrite J2. now apply rd_clq. } split; auto.
  split. { unfold r_normalise_potential, size_of_data. rewrite El. reflexivity. }
  split; auto. split; [eapply same_model_trans; eauto|]. split; auto.
  split. { split; [apply wf_same_shape; auto|]. exact DD1. }
  intros ix Hix. unfold cell. cbn [dims data]. set (i := flat (dims p1) ix).
  assert (Hi : i < length (data p1)). { rewrite LP. unfold i. rewrite DD1. now apply flat_lt. }
  apply (near_le u Hu0 Hu1 (2 * K + S (length (data p1)))); [unfold K; lia|].
  eapply (near_trans u Hu0 Hu1); [|apply Hl].
  replace (share card m0 g v ix) with (f i / qsum (map f (seq 0 (length (data p1)))))%Qc; [now apply near_normalised|].
  unfold share. fold V. f_equal.
  - unfold f, i. rewrite DD1, unflat_flat by auto. reflexivity.
  - rewrite LP. unfold f. rewrite <- (map_map (unflat (map card V)) (fun jx => sums (fun b => given (ix_eqb (map b V) jx) (g b)))).
    rewrite <- all_ix_unflat. apply family_total; auto.
Qed.

Lemma r_add_counts_ok : forall t m rs ps g c k K tgt, model_ok card m -> same_model m0 m -> rcalibrated u card (N + 2) (m_jt m) ->
  tables_for card m0 rs -> tables_for card m0 ps -> ext g -> (0 < c)%Qc ->
  (forall a, valid card a -> near u k (c * g a)%Qc (joint (m_jt m) a)) ->
  2 * (k + s0 * (N + 2) + N) + N + 1 <= K ->
  (forall v ix, v < n -> valid_ix (map card (family m0 v)) ix -> near u K (tgt v ix) (cell (param ps v) ix)) ->
  exists m' rs' ps', r_add_counts (rt fl) t m rs ps = Ok (m', rs', ps') /\ model_ok card m' /\ same_model m0 m' /\
    m_jt m' = m_jt m /\ tables_for card m0 rs' /\ tables_for card m0 ps' /\
    forall v ix, v < n -> valid_ix (map card (family m0 v)) ix ->
      near u (S K) (tgt v ix + given (counted m0 t v) (share card m0 g v ix))%Qc (cell (param ps' v) ix).
Proof.
  intros t m rs ps g c k K tgt M1 S1 C1 HR HP HE Pc HJ HK HT. unfold r_add_counts.
  assert (Lv : length (m_vars m) = n) by apply S1. rewrite Lv.
  match goal with |- context [for_up 0 ?k ?b ?s] =>
    destruct (for_up_inv (model * list potential * list potential)
      (fun i '(m', rs', ps') => model_ok card m' /\ same_model m0 m' /\ m_jt m' = m_jt m /\
         tables_for card m0 rs' /\ tables_for card m0 ps' /\ (forall v, i <= v < n -> param ps' v = param ps v) /\
         forall v ix, v < i -> valid_ix (map card (family m0 v)) ix ->
           near u (S K) (tgt v ix + given (counted m0 t v) (share card m0 g v ix))%Qc (cell (param ps' v) ix)) b 0 k s)
      as (((m' & rs') & ps') & E & A1 & A2 & A3 & A4 & A5 & _ & A6) end.
  { lia. }
  { split; auto. split; auto. split; auto. split; auto. split; auto. split; auto. intros; lia. }
  { intros i [[mi ri] pi] Hi (B1 & B2 & B3 & B4 & B5 & B6 & B7).
    assert (Li : length (m_vars mi) = n) by apply B2.
    rewrite rd_param by (destruct B4; lia). cbn [bind]. rewrite rd_var by lia. cbn [bind].
    assert (Eo : v_old (var mi i) = v_old (var m0 i)). { destruct B2 as (_ & _ & SV & _). apply SV. }
    rewrite Eo.
    assert (EC : counted m0 t i = negb (Nat.ltb 0 t && v_old (var m0 i))).
    { unfold counted. destruct t; cbn; auto. }
    destruct (Nat.ltb 0 t && v_old (var m0 i))%bool eqn:EB; cbn [negb] in EC.
    - eexists. split; [reflexivity|]. cbn beta iota. split; auto. split; auto. split; auto. split; auto. split; auto.
      split; [intros; apply B6; lia|]. intros v ix Hv Hix.
      destruct (Nat.eq_dec v i) as [->|Nv]; [|apply B7; auto; lia].
      rewrite EC. cbn [given]. rewrite B6 by lia. rewrite Qcplus_0_r. apply (near_le u Hu0 Hu1 K); [lia|]. apply HT; auto. lia.
    - destruct (r_count_one mi i (param ri i) (fun a => c * g a)%Qc k) as (mf & kq & mg & r & p1 & p2 & E1 & E2 & E3 & E4 & E5 & X1 & X2 & X3 & X4 & X5); auto.
      { now rewrite B3. } { lia. } { apply B4. lia. } { intros a b Eab. now rewrite (HE a b Eab). } { now rewrite B3. }
      rewrite E1. cbn [bind]. rewrite E2. cbn [bind]. rewrite E3. cbn [bind]. rewrite E4. cbn [bind]. rewrite E5. cbn [bind].
      assert (Lr : length ri = n) by apply B4. assert (Lp : length pi = n) by apply B5.
      rewrite wr_ok by lia. cbn [bind]. rewrite rd_param by lia. cbn [bind].
      destruct (B5) as (_ & B5'). destruct (B5' i) as (W & D); [lia|].
      destruct (r_sum_potential_ok (param pi i) p2 W) as (s & Es & Ds & Ws & Hs).
      { apply X4. } { rewrite D. symmetry. apply X4. }
      rewrite Es. cbn [bind]. rewrite wr_ok by lia. cbn [bind]. eexists. split; [reflexivity|]. cbn beta iota.
      split; auto. split; auto. split; [congruence|].
      split. { split; [now rewrite set_nth_length|]. intros v Hv. rewrite param_set by lia.
        destruct (Nat.eqb_spec v i) as [->|]; auto. now apply B4. }
      split. { split; [now rewrite set_nth_length|]. intros v Hv. rewrite param_set by lia.
        destruct (Nat.eqb_spec v i) as [->|]; auto. split; auto. congruence. }
      split. { intros v Hv. rewrite param_set by lia. destruct (Nat.eqb_spec v i); [lia|]. apply B6. lia. }
      intros v ix Hv Hix. rewrite param_set by lia. destruct (Nat.eqb_spec v i) as [->|]; [|apply B7; auto; lia].
      rewrite Hs by (rewrite D; auto). rewrite (B6 i) by lia. rewrite EC. cbn [given].
      apply (near_fl u fl Hu0 Hu1 Hfl). apply near_add; auto; [apply HT; auto; lia|].
      apply (near_le u Hu0 Hu1 (2 * (k + s0 * (N + 2) + N) + N + 1)); auto.
      assert (Q := X5 ix Hix). rewrite (share_scale c g i ix Pc) in Q. exact Q. }
  rewrite E. exists m', rs', ps'. auto 10.
Qed.
End Counts.
