(** * Rounded arithmetic: the loops over the time steps *)
From Coq Require Import ZArith QArith Qcanon Field Lia Permutation String.
From Verif Require Import Base BaseProofs PotentialModel PotentialSpec PotentialProofs PotentialProofs2
  PotentialProofs3 VariableModel VariableProofs JoinTreeModel AssignSpec AssignProofs JoinTreeSpec
  JoinTreeProofs JoinTreeProofs2 JoinTreeProofs3 JoinTreeProofs4 JoinTreeProofs5 JoinTreeProofs6 JoinTreeProofs7
  NipModel NipSpec NipProofs NipProofs2 NipProofs3 GatherProofs2 SliceModel SliceSpec SliceProofs SliceProofs2
  SliceProofs3 SliceProofs4 RoundModel RoundSpec RoundSpec2 RoundProofs RoundProofs3
  RoundProofs4 RoundProofs5 RoundProofs6 RoundProofs7 RoundProofs8 RoundProofs9 RoundProofs13.
Import ListNotations.
Open Scope nat_scope.
Local Open Scope list_scope.
Local Open Scope res_scope.
Add Field QcfieldRound14 : Qcft.

Section Loops.
Variable u : Qc.
Variable fl : Qc -> Qc.
Hypothesis Hu0 : (0 <= u)%Qc.
Hypothesis Hu1 : (u < 1)%Qc.
Hypothesis Hfl : forall x, (0 <= x)%Qc -> near u 1 x (fl x).
Variable card : nat -> nat.
Variable N : nat.
Variable m0 : model.
Variable ts : time_series.
Hypothesis HM : slices_ok card m0.
Hypothesis HTS : series_ok m0 ts.
Hypothesis HW : cliques_within card (m_jt m0) N.
Local Notation n := (length (m_vars m0)).
Local Notation T := (length (ts_data ts)).
Local Notation sums := (fun g => sumv card (seq 0 n) g (fun _ => 0)).
Local Notation rrep := (rrep u card).
Local Notation G := (G card m0 ts).
Local Notation B := (B card m0 ts).
Local Notation GB := (GB card m0 ts).
Local Notation inflow := (inflow card m0 ts).
Local Notation sl := (sl m0).
Local Notation s0 := (length (sps (m_jt m0))).
Local Notation E0 := (slice_error m0 ts N).

Lemma near_given : forall k (b : bool) x y, near u k x y -> near u k (given b x) (given b y).
Proof. intros k [|] x y H; cbn [given]; auto. apply near_refl; auto. apply Qcle_refl. Qed.

Definition rtable_of (k : nat) (V : list nat) (g : (nat -> nat) -> Qc) (p : potential) : Prop :=
  exists c, (0 < c)%Qc /\ forall ix, valid_ix (map card (m_out m0)) ix ->
    near u k (c * sums (fun b => given (ix_eqb (map b V) ix) (g b)))%Qc (cell p ix).
Definition ralpha_ok (k t : nat) (p : potential) : Prop :=
  interface_table card m0 p /\ rtable_of k (m_out m0) (G t) p.
Definition rfresh (hist : bool) (m : model) : Prop :=
  model_ok card m /\ same_model m0 m /\ no_evidence card m /\
  rrep (length (m_vars m0) + length (m_indep m0)) m (slice_priors m0 hist).

(** The weights of a slice, given the table that came in. *)
Definition inq (t : nat) (alpha : potential) (b : nat -> nat) : Qc :=
  if Nat.ltb 0 t then cell alpha (map b (m_prev m0)) else 1%Qc.
Definition HH (t : nat) (alpha : potential) (b : nat -> nat) : Qc :=
  given (agrees m0 ts t b) (sl t b * inq t alpha b)%Qc.

Lemma inq_ext : forall t alpha, ext (inq t alpha).
Proof. intros t alpha a b E. unfold inq. destruct (0 <? t); auto. now rewrite (map_ext a b E). Qed.
Lemma HH_ext : forall t alpha, ext (HH t alpha).
Proof.
  intros t alpha a b E. unfold HH. now rewrite (agrees_ext m0 ts t a b E), (sl_ext m0 t a b E), (inq_ext t alpha a b E).
Qed.

Lemma inq_near : forall t alpha k, (0 < t -> ralpha_ok k (t - 1) alpha) ->
  exists c, (0 < c)%Qc /\ forall b, valid card b -> near u k (c * inflow t b)%Qc (inq t alpha b).
Proof.
  intros t alpha k HA. destruct t as [|t].
  - exists 1%Qc. split; [reflexivity|]. intros b Hb. unfold inq. cbn [Nat.ltb Nat.leb SliceProofs4.inflow]. rewrite Qcmult_1_r. apply near_refl; auto. discriminate.
  - destruct HA as (IT & c & Pc & Hc); [lia|]. rewrite Nat.sub_succ, Nat.sub_0_r in Hc.
    exists c. split; auto. intros b Hb. unfold inq. cbn [Nat.ltb Nat.leb SliceProofs4.inflow].
    change (fun b' => given (linked m0 b' b) (G t b')) with
      (fun b' => given (ix_eqb (map b' (m_out m0)) (map b (m_prev m0))) (G t b')).
    apply Hc. rewrite (so_cards _ _ HM). now apply valid_ix_map.
Qed.
Lemma HH_near : forall t alpha k, (0 < t -> ralpha_ok k (t - 1) alpha) ->
  exists c, (0 < c)%Qc /\ forall b, valid card b -> near u k (c * G t b)%Qc (HH t alpha b).
Proof.
  intros t alpha k HA. destruct (inq_near t alpha k HA) as (c & Pc & Hc). exists c. split; auto.
  intros b Hb. unfold HH. rewrite G_eq.
  replace (c * given (agrees m0 ts t b) (sl t b * inflow t b))%Qc with
    (given (agrees m0 ts t b) (sl t b * (c * inflow t b)))%Qc by (destruct (agrees m0 ts t b); cbn [given]; ring).
  apply near_given. apply near_mul_l; auto. now apply (sl_nonneg card).
Qed.
Lemma HH_nonneg : forall t alpha, (0 < t -> interface_table card m0 alpha) -> forall b, valid card b -> (0 <= HH t alpha b)%Qc.
Proof.
  intros t alpha HI b Hb. unfold HH. apply given_nonneg. apply Qc_mul_nonneg; [now apply (sl_nonneg card)|].
  unfold inq. destruct (Nat.ltb_spec 0 t) as [P|P]; [|discriminate].
  destruct (HI P) as (W & D & NN & _). apply (den_nonneg card (m_prev m0) alpha b); auto.
  destruct (in_vars_ok card m0 FORWARD HM) as (ND & _ & _ & _ & HK). cbn [in_vars] in *.
  split; auto. split; auto. now rewrite HK.
Qed.

Lemma within_same : forall m, same_model m0 m -> cliques_within card (m_jt m) N.
Proof. intros m S. apply (within_shape card N (m_jt m0)); auto. apply S. Qed.
Lemma sps_same : forall m, same_model m0 m -> length (sps (m_jt m)) = s0.
Proof. intros m S. destruct S as ((_ & L & _) & _). auto. Qed.

Lemma r_next_fresh : forall m hist, model_ok card m -> same_model m0 m ->
  exists m1 m', r_reset_model (rt fl) m = Ok m1 /\ r_use_priors (rt fl) m1 hist = Ok m' /\ rfresh hist m'.
Proof.
  intros m hist H1 H2. destruct (r_next_slice_ok u fl Hu0 Hu1 Hfl card m hist (slices_same card m0 HM m H1 H2)) as (m1 & m' & E1 & E2 & A & A' & C & D).
  assert (L1 : length (m_vars m) = n) by apply H2. assert (L2 : m_indep m = m_indep m0) by apply H2.
  rewrite L1, L2 in D.
  exists m1, m'. split; auto. split; auto. split; auto. split; [eapply same_model_trans; eauto|]. split; auto.
  eapply rrep_ext; [|exact D]. intros a _. now apply priors_same.
Qed.

(** *** Entering and observing a slice *)
Lemma r_enter_slice : forall t m alpha, t < T -> rfresh (Nat.ltb 0 t) m -> (0 < t -> interface_table card m0 alpha) ->
  exists ma mb F,
    (if Nat.ltb 0 t then r_finish_message (rt fl) m FORWARD alpha None else Ok m) = Ok ma /\
    r_insert_ts_step (rt fl) ts (Z.of_nat t) ma MARK_ON = Ok (mb, NO_ERROR) /\
    model_ok card mb /\ same_model m0 mb /\
    rrep (n + length (m_indep m0) + 2 + 2 * length (ts_observed ts)) mb F /\
    forall a, valid card a -> (original m0 a * evidence mb a * F a)%Qc = HH t alpha a.
Proof.
  intros t m alpha Ht (M1 & S1 & N1 & R1) HA.
  set (F := fun a => (slice_priors m0 (Nat.ltb 0 t) a * inq t alpha a)%Qc).
  assert (X : exists ma, (if Nat.ltb 0 t then r_finish_message (rt fl) m FORWARD alpha None else Ok m) = Ok ma /\
     model_ok card ma /\ same_model m0 ma /\ no_evidence card ma /\ rrep (n + length (m_indep m0) + 2) ma F).
  { destruct (Nat.ltb 0 t) eqn:Et.
    - apply Nat.ltb_lt in Et. assert (SO := slices_same card m0 HM m M1 S1).
      assert (Eout : m_out m = m_out m0) by apply S1. assert (Eprev : m_prev m = m_prev m0) by apply S1.
      destruct (r_finish_ok u fl Hu0 Hu1 Hfl card _ m FORWARD alpha None _ SO R1) as (ma & E & M2 & S2 & L2 & R2); auto.
      { apply (interface_table_same card m0 m); auto. }
      exists ma. split; auto. split; auto. split; [eapply same_model_trans; eauto|].
      split. { intros v Hv. rewrite L2. apply N1. destruct S2 as (_ & <- & _). auto. }
      eapply rrep_ext; [|exact R2]. intros a Ha. cbv beta. cbn [in_vars]. rewrite Eprev. unfold F, inq.
      rewrite (proj2 (Nat.ltb_lt _ _) Et). ring.
    - exists m. split; auto. split; auto. split; auto. split; auto.
      apply (rrep_le u Hu0 Hu1 card (n + length (m_indep m0))); [lia|].
      eapply rrep_ext; [|exact R1]. intros a Ha. unfold F, inq. rewrite Et. ring. }
  destruct X as (ma & E1 & M2 & S2 & N2 & R2).
  destruct (r_insert_ok u fl Hu0 Hu1 Hfl card _ ma ts t F M2 (series_same m0 ts HTS ma S2) Ht R2 N2)
    as (mb & E3 & M3 & S3 & R3 & V3).
  exists ma, mb, F. split; auto. split; auto. split; auto. split; [eapply same_model_trans; eauto|].
  split; auto. intros a Ha. rewrite V3 by auto. rewrite (agrees_same m0 ts ma t a S2). unfold HH, F, SliceProofs4.sl.
  destruct (agrees m0 ts t a); cbn [given]; ring.
Qed.

(** *** Propagation in a slice *)
Lemma r_propagate : forall k m g, model_ok card m -> same_model m0 m ->
  (forall a, valid card a -> near u k (g a) (joint (m_jt m) a)) ->
  exists md, r_make_consistent_model (rt fl) m = Ok md /\ model_ok card md /\ same_model m0 md /\
    rcalibrated u card (N + 2) (m_jt md) /\
    forall a, valid card a -> near u (k + 4 * s0) (g a) (joint (m_jt md) a).
Proof.
  intros k m g H1 H2 H3. unfold r_make_consistent_model.
  destruct (r_make_consistent_ok u fl Hu0 Hu1 Hfl card N (m_jt m)) as (jt' & E & K & C); try apply H1.
  { now apply within_same. }
  rewrite E. cbn [bind]. eexists. split; [reflexivity|].
  assert (SH := rk_shape K).
  assert (SM : same_model m (set_jt m jt')) by (now apply same_model_jt).
  split. { apply model_ok_jt; auto. apply (rk_ok K). apply (rk_nonneg K). }
  split; [eapply same_model_trans; eauto|]. split; auto.
  intros a Ha. cbn [m_jt set_jt]. eapply (near_trans u Hu0 Hu1); [exact (H3 a Ha)|].
  rewrite <- (sps_same m H2). now apply (rk_joint K).
Qed.

(** *** Leaving a slice *)
Lemma r_leave_slice : forall m dir p k g, model_ok card m -> same_model m0 m -> rcalibrated u card (N + 2) (m_jt m) ->
  wf p -> dims p = map card (m_out m0) -> ext g ->
  (forall a, valid card a -> near u k (g a) (joint (m_jt m) a)) ->
  (m_out m0 <> [] \/ sums g <> 0%Qc) ->
  exists p', r_start_message (rt fl) m dir p = Ok p' /\ interface_table card m0 p' /\
    rtable_of (k + s0 * (N + 2) + N + 1) (out_vars m0 dir) g p'.
Proof.
  intros m dir p k g M1 S1 C1 WP DP HE HJ HZ. assert (SO := slices_same card m0 HM m M1 S1).
  assert (Eout : m_out m = m_out m0) by apply S1.
  assert (EV : out_vars m dir = out_vars m0 dir). { destruct dir; apply S1. }
  destruct (r_start_ok u fl Hu0 Hu1 Hfl card N m dir p k g SO (within_same m S1) C1) as (p' & E & IT & d & Pd & Hd); auto.
  { now rewrite Eout. }
  { rewrite Eout. destruct HZ as [|HZ]; auto. right. now rewrite (same_sum card m0 m g S1). }
  exists p'. split; auto. split; [apply (interface_table_same card m m0); auto|].
  exists d. split; auto. intros ix Hix. rewrite <- Eout in Hix. assert (Q := Hd ix Hix).
  rewrite EV, (sps_same m S1), (same_sum card m0 m _ S1) in Q. exact Q.
Qed.

(** *** The results of a slice *)
Definition rrow_is (k : nat) (vars : list nat) (g : (nat -> nat) -> Qc) (row : list (list Qc)) : Prop :=
  forall i x, i < length vars -> x < card (nth i vars 0) ->
    near u (2 * k + card (nth i vars 0) + 1)
      (sum_where card m0 g (nth i vars 0%nat) x / sums g)%Qc (nth x (nth i row []) 0%Qc).

Lemma r_results_slice : forall m vars row k g c, model_ok card m -> same_model m0 m -> rcalibrated u card (N + 2) (m_jt m) ->
  (forall v, In v vars -> v < n) -> row_shape card vars row -> ext g -> (0 < c)%Qc ->
  (forall a, valid card a -> near u k (c * g a)%Qc (joint (m_jt m) a)) ->
  exists m' row', r_write_results (rt fl) m vars row = Ok (m', row') /\ model_ok card m' /\ same_model m0 m' /\
    m_jt m' = m_jt m /\ row_shape card vars row' /\ rrow_is (k + s0 * (N + 2) + N) vars g row'.
Proof.
  intros m vars row k g c M1 S1 C1 HV HR HE Pc HJ.
  assert (L : length (m_vars m) = n) by apply S1.
  destruct (r_write_results_ok u fl Hu0 Hu1 Hfl card N m vars row k (fun a => c * g a)%Qc M1 (within_same m S1) C1) as (m' & row' & E & M2 & S2 & J2 & R2 & H2); auto.
  { rewrite L. auto. } { intros a b Eab. now rewrite (HE a b Eab). }
  exists m', row'. split; auto. split; auto. split; [eapply same_model_trans; eauto|]. split; auto. split; auto.
  intros i x Hi Hx. assert (Q := H2 i x Hi Hx). rewrite (sps_same m S1) in Q.
  unfold sum_where in Q |- *. rewrite (same_sum card m0 m _ S1), L in Q. rewrite !sumv_const_out in Q.
  rewrite scaled_ratio in Q by auto. exact Q.
Qed.

(** *** One step forward *)
Lemma r_observe_slice : forall t m alpha k, t < T -> rfresh (Nat.ltb 0 t) m -> (0 < t -> ralpha_ok k (t - 1) alpha) ->
  exists ma mb md c,
    (if Nat.ltb 0 t then r_finish_message (rt fl) m FORWARD alpha None else Ok m) = Ok ma /\
    r_insert_ts_step (rt fl) ts (Z.of_nat t) ma MARK_ON = Ok (mb, NO_ERROR) /\
    r_make_consistent_model (rt fl) mb = Ok md /\
    model_ok card md /\ same_model m0 md /\ rcalibrated u card (N + 2) (m_jt md) /\ (0 < c)%Qc /\
    forall a, valid card a ->
      near u (k + (n + length (m_indep m0) + 2 + 2 * length (ts_observed ts)) + 4 * s0) (c * G t a)%Qc (joint (m_jt md) a).
Proof.
  intros t m alpha k Ht HF HA.
  destruct (r_enter_slice t m alpha Ht HF (fun P => proj1 (HA P))) as (ma & mb & F & E1 & E2 & M2 & S2 & R2 & H2).
  destruct (HH_near t alpha k HA) as (c & Pc & Hc).
  destruct (r_propagate (k + (n + length (m_indep m0) + 2 + 2 * length (ts_observed ts))) mb (fun a => c * G t a)%Qc M2 S2) as (md & E3 & M3 & S3 & C3 & J3).
  { intros a Ha. eapply (near_trans u Hu0 Hu1); [exact (Hc a Ha)|]. rewrite <- (H2 a Ha).
    rewrite <- (same_original m0 mb a S2). exact (R2 a Ha). }
  exists ma, mb, md, c. auto 10.
Qed.

Lemma alpha_bound : forall t, t * E0 + (n + length (m_indep m0) + 2 + 2 * length (ts_observed ts)) + 4 * s0 + s0 * (N + 2) + N + 1 <= S t * E0.
Proof. intros t. unfold slice_error. set (S0 := s0 * (N + 2)). lia. Qed.

Lemma rtable_le : forall j k V g p, j <= k -> rtable_of j V g p -> rtable_of k V g p.
Proof. intros j k V g p H (c & Pc & Hc). exists c. split; auto. intros ix Hix. eapply near_le; eauto. Qed.

Lemma table_scale : forall k V g c p, (0 < c)%Qc -> rtable_of k V (fun a => c * g a)%Qc p -> rtable_of k V g p.
Proof.
  intros k V g c p Pc (d & Pd & Hd). exists (d * c)%Qc. split; [now apply Qc_mul_pos|]. intros ix Hix.
  assert (Q := Hd ix Hix).
  rewrite (sumv_ext_free card (seq 0 n) _ (fun b => c * given (ix_eqb (map b V) ix) (g b))%Qc) in Q.
  - rewrite sumv_const_out, Qcmult_assoc in Q. exact Q.
  - intros b _. destruct (ix_eqb _ _); cbn [given]; ring.
Qed.

Lemma scaled_sum : forall c g, (0 < c)%Qc -> sums g <> 0%Qc -> sums (fun a => c * g a)%Qc <> 0%Qc.
Proof.
  intros c g Pc H K. rewrite sumv_const_out in K. apply Qcmult_integral in K. destruct K as [K|K]; auto. now apply (Qc_pos_neq c).
Qed.

Theorem r_forward_ok : forall vars,
  (forall v, In v vars -> v < n) -> (m_out m0 <> [] \/ sum_steps card m0 T (unrolled m0 ts T T) <> 0%Qc) ->
  exists m' results, r_forward_inference (rt fl) m0 ts vars = Ok (m', results) /\
    model_ok card m' /\ same_model m0 m' /\
    rows_ok card ts vars results (fun t row => rrow_is (S t * E0) vars (G t) row).
Proof.
  intros vars HV HZ. unfold r_forward_inference.
  assert (MO := SliceProofs4.MO card m0 HM).
  destruct (new_results_ok card m0 vars T MO HV) as (rs & EE & L0 & H0). rewrite EE. cbn [bind].
  destruct (interface_potential_ok card m0 HM) as (al & Ea & Wa & Da). rewrite Ea. cbn [bind].
  destruct (r_next_fresh m0 false MO (same_model_refl m0)) as (m1 & m2 & E1 & E2 & F2).
  rewrite E1. cbn [bind]. rewrite E2. cbn [bind].
  match goal with |- context [for_up 0 ?k ?b ?s] =>
    destruct (for_up_inv (model * potential * list (list (list Qc)))
      (fun t '(m, alpha, results) => rfresh (Nat.ltb 0 t) m /\ wf alpha /\ dims alpha = map card (m_out m0) /\
         (0 < t -> ralpha_ok (t * E0) (t - 1) alpha) /\
         rows_ok card ts vars results (fun i row => i < t -> rrow_is (S i * E0) vars (G i) row)) b 0 k s)
      as (((m' & alpha') & results') & E3 & A1 & A2 & A3 & A4 & A6) end.
  { lia. }
  { split; auto. split; auto. split; auto. split; [lia|]. split; auto. intros t Ht. split; auto. lia. }
  { intros t [[m alpha] results] Ht (B1 & B2 & B3 & B4 & B6).
    destruct (r_observe_slice t m alpha (t * E0)) as (ma & mb & md & c & O1 & O2 & O3 & O4 & O5 & O6 & Pc & O7); auto; [lia|].
    rewrite O1. cbn [bind]. rewrite O2. cbn [bind]. rewrite O3. cbn [bind].
    assert (LR : length results = T) by apply B6.
    rewrite (rd_ok _ results t []) by lia. cbn [bind].
    assert (AB := alpha_bound t).
    set (K := t * E0 + (n + length (m_indep m0) + 2 + 2 * length (ts_observed ts)) + 4 * s0) in *.
    destruct (r_results_slice md vars (nth t results []) K (G t) c O4 O5 O6 HV) as (mf & row' & W1 & W2 & W3 & W4 & W5 & W6);
      [apply B6; lia|apply G_ext|exact Pc|exact O7|].
    rewrite W1. cbn [bind].
    assert (W6' : rrow_is (S t * E0) vars (G t) row').
    { intros i x Hi Hx. eapply (near_le u Hu0 Hu1); [|exact (W6 i x Hi Hx)]. lia. }
    destruct (rows_write card ts vars results _ (fun i row => i < S t -> rrow_is (S i * E0) vars (G i) row) t row' B6) as (results' & X1 & X2);
      auto; [lia| |].
    { intros s r Ns Hs Hlt. apply Hs. lia. }
    rewrite X1. cbn [bind].
    destruct (r_leave_slice mf FORWARD alpha K (fun a => c * G t a)%Qc W2 W3) as (p' & Y1 & Y2 & Y3); auto.
    { rewrite W4. exact O6. } { intros a b Eab. now rewrite (G_ext card m0 ts t a b Eab). } { intros a Ha. rewrite W4. exact (O7 a Ha). }
    { destruct HZ as [|HZ]; auto. right. apply scaled_sum; auto. rewrite <- (zev_eq card m0 ts HM). apply possible_zev; auto; lia. }
    rewrite Y1. cbn [bind].
    destruct (r_next_fresh mf true W2 W3) as (mg & mh & Z1 & Z2 & Z3). rewrite Z1. cbn [bind]. rewrite Z2. cbn [bind].
    eexists. split; [reflexivity|]. cbn beta iota. split; auto. split; [apply Y2|]. split; [apply Y2|].
    split. { intros _. rewrite Nat.sub_succ, Nat.sub_0_r. split; auto.
      eapply rtable_le; [exact AB|]. eapply table_scale; eauto. }
    auto. }
  rewrite E3. cbn [bind]. exists m', results'. split; [reflexivity|]. destruct A1 as (A1 & A1' & _).
  split; auto. split; auto. destruct A6 as (A6 & A7). split; auto.
  intros t Ht. destruct (A7 t Ht). auto.
Qed.

(** ** Smoothing *)
Definition rgamma_ok (k t : nat) (alpha p : potential) : Prop :=
  interface_table card m0 p /\ rtable_of k (m_prev m0) (fun b => HH t alpha b * B t b)%Qc p.

Lemma HHB_ext : forall t alpha, ext (fun b => HH t alpha b * B t b)%Qc.
Proof. intros t alpha a b E. now rewrite (HH_ext t alpha a b E), (B_ext card m0 ts t a b E). Qed.

Lemma B_nonneg : forall t b, t < T -> valid card b -> (0 <= B t b)%Qc.
Proof.
  intros t b Ht. remember (T - 1 - t) as d eqn:Ed. revert t b Ht Ed. induction d; intros t b Ht Ed Hb.
  - rewrite B_last by lia. discriminate.
  - rewrite B_eq by lia. apply sumv_nonneg; [exact (SliceProofs4.ZV card m0 HM)|]. intros c Hc.
    apply given_nonneg, given_nonneg. apply Qc_mul_nonneg; [now apply (sl_nonneg card)|]. apply IHd; auto; lia.
Qed.

Lemma r_gamma_step : forall t alpha a g k k1 k2, S t < T -> (0 < t -> ralpha_ok k (t - 1) alpha) ->
  ralpha_ok k1 t a -> rgamma_ok k2 (S t) a g ->
  exists c, (0 < c)%Qc /\ forall b, valid card b ->
    near u k2 (c * (HH t alpha b * B t b))%Qc
      (HH t alpha b * (cell g (map b (m_out m0)) * / cell a (map b (m_out m0))))%Qc.
Proof.
  intros t alpha a g k k1 k2 Ht HA (_ & c1 & P1 & H1) (_ & c2 & P2 & H2).
  destruct (HH_near t alpha k HA) as (c0 & P0 & H0).
  exists c2. split; auto. intros b Hb. set (ix := map b (m_out m0)).
  assert (Vi : valid_ix (map card (m_out m0)) ix) by (now apply valid_ix_map).
  assert (HN : (0 <= HH t alpha b)%Qc) by (exact (proj2 (near_nonneg u Hu0 Hu1 _ _ _ (H0 b Hb)))).
  assert (EG : sums (fun d => given (ix_eqb (map d (m_prev m0)) ix) (HH (S t) a d * B (S t) d)%Qc) = (cell a ix * B t b)%Qc).
  { rewrite B_eq by auto. rewrite <- (sumv_const_out card (seq 0 n) _ (cell a ix)).
    apply sumv_ext_free. intros d _.
    assert (EL : linked m0 b d = ix_eqb (map d (m_prev m0)) ix).
    { unfold linked. fold ix. destruct (ix_eqb (map d (m_prev m0)) ix) eqn:K.
      - apply ix_eqb_true in K. apply ix_eqb_true. auto.
      - destruct (ix_eqb ix (map d (m_prev m0))) eqn:K'; auto. apply ix_eqb_true in K'. rewrite <- K' in K.
        rewrite (proj2 (ix_eqb_true ix ix) eq_refl) in K. discriminate. }
    rewrite EL. destruct (ix_eqb (map d (m_prev m0)) ix) eqn:K; cbn [given]; [|ring].
    apply ix_eqb_true in K. unfold HH, inq. cbn [Nat.ltb Nat.leb]. rewrite K.
    destruct (agrees m0 ts (S t) d); cbn [given]; ring. }
  assert (Q := H2 ix Vi). rewrite EG in Q.
  assert (NA : (0 <= cell a ix)%Qc) by (exact (proj2 (near_nonneg u Hu0 Hu1 _ _ _ (H1 ix Vi)))).
  destruct (Qc_eq_dec (cell a ix) 0%Qc) as [Z|Z].
  - assert (GZ : G t b = 0%Qc).
    { assert (SZ : sums (fun b0 => given (ix_eqb (map b0 (m_out m0)) ix) (G t b0)) = 0%Qc).
      { assert (Y := proj2 (near_zero u Hu0 Hu1 _ _ _ (H1 ix Vi)) Z). apply Qcmult_integral in Y.
        destruct Y as [Y|Y]; auto. exfalso. now apply (Qc_pos_neq c1). }
      apply (sumv_zero_inv card (seq 0 n) (fun b0 => given (ix_eqb (map b0 (m_out m0)) ix) (G t b0)) b) in Hb as K.
      - cbn beta in K. unfold ix in K. rewrite (proj2 (ix_eqb_true _ _) eq_refl) in K. exact K.
      - intros d d' E. now rewrite (G_ext card m0 ts t d d' E), (map_ext d d' E).
      - intros d Hd. apply given_nonneg. now apply G_nonneg.
      - rewrite <- SZ. apply sumv_local. intros d d' E. rewrite (G_local card m0 ts HM HTS t d d' E). do 2 f_equal.
        apply map_ext_in. intros v Hv. apply E. apply (out_in card m0 HM); auto. }
    assert (HZ : HH t alpha b = 0%Qc).
    { apply (near_zero u Hu0 Hu1 _ _ _ (H0 b Hb)). rewrite GZ. ring. }
    rewrite HZ. apply near_eq; auto; [|ring]. rewrite Qcmult_0_l, Qcmult_0_r. apply Qcle_refl.
  - replace (c2 * (HH t alpha b * B t b))%Qc with (HH t alpha b * (c2 * (cell a ix * B t b) * / cell a ix))%Qc by (field; auto).
    apply near_mul_l; auto. apply near_mul_r; auto. now apply Qc_inv_nonneg.
Qed.

(** Observing a slice on the way back. *)
Lemma r_revise_slice : forall t m alpha a g k k1 k2, t < T -> rfresh (Nat.ltb 0 t) m -> (0 < t -> ralpha_ok k (t - 1) alpha) ->
  (t < T - 1 -> ralpha_ok k1 t a /\ rgamma_ok k2 (S t) a g) ->
  exists ma mb mc md c,
    (if Nat.ltb 0 t then r_finish_message (rt fl) m FORWARD alpha None else Ok m) = Ok ma /\
    r_insert_ts_step (rt fl) ts (Z.of_nat t) ma MARK_ON = Ok (mb, NO_ERROR) /\
    (if Nat.ltb t (T - 1) then r_finish_message (rt fl) mb BACKWARD g (Some a) else Ok mb) = Ok mc /\
    r_make_consistent_model (rt fl) mc = Ok md /\
    model_ok card md /\ same_model m0 md /\ rcalibrated u card (N + 2) (m_jt md) /\ (0 < c)%Qc /\
    forall b, valid card b ->
      near u (k2 + (n + length (m_indep m0) + 2 + 2 * length (ts_observed ts)) + 2 + 4 * s0)
        (c * (HH t alpha b * B t b))%Qc (joint (m_jt md) b).
Proof.
  intros t m alpha a0 g k k1 k2 Ht HF HA HB.
  destruct (r_enter_slice t m alpha Ht HF (fun P => proj1 (HA P))) as (ma & mb & F & E1 & E2 & M2 & S2 & R2 & H2).
  set (e := n + length (m_indep m0) + 2 + 2 * length (ts_observed ts)) in *.
  assert (X : exists mc c, (if Nat.ltb t (T - 1) then r_finish_message (rt fl) mb BACKWARD g (Some a0) else Ok mb) = Ok mc /\
     model_ok card mc /\ same_model m0 mc /\ (0 < c)%Qc /\
     forall b, valid card b -> near u (k2 + e + 2) (c * (HH t alpha b * B t b))%Qc (joint (m_jt mc) b)).
  { destruct (Nat.ltb_spec t (T - 1)) as [K|K].
    - destruct (HB K) as (HA0 & HG).
      destruct (r_gamma_step t alpha a0 g k k1 k2) as (c & Pc & Hc); auto; [lia|].
      destruct (r_finish_ok u fl Hu0 Hu1 Hfl card e mb BACKWARD g (Some a0) F) as (mc & E4 & M4 & S4 & L4 & R4); auto.
      { now apply (slices_same card m0). }
      { apply (interface_table_same card m0); [apply S2|apply HG]. }
      { apply (interface_table_same card m0); [apply S2|apply HA0]. }
      exists mc, c. split; auto. split; auto. split; [eapply same_model_trans; eauto|].
      split; auto. intros b Hb. replace (k2 + e + 2) with (k2 + (e + 2)) by lia.
      eapply (near_trans u Hu0 Hu1); [exact (Hc b Hb)|].
      assert (Q := R4 b Hb). cbn [in_vars] in Q.
      assert (Eout : m_out mb = m_out m0) by apply S2. rewrite Eout in Q.
      assert (Ev : evidence mc b = evidence mb b).
      { unfold evidence. assert (Lc : length (m_vars mc) = length (m_vars mb)) by apply S4. rewrite Lc.
        apply weight_ext. auto. }
      rewrite Ev, (same_original mb mc b S4), (same_original m0 mb b S2) in Q.
      rewrite <- (H2 b Hb). rewrite <- Qcmult_assoc. exact Q.
    - exists mb, 1%Qc. split; auto. split; auto. split; auto. split; [reflexivity|]. intros b Hb.
      apply (near_le u Hu0 Hu1 e); [lia|]. rewrite B_last by lia. rewrite <- (H2 b Hb).
      rewrite Qcmult_1_l, Qcmult_1_r. rewrite <- (same_original m0 mb b S2). exact (R2 b Hb). }
  destruct X as (mc & c & E4 & M4 & S4 & Pc & J4).
  destruct (r_propagate _ mc _ M4 S4 J4) as (md & E5 & M5 & S5 & C5 & J5).
  exists ma, mb, mc, md, c. auto 12.
Qed.

Lemma r_forward_phase_ok : (m_out m0 <> [] \/ sum_steps card m0 T (unrolled m0 ts T T) <> 0%Qc) ->
  exists m' ag, r_forward_phase (rt fl) m0 ts = Ok (m', ag) /\ rfresh (Nat.ltb 1 T) m' /\ tables_ok card m0 ts ag /\
    (forall s d, s < T -> ralpha_ok (S s * E0) s (nth s ag d)).
Proof.
  intros HZ. unfold r_forward_phase.
  assert (MO := SliceProofs4.MO card m0 HM).
  destruct (interface_potential_ok card m0 HM) as (al & Ea & Wa & Da). rewrite Ea. cbn [bind].
  destruct (r_next_fresh m0 false MO (same_model_refl m0)) as (m1 & m2 & E1 & E2 & F2).
  rewrite E1. cbn [bind]. rewrite E2. cbn [bind].
  match goal with |- context [for_up 0 ?k ?b ?s] =>
    destruct (for_up_inv (model * list potential)
      (fun t '(m, ag) => rfresh (Nat.ltb 0 t && Nat.ltb 1 T)%bool m /\ tables_ok card m0 ts ag /\
         (forall i d, i < t -> ralpha_ok (S i * E0) i (nth i ag d))) b 0 k s)
      as ((m' & ag') & E3 & A1 & A2 & A3) end.
  { lia. }
  { split; auto. split.
    - split; [apply repeat_length|]. intros s d Hs. rewrite nth_repeat_lt by auto. auto.
    - intros; lia. }
  { intros t [m ag] Ht (B1 & B2 & B3).
    assert (B1' : rfresh (Nat.ltb 0 t) m).
    { destruct (Nat.ltb_spec 0 t); auto. destruct (Nat.ltb_spec 1 T); [auto|lia]. }
    assert (L2 : length ag = T + 1) by apply B2.
    destruct (r_observe_slice t m (nth (t - 1) ag al) (t * E0)) as (ma & mb & md & c & O1 & O2 & O3 & O4 & O5 & O6 & Pc & O7); auto.
    { lia. } { intros P. assert (Q := B3 (t - 1) al ltac:(lia)). replace (S (t - 1)) with t in Q by lia. exact Q. }
    replace (if 0 <? t then let* a := rd ag (t - 1) in r_finish_message (rt fl) m FORWARD a None else Ok m) with (Ok ma).
    2: { rewrite <- O1. destruct (0 <? t) eqn:Pt; auto. apply Nat.ltb_lt in Pt. rewrite (rd_ok _ ag (t - 1) al) by lia. reflexivity. }
    cbn [bind]. rewrite O2. cbn [bind]. rewrite O3. cbn [bind].
    rewrite (rd_ok _ ag t al) by lia. cbn [bind].
    assert (AB := alpha_bound t).
    set (K := t * E0 + (n + length (m_indep m0) + 2 + 2 * length (ts_observed ts)) + 4 * s0) in *.
    destruct (r_leave_slice md FORWARD (nth t ag al) K (fun a => c * G t a)%Qc O4 O5 O6) as (p' & Y1 & Y2 & Y3); auto.
    { apply B2. lia. } { apply B2. lia. } { intros a b Eab. now rewrite (G_ext card m0 ts t a b Eab). }
    { destruct HZ as [|HZ]; auto. right. apply scaled_sum; auto. rewrite <- (zev_eq card m0 ts HM). apply possible_zev; auto; lia. }
    rewrite Y1. cbn [bind].
    destruct (tables_write card m0 ts ag t p' B2) as (ag' & X1 & X2 & X3); auto; [lia|].
    rewrite X1. cbn [bind].
    destruct (r_next_fresh md (Nat.ltb 1 T) O4 O5) as (mg & mh & Z1 & Z2 & Z3). rewrite Z1. cbn [bind]. rewrite Z2. cbn [bind].
    eexists. split; [reflexivity|]. cbn beta iota. split; auto. split; auto.
    intros s d Hs. rewrite X3 by lia. destruct (Nat.eqb_spec s t) as [->|].
    - split; auto. eapply rtable_le; [exact AB|]. eapply table_scale; eauto.
    - apply B3. lia. }
  rewrite E3. exists m', ag'. split; [reflexivity|]. split; auto.
  replace (1 <? T) with ((0 <? T) && (1 <? T))%bool; auto.
  destruct (Nat.ltb_spec 0 T), (Nat.ltb_spec 1 T); auto; lia.
Qed.

Lemma gamma_bound : forall t, t < T -> (T - S t) * E0 + (n + length (m_indep m0) + 2 + 2 * length (ts_observed ts)) + 2 + 4 * s0 +
  s0 * (N + 2) + N + 1 <= (T - t) * E0.
Proof.
  intros t Ht. replace ((T - t) * E0) with ((T - S t) * E0 + E0) by (replace (T - t) with (S (T - S t)) by lia; lia).
  set (x := (T - S t) * E0). unfold slice_error. set (S0 := s0 * (N + 2)). lia.
Qed.
Lemma smooth_bound : forall t, t < T -> t * E0 + (T - t) * E0 = T * E0.
Proof. intros t Ht. rewrite <- Nat.mul_add_distr_r. f_equal. lia. Qed.

Lemma r_backward_phase_ok : forall m ag vars results, (m_out m0 <> [] \/ sum_steps card m0 T (unrolled m0 ts T T) <> 0%Qc) ->
  (forall v, In v vars -> v < n) -> rfresh (Nat.ltb 1 T) m -> tables_ok card m0 ts ag ->
  (forall s d, s < T -> ralpha_ok (S s * E0) s (nth s ag d)) -> rows_ok card ts vars results (fun _ _ => True) ->
  exists m' ag' results', r_backward_phase (rt fl) m ts vars ag results = Ok (m', ag', results') /\
    model_ok card m' /\ same_model m0 m' /\ rows_ok card ts vars results' (fun t row => rrow_is (T * E0) vars (GB t) row).
Proof.
  intros m ag vars results HZ HV HF HT HA HR. unfold r_backward_phase.
  destruct (interface_potential_ok card m0 HM) as (al & _ & _ & _).
  match goal with |- context [for_down ?k 0 ?b ?s] =>
    destruct (for_down_inv (model * list potential * list (list (list Qc)))
      (fun t '(m, ag, results) => rfresh (Nat.ltb 0 (t - 1)) m /\ tables_ok card m0 ts ag /\
         (forall i d, i < t -> i < T -> ralpha_ok (S i * E0) i (nth i ag d)) /\
         (forall d, 0 < t < T -> rgamma_ok ((T - t) * E0) t (nth (t - 1) ag d) (nth t ag d)) /\
         rows_ok card ts vars results (fun i row => t <= i -> rrow_is (T * E0) vars (GB i) row)) b k 0 s)
      as (((m' & ag') & results') & E3 & A1 & A2 & A3 & A4 & A5) end.
  { lia. }
  { split. { replace (0 <? T - 1) with (1 <? T); auto. destruct (Nat.ltb_spec 1 T), (Nat.ltb_spec 0 (T - 1)); auto; lia. }
    split; auto. split; auto. split; [intros; lia|]. destruct HR as (HR1 & HR2). split; auto.
    intros t Ht. split; [apply HR2; auto|]. lia. }
  { intros t [[mi agi] ri] Ht (B1 & B2 & B3 & B4 & B5). rewrite Nat.sub_succ, Nat.sub_0_r in B1.
    assert (L2 : length agi = T + 1) by apply B2.
    set (alpha := nth (t - 1) agi al).
    assert (HAL : 0 < t -> ralpha_ok (t * E0) (t - 1) alpha).
    { intros P. assert (Q := B3 (t - 1) al ltac:(lia) ltac:(lia)). replace (S (t - 1)) with t in Q by lia. exact Q. }
    destruct (r_revise_slice t mi alpha (nth t agi al) (nth (t + 1) agi al) (t * E0) (S t * E0) ((T - S t) * E0))
      as (ma & mb & mc & md & c & O1 & O3 & O4 & O5 & O6 & O7 & O8 & Pc & O9); auto.
    { lia. }
    { intros P. split; [apply B3; lia|]. assert (Q := B4 al ltac:(lia)). rewrite Nat.sub_succ, Nat.sub_0_r in Q.
      rewrite Nat.add_1_r. exact Q. }
    replace (if 0 <? t then let* a := rd agi (t - 1) in r_finish_message (rt fl) mi FORWARD a None else Ok mi) with (Ok ma).
    2: { rewrite <- O1. destruct (0 <? t); auto. rewrite (rd_ok _ agi (t - 1) al) by lia. reflexivity. }
    cbn [bind]. rewrite O3. cbn [bind].
    replace (if t <? T - 1 then let* g := rd agi (t + 1) in let* a := rd agi t in r_finish_message (rt fl) mb BACKWARD g (Some a) else Ok mb) with (Ok mc).
    2: { rewrite <- O4. destruct (t <? T - 1); auto. rewrite (rd_ok _ agi (t + 1) al), (rd_ok _ agi t al) by lia. reflexivity. }
    cbn [bind]. rewrite O5. cbn [bind].
    assert (LR : length ri = T) by apply B5.
    rewrite (rd_ok _ ri t []) by lia. cbn [bind].
    assert (AB := gamma_bound t ltac:(lia)). assert (SB := smooth_bound t ltac:(lia)).
    set (K := (T - S t) * E0 + (n + length (m_indep m0) + 2 + 2 * length (ts_observed ts)) + 2 + 4 * s0) in *.
    destruct (HH_near t alpha (t * E0) HAL) as (c' & Pc' & Hc').
    assert (J : forall b, valid card b -> near u (t * E0 + K) (c * c' * GB t b)%Qc (joint (m_jt md) b)).
    { intros b Hb. eapply (near_trans u Hu0 Hu1); [|exact (O9 b Hb)].
      unfold SliceProofs4.GB. replace (c * c' * (G t b * B t b))%Qc with (c * (c' * G t b * B t b))%Qc by ring.
      apply near_mul_l; auto; [now apply Qclt_le_weak|]. apply near_mul_r; auto. apply B_nonneg; auto. lia. }
    destruct (r_results_slice md vars (nth t ri []) (t * E0 + K) (GB t) (c * c')%Qc O6 O7 O8 HV) as (mf & row' & W1 & W2 & W3 & W4 & W5 & W6);
      [apply B5; lia|apply GB_ext|now apply Qc_mul_pos|exact J|].
    rewrite W1. cbn [bind].
    assert (W6' : rrow_is (T * E0) vars (GB t) row').
    { intros i x Hi Hx. eapply (near_le u Hu0 Hu1); [|exact (W6 i x Hi Hx)]. lia. }
    destruct (rows_write card ts vars ri _ (fun s row => t <= s -> rrow_is (T * E0) vars (GB s) row) t row' B5) as (ri' & X1 & X2);
      auto; [lia| |].
    { intros s r Ns Hs Hlt. apply Hs. lia. }
    rewrite X1. cbn [bind].
    assert (Y : exists ag', (if 0 <? t then let* g := rd agi t in let* g := r_start_message (rt fl) mf BACKWARD g in wr agi t g else Ok agi) = Ok ag' /\
       tables_ok card m0 ts ag' /\ (forall s d, s < t -> ralpha_ok (S s * E0) s (nth s ag' d)) /\
       (forall d, 0 < t < T -> rgamma_ok ((T - t) * E0) t (nth (t - 1) ag' d) (nth t ag' d))).
    { destruct (Nat.ltb_spec 0 t) as [P|P].
      - rewrite (rd_ok _ agi t al) by lia. cbn [bind].
        destruct (r_leave_slice mf BACKWARD (nth t agi al) K (fun b => c * (HH t alpha b * B t b))%Qc W2 W3) as (p' & Y1 & Y2 & Y3).
        { rewrite W4. exact O8. } { apply B2. lia. } { apply B2. lia. }
        { intros a b Eab. now rewrite (HHB_ext t alpha a b Eab). } { intros a Ha. rewrite W4. exact (O9 a Ha). }
        { destruct HZ as [|HZ]; auto. right. apply scaled_sum; auto.
          assert (Z : near u (t * E0) (c' * sums (GB t))%Qc (sums (fun b => HH t alpha b * B t b)%Qc)).
          { rewrite <- sumv_const_out. apply (near_sumv u Hu0 Hu1 card); [exact (SliceProofs4.ZV card m0 HM)|].
            intros b Hb. unfold SliceProofs4.GB. rewrite Qcmult_assoc. apply near_mul_r; auto. apply B_nonneg; auto. lia. }
          intros Y. apply (near_zero u Hu0 Hu1 _ _ _ Z) in Y. apply Qcmult_integral in Y. destruct Y as [Y|Y].
          - now apply (Qc_pos_neq c').
          - apply HZ. rewrite <- Y. symmetry. apply GB_total; auto. lia. }
        rewrite Y1. cbn [bind]. destruct (tables_write card m0 ts agi t p' B2) as (ag' & U1 & U2 & U3); auto; [lia|].
        exists ag'. split; auto. split; auto. split.
        + intros s d Hs. rewrite U3 by lia. destruct (Nat.eqb_spec s t); [lia|]. apply B3; lia.
        + intros d _. rewrite !U3 by lia. rewrite Nat.eqb_refl. destruct (Nat.eqb_spec (t - 1) t); [lia|].
          split; auto. rewrite (nth_indep agi d al) by lia. fold alpha.
          apply (rtable_le (K + s0 * (N + 2) + N + 1)); [exact AB|]. apply (table_scale _ _ _ c); auto.
      - exists agi. split; auto. split; auto. split; intros; lia. }
    destruct Y as (ag' & Y1 & Y2 & Y3 & Y4). rewrite Y1. cbn [bind].
    destruct (r_next_fresh mf (Nat.ltb 1 t) W2 W3) as (mg & mh & Z1 & Z2 & Z3). rewrite Z1. cbn [bind]. rewrite Z2. cbn [bind].
    eexists. split; [reflexivity|]. cbn beta iota.
    split. { replace (0 <? t - 1) with (1 <? t); auto. destruct (Nat.ltb_spec 1 t), (Nat.ltb_spec 0 (t - 1)); auto; lia. }
    split; auto. }
  rewrite E3. exists m', ag', results'. split; [reflexivity|]. destruct A1 as (A1 & A1' & _).
  split; auto. split; auto. destruct A5 as (A5 & A6). split; auto. intros t Ht. destruct (A6 t Ht) as (C1 & C2).
  split; auto. apply C2. lia.
Qed.

Theorem r_forward_backward_ok : forall vars,
  (forall v, In v vars -> v < n) -> (m_out m0 <> [] \/ sum_steps card m0 T (unrolled m0 ts T T) <> 0%Qc) ->
  exists m' results, r_forward_backward_inference (rt fl) m0 ts vars = Ok (m', results) /\
    model_ok card m' /\ same_model m0 m' /\
    rows_ok card ts vars results (fun t row => rrow_is (T * E0) vars (GB t) row).
Proof.
  intros vars HV HZ. unfold r_forward_backward_inference.
  assert (MO := SliceProofs4.MO card m0 HM).
  destruct (new_results_ok card m0 vars T MO HV) as (rs & EE & L0 & H0). rewrite EE. cbn [bind].
  destruct (r_forward_phase_ok HZ) as (m1 & ag & E1 & F1 & A1 & A2). rewrite E1. cbn [bind].
  destruct (r_backward_phase_ok m1 ag vars rs HZ HV F1 A1 A2) as (m' & ag' & rs' & E2 & M2 & S2 & R2).
  { split; auto. }
  rewrite E2. cbn [bind]. exists m', rs'. auto.
Qed.
End Loops.
