(** * Rounded arithmetic: the E-step of learning *)
From Coq Require Import ZArith QArith Qcanon Field Lia Permutation String.
From Verif Require Import Base BaseProofs PotentialModel PotentialSpec PotentialProofs PotentialProofs2
  PotentialProofs3 VariableModel VariableProofs JoinTreeModel AssignSpec AssignProofs JoinTreeSpec
  JoinTreeProofs JoinTreeProofs2 JoinTreeProofs3 JoinTreeProofs4 JoinTreeProofs5 JoinTreeProofs6 JoinTreeProofs7
  NipModel NipSpec NipProofs NipProofs2 NipProofs3 GatherProofs2 SliceModel SliceSpec SliceProofs SliceProofs2
  SliceProofs3 SliceProofs4 LearnModel LearnSpec LearnProofs LearnProofs5 RoundModel RoundModel2 RoundSpec RoundSpec2
  RoundProofs RoundProofs3 RoundProofs4 RoundProofs5 RoundProofs6 RoundProofs7 RoundProofs8 RoundProofs9 RoundProofs13
  RoundProofs14 RoundProofs16.
Import ListNotations.
Open Scope nat_scope.
Local Open Scope list_scope.
Local Open Scope res_scope.
Add Field QcfieldRound17 : Qcft.


Section Estep.
Variable u : Qc.
Variable fl : Qc -> Qc.
Hypothesis Hu0 : (0 <= u)%Qc.
Hypothesis Hu1 : (u < 1)%Qc.
Hypothesis Hfl : forall x, (0 <= x)%Qc -> near u 1 x (fl x).
Variable card : nat -> nat.
Variable N : nat.
Variable m0 : model.
Variable ts : time_series.
Hypothesis HM : slices_ok card m0.
Hypothesis HTS : series_ok m0 ts.
Hypothesis HFam : forall v, v < length (m_vars m0) -> NoDup (family m0 v).
Hypothesis HW : cliques_within card (m_jt m0) N.
Context {L : Type}.
Variable A : account L.
Hypothesis HA0 : forall l x y, exists l', l_add A l x y = Ok l'.
Local Notation n := (length (m_vars m0)).
Local Notation T := (length (ts_data ts)).
Local Notation sums := (fun g => sumv card (seq 0 n) g (fun _ => 0)).
Local Notation rrep := (rrep u card).
Local Notation G := (G card m0 ts).
Local Notation B := (B card m0 ts).
Local Notation GB := (GB card m0 ts).
Local Notation s0 := (length (sps (m_jt m0))).
Local Notation E0 := (learn_error m0 ts N).
Local Notation rfresh := (rfresh u card m0).
Local Notation ralpha_ok := (ralpha_ok u card m0 ts).
Local Notation rgamma_ok := (rgamma_ok u card m0 ts).
Local Notation HH := (HH m0 ts).
Local Notation inq := (inq m0).
Local Notation tables_for := (tables_for card m0).
Local Notation en := (n + length (m_indep m0) + 2 + 2 * length (ts_observed ts)).

(** ** Propagation and the mass *)
Lemma r_propagate_mass : forall k m g, model_ok card m -> same_model m0 m ->
  (forall a, valid card a -> near u k (g a) (joint (m_jt m) a)) ->
  exists j1 j2 z, r_make_consistent_model (rt fl) m = Ok (set_jt m j1) /\
    r_model_prob_mass (rt fl) (set_jt m j1) = Ok (set_jt m j2, z) /\
    model_ok card (set_jt m j2) /\ same_model m (set_jt m j2) /\
    rcalibrated u card (N + 2) j2 /\
    (forall a, valid card a -> near u (k + 4 * s0) (g a) (joint j2 a)) /\
    ((forall a, valid card a -> g a = 0%Qc) -> z = 0%Qc).
Proof.
  intros k m g H1 H2 H3. unfold r_make_consistent_model.
  destruct (r_make_consistent_ok u fl Hu0 Hu1 Hfl card N (m_jt m)) as (jt' & E & K & C); try apply H1.
  { now apply (within_same card N m0 HW). }
  rewrite E. cbn [bind].
  assert (SH := rk_shape K).
  assert (SM : same_model m (set_jt m jt')) by (now apply same_model_jt).
  assert (MO : model_ok card (set_jt m jt')). { apply model_ok_jt; auto. apply (rk_ok K). apply (rk_nonneg K). }
  destruct (r_mass_ok u fl Hu0 Hu1 Hfl card N (set_jt m jt') MO) as (j2 & z & E2 & M2 & S2 & J2 & X2).
  destruct (X2 C) as (C2 & Z2).
  exists jt', j2, z. split; [reflexivity|]. split; [exact E2|].
  split; [exact M2|]. split; [eapply same_model_trans; eauto|]. split; [exact C2|].
  assert (J : forall a, valid card a -> near u (k + 4 * s0) (g a) (joint jt' a)).
  { intros a Ha. eapply (near_trans u Hu0 Hu1); [exact (H3 a Ha)|].
    rewrite <- (sps_same m0 m H2). now apply (rk_joint K). }
  split. { intros a Ha. rewrite J2. exact (J a Ha). }
  intros GZ. apply Z2. intros a Ha. apply (near_zero u Hu0 Hu1 _ _ _ (J a Ha)). auto.
Qed.

(** ** One step forward *)
Lemma zev_zero : forall t a, valid card a -> zev card m0 ts t = 0%Qc -> G t a = 0%Qc.
Proof.
  intros t a Ha HZ. rewrite (zev_eq card m0 ts HM) in HZ.
  apply (sumv_zero_inv card (seq 0 n) (G t) a) in Ha as K; auto.
  - apply G_ext.
  - intros d Hd. now apply G_nonneg.
  - rewrite <- HZ. apply sumv_local. intros d d' E. now apply (G_local card m0 ts HM HTS t d d' E).
Qed.

Lemma r_e_observe : forall t m alpha k, t < T -> rfresh (Nat.ltb 0 t) m -> (0 < t -> ralpha_ok k (t - 1) alpha) ->
  exists ma mb mc z1 md me mf z2 c,
    (if Nat.ltb 0 t then r_finish_message (rt fl) m FORWARD alpha None else Ok m) = Ok ma /\
    r_make_consistent_model (rt fl) ma = Ok mb /\
    r_model_prob_mass (rt fl) mb = Ok (mc, z1) /\
    r_insert_ts_step (rt fl) ts (Z.of_nat t) mc MARK_ON = Ok (md, NO_ERROR) /\
    r_make_consistent_model (rt fl) md = Ok me /\
    r_model_prob_mass (rt fl) me = Ok (mf, z2) /\
    model_ok card mf /\ same_model m0 mf /\ rcalibrated u card (N + 2) (m_jt mf) /\ (0 < c)%Qc /\
    (forall a, valid card a -> near u (k + (en + 4 * s0) + 4 * s0) (c * G t a)%Qc (joint (m_jt mf) a)) /\
    (zev card m0 ts t = 0%Qc -> z2 = 0%Qc).
Proof.
  intros t m alpha k Ht (M1 & S1 & N1 & R1) HA.
  set (F := fun a => (slice_priors m0 (Nat.ltb 0 t) a * inq t alpha a)%Qc).
  assert (X : exists ma, (if Nat.ltb 0 t then r_finish_message (rt fl) m FORWARD alpha None else Ok m) = Ok ma /\
     model_ok card ma /\ same_model m0 ma /\ no_evidence card ma /\ rrep (n + length (m_indep m0) + 2) ma F).
  { destruct (Nat.ltb 0 t) eqn:Et.
    - apply Nat.ltb_lt in Et. assert (SO := slices_same card m0 HM m M1 S1).
      assert (Eout : m_out m = m_out m0) by apply S1. assert (Eprev : m_prev m = m_prev m0) by apply S1.
      destruct (r_finish_ok u fl Hu0 Hu1 Hfl card _ m FORWARD alpha None _ SO R1) as (ma & E & M2 & S2 & L2 & R2); auto.
      { apply (interface_table_same card m0 m); auto. apply HA. auto. }
      exists ma. split; auto. split; auto. split; [eapply same_model_trans; eauto|].
      split. { intros v Hv. rewrite L2. apply N1. destruct S2 as (_ & <- & _). auto. }
      eapply rrep_ext; [|exact R2]. intros a Ha. cbv beta. cbn [in_vars]. rewrite Eprev. unfold F, RoundProofs14.inq.
      rewrite (proj2 (Nat.ltb_lt _ _) Et). ring.
    - exists m. split; auto. split; auto. split; auto. split; auto.
      apply (rrep_le u Hu0 Hu1 card (n + length (m_indep m0))); [lia|].
      eapply rrep_ext; [|exact R1]. intros a Ha. unfold F, RoundProofs14.inq. rewrite Et. ring. }
  destruct X as (ma & E1 & M2 & S2 & N2 & R2).
  destruct (r_propagate_mass _ ma _ M2 S2 R2) as (j1 & j2 & z1 & E2 & E3 & M3 & S3 & _ & J3 & _).
  set (mc := set_jt ma j2) in *.
  assert (S3' : same_model m0 mc) by (eapply same_model_trans; eauto).
  assert (R3 : rrep (n + length (m_indep m0) + 2 + 4 * s0) mc F).
  { intros a Ha. rewrite (same_original ma mc a S3). change (evidence mc a) with (evidence ma a). exact (J3 a Ha). }
  destruct (r_insert_ok u fl Hu0 Hu1 Hfl card _ mc ts t F M3 (series_same m0 ts HTS mc S3') Ht R3 N2)
    as (md & E4 & M4 & S4 & R4 & V4).
  assert (S4' : same_model m0 md) by (eapply same_model_trans; eauto).
  destruct (HH_near u Hu0 Hu1 card m0 ts HM t alpha k HA) as (c & Pc & Hc).
  destruct (r_propagate_mass (k + (en + 4 * s0)) md (fun a => c * G t a)%Qc M4 S4') as (j3 & j4 & z2 & E5 & E6 & M5 & S5 & C5 & J5 & Z5).
  { intros a Ha. eapply (near_trans u Hu0 Hu1); [exact (Hc a Ha)|].
    replace (HH t alpha a) with (original md a * evidence md a * F a)%Qc.
    - apply (near_le u Hu0 Hu1 (n + length (m_indep m0) + 2 + 4 * s0 + 2 * length (ts_observed ts))); [lia|]. exact (R4 a Ha).
    - rewrite (same_original m0 md a S4'). rewrite V4 by auto. rewrite (agrees_same m0 ts mc t a S3').
      unfold RoundProofs14.HH, F, SliceProofs4.sl. destruct (agrees m0 ts t a); cbn [given]; ring. }
  exists ma, (set_jt ma j1), mc, z1, md, (set_jt md j3), (set_jt md j4), z2, c.
  split; auto. split; auto. split; auto. split; auto. split; auto. split; auto. split; auto.
  split; [eapply same_model_trans; eauto|]. split; auto. split; auto. split; auto.
  intros HZ. apply Z5. intros a Ha. rewrite zev_zero by auto. ring.
Qed.

Lemma learn_bound : forall t, t * E0 + (en + 4 * s0) + 4 * s0 + s0 * (N + 2) + N + 1 <= S t * E0.
Proof. intros t. unfold learn_error, slice_error. set (S0 := s0 * (N + 2)). lia. Qed.

(** ** The forward phase *)
Definition ralphas (t : nat) (ag : list potential) : Prop :=
  tables_ok card m0 ts ag /\ forall s d, s < t -> ralpha_ok (S s * E0) s (nth s ag d).

Lemma r_e_forward_ok : forall k t m ag ll, t + k = T ->
  rfresh (Nat.ltb 0 t && Nat.ltb 1 T)%bool m -> ralphas t ag ->
  (forall s, s < t -> zev card m0 ts s <> 0%Qc) ->
  exists m' ag' ll' bad, r_e_forward (rt fl) A ts k t m ag ll = Ok (m', ag', ll', bad) /\
    model_ok card m' /\ same_model m0 m' /\
    (bad = false -> rfresh (Nat.ltb 1 T) m' /\ ralphas T ag' /\ (forall s, s < T -> zev card m0 ts s <> 0%Qc)).
Proof.
  induction k as [|k IH]; intros t m ag ll Ht HF HA HZ; cbn [r_e_forward].
  - rewrite Nat.add_0_r in Ht. subst t. exists m, ag, ll, false. split; auto.
    split; [apply HF|]. split; [apply HF|]. intros _. split; auto.
    replace (1 <? T) with ((0 <? T) && (1 <? T))%bool; auto.
    destruct (Nat.ltb_spec 0 T), (Nat.ltb_spec 1 T); auto; lia.
  - unfold r_e_forward_step. cbv zeta.
    assert (HF' : rfresh (Nat.ltb 0 t) m).
    { destruct (Nat.ltb_spec 0 t); auto. destruct (Nat.ltb_spec 1 T); [auto|lia]. }
    destruct HA as (HT & HA). assert (L2 : length ag = T + 1) by apply HT.
    destruct (interface_potential_ok card m0 HM) as (al & _ & _ & _).
    destruct (r_e_observe t m (nth (t - 1) ag al) (t * E0))
      as (ma & mb & mc & z1 & md & me & mf & z2 & c & O1 & O2 & O3 & O4 & O5 & O6 & O7 & O8 & O9 & Pc & O10 & OZ); auto.
    { lia. } { intros P. assert (Q := HA (t - 1) al ltac:(lia)). replace (S (t - 1)) with t in Q by lia. exact Q. }
    replace (if 0 <? t then let* a := rd ag (t - 1) in r_finish_message (rt fl) m FORWARD a None else Ok m) with (Ok ma).
    2: { rewrite <- O1. destruct (0 <? t) eqn:Pt; auto. apply Nat.ltb_lt in Pt. rewrite (rd_ok _ ag (t - 1) al) by lia. reflexivity. }
    cbn [bind]. rewrite O2. cbn [bind]. rewrite O3. cbn [bind]. rewrite O4. cbn [bind]. rewrite O5. cbn [bind].
    rewrite O6. cbn [bind].
    assert (X : exists l', (if (Qc_ltb 0 z1 && Qc_ltb 0 z2)%bool then l_add A ll z1 z2 else Ok ll) = Ok l').
    { destruct (Qc_ltb 0 z1 && Qc_ltb 0 z2)%bool; [apply HA0|eauto]. }
    destruct X as (l' & X). rewrite X. cbn [bind].
    destruct (negb (Qc_ltb 0 z1) || negb (Qc_ltb 0 z2) || l_positive A l')%bool eqn:EB.
    { cbn [bind]. exists mf, ag, l', true. split; auto. split; auto. split; auto. discriminate. }
    assert (NZ : zev card m0 ts t <> 0%Qc).
    { intros Z. rewrite (OZ Z) in EB. apply orb_false_elim in EB. destruct EB as (EB & _).
      apply orb_false_elim in EB. destruct EB as (_ & EB). apply negb_false_iff in EB. apply Qc_ltb_true in EB.
      exact (Qclt_not_le _ _ EB (Qcle_refl 0%Qc)). }
    rewrite (rd_ok _ ag t al) by lia. cbn [bind].
    assert (AB := learn_bound t).
    set (K := t * E0 + (en + 4 * s0) + 4 * s0) in *.
    destruct (r_leave_slice u fl Hu0 Hu1 Hfl card N m0 HM HW mf FORWARD (nth t ag al) K (fun a => c * G t a)%Qc O7 O8 O9) as (p' & Y1 & Y2 & Y3); auto.
    { apply HT. lia. } { apply HT. lia. } { intros a b Eab. now rewrite (G_ext card m0 ts t a b Eab). }
    { right. apply (scaled_sum card m0); auto. rewrite <- (zev_eq card m0 ts HM). auto. }
    rewrite Y1. cbn [bind].
    destruct (tables_write card m0 ts ag t p' HT) as (ag' & X1 & X2 & X3); auto; [lia|].
    rewrite X1. cbn [bind].
    destruct (r_next_fresh u fl Hu0 Hu1 Hfl card m0 HM mf (Nat.ltb 1 T) O7 O8) as (mg & mh & W1 & W2 & W3). rewrite W1. cbn [bind]. rewrite W2. cbn [bind].
    apply IH.
    { lia. }
    { replace (0 <? t + 1) with true; auto. symmetry. apply Nat.ltb_lt. lia. }
    { split; auto. intros s d Hs. rewrite X3 by lia. destruct (Nat.eqb_spec s t) as [->|].
      - split; auto. eapply rtable_le; [exact Hu0|exact Hu1|exact AB|]. eapply table_scale; eauto.
      - apply HA. lia. }
    { intros s Hs. destruct (Nat.eq_dec s t) as [->|]; auto. apply HZ. lia. }
Qed.

(** ** The backward phase *)
Lemma lgamma_bound : forall t, t < T -> (T - S t) * E0 + en + 2 + 4 * s0 + s0 * (N + 2) + N + 1 <= (T - t) * E0.
Proof.
  intros t Ht. replace ((T - t) * E0) with ((T - S t) * E0 + E0) by (replace (T - t) with (S (T - S t)) by lia; lia).
  set (x := (T - S t) * E0). unfold learn_error, slice_error. set (S0 := s0 * (N + 2)). lia.
Qed.
Lemma lsmooth_bound : forall t, t < T -> t * E0 + (T - t) * E0 = T * E0.
Proof. intros t Ht. rewrite <- Nat.mul_add_distr_r. f_equal. lia. Qed.
Local Notation K0 := (2 * (T * E0) + N + 1).

Lemma r_e_backward_ok : forall m ag rs ps, rfresh (Nat.ltb 1 T) m -> ralphas T ag ->
  tables_for rs -> tables_for ps -> likelihood card m0 ts <> 0%Qc ->
  (forall v ix, v < n -> valid_ix (map card (family m0 v)) ix -> (0 <= cell (param ps v) ix)%Qc) ->
  exists m' ag' rs' ps', r_e_backward (rt fl) m ts ag rs ps = Ok (m', ag', rs', ps') /\
    model_ok card m' /\ same_model m0 m' /\ tables_for ps' /\
    forall v ix, v < n -> valid_ix (map card (family m0 v)) ix ->
      near u (K0 + T) (cell (param ps v) ix + qsum (map (fun t => given (counted m0 t v) (share card m0 (GB t) v ix)) (seq 0 T)))%Qc
        (cell (param ps' v) ix).
Proof.
  intros m ag rs ps HF (HT & HA) HR HP HZ HN. unfold r_e_backward. cbv zeta.
  destruct (interface_potential_ok card m0 HM) as (al & _ & _ & _).
  match goal with |- context [for_down ?k 0 ?b ?s] =>
    destruct (for_down_inv (model * list potential * list potential * list potential)
      (fun t '(m, ag, rs0, ps0) => rfresh (Nat.ltb 0 (t - 1)) m /\ tables_ok card m0 ts ag /\
         (forall i d, i < t -> i < T -> ralpha_ok (S i * E0) i (nth i ag d)) /\
         (forall d, 0 < t < T -> rgamma_ok ((T - t) * E0) t (nth (t - 1) ag d) (nth t ag d)) /\
         tables_for rs0 /\ tables_for ps0 /\
         forall v ix, v < n -> valid_ix (map card (family m0 v)) ix ->
           near u (K0 + (T - t)) (cell (param ps v) ix + qsum (map (fun t => given (counted m0 t v) (share card m0 (GB t) v ix)) (seq t (T - t))))%Qc
             (cell (param ps0 v) ix)) b k 0 s)
      as ((((m' & ag') & rs') & ps') & E3 & A1 & A2 & A3 & A4 & A5 & A6 & A7) end.
  { lia. }
  { split. { replace (0 <? T - 1) with (1 <? T); auto. destruct (Nat.ltb_spec 1 T), (Nat.ltb_spec 0 (T - 1)); auto; lia. }
    split; auto. split; auto. split; [intros; lia|]. split; auto. split; auto.
    intros v ix Hv Hix. rewrite Nat.sub_diag. cbn [seq map qsum]. rewrite Qcplus_0_r. apply near_refl; auto. }
  { intros t [[[mi agi] ri] pi] Ht (B1 & B2 & B3 & B4 & B5 & B6 & B7). rewrite Nat.sub_succ, Nat.sub_0_r in B1.
    assert (L2 : length agi = T + 1) by apply B2.
    set (alpha := nth (t - 1) agi al).
    assert (HAL : 0 < t -> ralpha_ok (t * E0) (t - 1) alpha).
    { intros P. assert (Q := B3 (t - 1) al ltac:(lia) ltac:(lia)). replace (S (t - 1)) with t in Q by lia. exact Q. }
    destruct (r_revise_slice u fl Hu0 Hu1 Hfl card N m0 ts HM HTS HW t mi alpha (nth t agi al) (nth (t + 1) agi al) (t * E0) (S t * E0) ((T - S t) * E0))
      as (ma & mb & mc & md & c & O1 & O3 & O4 & O5 & O6 & O7 & O8 & Pc & O9); auto.
    { lia. }
    { intros P. split; [apply B3; lia|]. assert (Q := B4 al ltac:(lia)). rewrite Nat.sub_succ, Nat.sub_0_r in Q.
      rewrite Nat.add_1_r. exact Q. }
    replace (if 0 <? t then let* a := rd agi (t - 1) in r_finish_message (rt fl) mi FORWARD a None else Ok mi) with (Ok ma).
    2: { rewrite <- O1. destruct (0 <? t); auto. rewrite (rd_ok _ agi (t - 1) al) by lia. reflexivity. }
    cbn [bind]. rewrite O3. cbn [bind].
    replace (if t <? T - 1 then let* g := rd agi (t + 1) in let* a := rd agi t in r_finish_message (rt fl) mb BACKWARD g (Some a) else Ok mb) with (Ok mc).
    2: { rewrite <- O4. destruct (t <? T - 1); auto. rewrite (rd_ok _ agi (t + 1) al), (rd_ok _ agi t al) by lia. reflexivity. }
    cbn [bind]. rewrite O5. cbn [bind].
    assert (AB := lgamma_bound t ltac:(lia)). assert (SB := lsmooth_bound t ltac:(lia)).
    set (K := (T - S t) * E0 + en + 2 + 4 * s0) in *.
    destruct (HH_near u Hu0 Hu1 card m0 ts HM t alpha (t * E0) HAL) as (c' & Pc' & Hc').
    assert (J : forall b, valid card b -> near u (t * E0 + K) (c * c' * GB t b)%Qc (joint (m_jt md) b)).
    { intros b Hb. eapply (near_trans u Hu0 Hu1); [|exact (O9 b Hb)].
      unfold SliceProofs4.GB. replace (c * c' * (G t b * B t b))%Qc with (c * (c' * G t b * B t b))%Qc by ring.
      apply near_mul_l; auto; [now apply Qclt_le_weak|]. apply near_mul_r; auto. apply B_nonneg; auto. lia. }
    destruct (r_add_counts_ok u fl Hu0 Hu1 Hfl card N m0 HM HFam HW t md ri pi (GB t) (c * c')%Qc (t * E0 + K) (K0 + (T - S t))
      (fun v ix => cell (param ps v) ix + qsum (map (fun t => given (counted m0 t v) (share card m0 (GB t) v ix)) (seq (S t) (T - S t))))%Qc)
      as (mf & ri' & pi' & W1 & W2 & W3 & W4 & W5 & W6 & W7); auto.
    { apply GB_ext. } { now apply Qc_mul_pos. } { lia. }
    rewrite W1. cbn [bind].
    assert (Y : exists ag', (if 0 <? t then let* g := rd agi t in let* g := r_start_message (rt fl) mf BACKWARD g in wr agi t g else Ok agi) = Ok ag' /\
       tables_ok card m0 ts ag' /\ (forall s d, s < t -> ralpha_ok (S s * E0) s (nth s ag' d)) /\
       (forall d, 0 < t < T -> rgamma_ok ((T - t) * E0) t (nth (t - 1) ag' d) (nth t ag' d))).
    { destruct (Nat.ltb_spec 0 t) as [P|P].
      - rewrite (rd_ok _ agi t al) by lia. cbn [bind].
        destruct (r_leave_slice u fl Hu0 Hu1 Hfl card N m0 HM HW mf BACKWARD (nth t agi al) K (fun b => c * (HH t alpha b * B t b))%Qc W2 W3) as (p' & Y1 & Y2 & Y3).
        { rewrite W4. exact O8. } { apply B2. lia. } { apply B2. lia. }
        { intros a b Eab. now rewrite (HHB_ext card m0 ts t alpha a b Eab). } { intros a Ha. rewrite W4. exact (O9 a Ha). }
        { right. apply scaled_sum; auto.
          assert (Z : near u (t * E0) (c' * sums (GB t))%Qc (sums (fun b => HH t alpha b * B t b)%Qc)).
          { rewrite <- sumv_const_out. apply (near_sumv u Hu0 Hu1 card); [exact (SliceProofs4.ZV card m0 HM)|].
            intros b Hb. unfold SliceProofs4.GB. rewrite Qcmult_assoc. apply near_mul_r; auto. apply B_nonneg; auto. lia. }
          intros Y. apply (near_zero u Hu0 Hu1 _ _ _ Z) in Y. apply Qcmult_integral in Y. destruct Y as [Y|Y].
          - now apply (Qc_pos_neq c').
          - apply HZ. rewrite (GB_total card m0 ts HM) in Y by lia. exact Y. }
        rewrite Y1. cbn [bind]. destruct (tables_write card m0 ts agi t p' B2) as (ag' & U1 & U2 & U3); auto; [lia|].
        exists ag'. split; auto. split; auto. split.
        + intros s d Hs. rewrite U3 by lia. destruct (Nat.eqb_spec s t); [lia|]. apply B3; lia.
        + intros d _. rewrite !U3 by lia. rewrite Nat.eqb_refl. destruct (Nat.eqb_spec (t - 1) t); [lia|].
          split; auto. rewrite (nth_indep agi d al) by lia. fold alpha.
          apply (rtable_le u Hu0 Hu1 card m0 (K + s0 * (N + 2) + N + 1)); [exact AB|]. apply (table_scale u card m0 _ _ _ c); auto.
      - exists agi. split; auto. split; auto. split; intros; lia. }
    destruct Y as (ag' & Y1 & Y2 & Y3 & Y4). rewrite Y1. cbn [bind].
    destruct (r_next_fresh u fl Hu0 Hu1 Hfl card m0 HM mf (Nat.ltb 1 t) W2 W3) as (mg & mh & Z1 & Z2 & Z3). rewrite Z1. cbn [bind]. rewrite Z2. cbn [bind].
    eexists. split; [reflexivity|]. cbn beta iota.
    split. { replace (0 <? t - 1) with (1 <? t); auto. destruct (Nat.ltb_spec 1 t), (Nat.ltb_spec 0 (t - 1)); auto; lia. }
    split; auto. split; auto. split; auto. split; auto. split; auto.
    intros v ix Hv Hix. assert (Q := W7 v ix Hv Hix). replace (T - t) with (S (T - S t)) by lia. cbn [seq map qsum].
    replace (K0 + S (T - S t)) with (S (K0 + (T - S t))) by lia.
    match goal with |- near _ _ (?a + (?b + ?d))%Qc _ => replace (a + (b + d))%Qc with (a + d + b)%Qc by ring end. exact Q. }
  rewrite E3. exists m', ag', rs', ps'. split; auto. split; [apply A1|]. split; [apply A1|]. split; auto.
  rewrite Nat.sub_0_r in A7. exact A7.
Qed.

Theorem r_e_step_ok : forall ps, tables_for ps ->
  (forall v ix, v < n -> valid_ix (map card (family m0 v)) ix -> (0 <= cell (param ps v) ix)%Qc) ->
  exists m' ps' ll e, r_e_step (rt fl) A m0 ts ps = Ok (m', ps', ll, e) /\ model_ok card m' /\ same_model m0 m' /\
    ((e = BAD_LUCK /\ ps' = ps) \/
     (e = NO_ERROR /\ likelihood card m0 ts <> 0%Qc /\ tables_for ps' /\
      forall v ix, v < n -> valid_ix (map card (family m0 v)) ix ->
        near u (count_error m0 ts N) (cell (param ps v) ix + expected card m0 ts v ix)%Qc (cell (param ps' v) ix))).
Proof.
  intros ps HP HN. unfold r_e_step. cbv zeta.
  destruct (new_like_ok card m0 ps HP) as (rs & Er & HR). rewrite Er. cbn [bind].
  destruct (interface_potential_ok card m0 HM) as (al & Ea & Wa & Da). rewrite Ea. cbn [bind].
  destruct (r_next_fresh u fl Hu0 Hu1 Hfl card m0 HM m0 false (so_model _ _ HM) (same_model_refl m0)) as (m1 & m2 & E1 & E2 & F2).
  rewrite E1. cbn [bind]. rewrite E2. cbn [bind].
  destruct (r_e_forward_ok T 0 m2 (repeat al (T + 1)) (l_first A)) as (m3 & ag & ll & bad & E3 & M3 & S3 & R); auto.
  { split; [|intros; lia]. split; [apply repeat_length|]. intros s d Hs. rewrite nth_repeat_lt by auto. auto. }
  { intros; lia. }
  rewrite E3. cbn [bind]. destruct bad.
  - exists m3, ps, ll, BAD_LUCK. auto 10.
  - destruct (R eq_refl) as (R1 & R2 & R4).
    assert (HL : likelihood card m0 ts <> 0%Qc).
    { unfold likelihood. cbv zeta. destruct T as [|t] eqn:ET; [discriminate|]. apply (R4 t). lia. }
    destruct (r_e_backward_ok m3 ag rs ps R1 R2 HR HP HL HN) as (m4 & ag' & rs' & ps' & E4 & M4 & S4 & T4 & H4).
    rewrite E4. cbn [bind]. exists m4, ps', ll, NO_ERROR. split; auto. split; auto. split; auto. right.
    split; auto. split; auto. split; auto.
    intros v ix Hv Hix. assert (Q := H4 v ix Hv Hix). unfold count_error.
    replace (expected card m0 ts v ix) with (qsum (map (fun t => given (counted m0 t v) (share card m0 (GB t) v ix)) (seq 0 T))); [exact Q|].
    unfold expected. apply qsum_map_ext. intros t Ht. apply in_seq in Ht. unfold counted.
    rewrite (share_family card m0 ts HM) by lia. reflexivity.
Qed.
End Estep.
