(** * Proofs about generate_data: the whole series *)
From Coq Require Import Permutation Field.
From Verif Require Import Base BaseProofs PotentialModel PotentialSpec PotentialProofs
  PotentialProofs2 PotentialProofs3 HeapProofs VariableModel VariableProofs JoinTreeModel
  AssignSpec AssignProofs JoinTreeSpec JoinTreeProofs JoinTreeProofs2 JoinTreeProofs3
  JoinTreeProofs4 JoinTreeProofs5 JoinTreeProofs6 JoinTreeProofs7 NipModel NipSpec NipProofs
  NipProofs2 NipProofs3 NipProofs4 GatherProofs GatherProofs2 SliceModel SliceSpec SliceProofs SliceProofs2 SliceProofs3
  SliceProofs4 SliceProofs5 LearnModel LearnSpec LearnProofs LearnProofs2 LearnProofs3 LearnProofs4 LearnProofs6
  LearnProofs7.
Import ListNotations.
Open Scope nat_scope.
Local Open Scope res_scope.

Add Field Qcfield_learn8 : Qcft.

Lemma all_marked_var : forall m v, v < length (m_vars m) -> var (all_marked m) v = set_vmark (var m v) MARK_ON.
Proof. intros m v Hv. rewrite <- marking_all. now apply marking_var. Qed.
Lemma all_marked_len : forall m, length (m_vars (all_marked m)) = length (m_vars m).
Proof. intros m. unfold all_marked. cbn [m_vars]. apply map_length. Qed.
Lemma all_marked_slices : forall card m, slices_ok card m -> slices_ok card (all_marked m).
Proof.
  intros card m H. assert (M := so_model _ _ H).
  assert (MI := mo_indep _ _ M).
  constructor; try apply H.
  - constructor; try apply M.
    + intros i v Hi Hv. rewrite all_marked_len. now apply (mo_scope _ _ M i).
    + intros v Hv. rewrite all_marked_len in Hv. rewrite all_marked_var by auto. exact (mo_var _ _ M v Hv).
    + split; [apply MI|]. intros v Hv. rewrite all_marked_len. destruct MI as (_ & MI). destruct (MI v Hv) as (A & B).
      split; auto. rewrite all_marked_var by auto. exact B.
  - intros v Hv. rewrite all_marked_var by (now apply MI). exact (so_old _ _ H v Hv).
Qed.
Lemma model_parents : forall card m, model_ok card m -> closed_parents m.
Proof.
  intros card m H v p Hv Hp. destruct (mo_var _ _ H v Hv) as (_ & _ & (k & Hk & I) & _).
  apply (mo_scope _ _ H k); auto. apply I. now right.
Qed.

Section Generate.
Variable card : nat -> nat.
Variable m0 : model.
Hypothesis HM : slices_ok card m0.
Hypothesis HMK : forall v, v < length (m_vars m0) -> v_mark (var m0 v) = MARK_ON.
Variable vars : list nat.
Hypothesis ND : NoDup vars.
Hypothesis HV : forall v, In v vars -> v < length (m_vars m0).
Local Notation n := (length (m_vars m0)).
Local Notation nv := (length vars).
Local Notation sums := (fun g => sumv card (seq 0 n) g (fun _ => 0)).
Variable rnd : nat -> nat -> Qc.
Definition positive_case : Prop := conditional_slices card m0 /\ positive_random rnd.
Definition exact_case : Prop := m_out m0 <> [] \/ positive_case.

Lemma enter_any : forall t m alpha, fresh card m0 (Nat.ltb 0 t) m -> (0 < t -> interface_table card m0 alpha) ->
  exists ma F, (if Nat.ltb 0 t then finish_message m FORWARD alpha None else Ok m) = Ok ma /\
    model_ok card ma /\ same_model m0 ma /\ no_evidence card ma /\ represents card ma F.
Proof.
  intros t m alpha (M1 & S1 & N1 & R1) HA. destruct t as [|t].
  - exists m, (slice_priors m0 false). cbn [Nat.ltb Nat.leb] in *. auto.
  - cbn [Nat.ltb Nat.leb] in *. assert (SO := slices_same card m0 HM m M1 S1).
    assert (Eout : m_out m = m_out m0) by apply S1.
    destruct (finish_ok card m FORWARD alpha None _ SO R1) as (ma & E & M2 & S2 & L2 & R2); auto.
    { eapply interface_table_same; eauto. apply HA. lia. }
    eexists ma, _. split; [exact E|]. split; auto. split; [eapply same_model_trans; eauto|].
    split; [|exact R2]. intros v Hv. rewrite L2. apply N1. destruct S2 as (_ & <- & _). auto.
Qed.

Lemma start_any : forall m p, model_ok card m -> same_model m0 m -> calibrated card (m_jt m) ->
  wf p -> dims p = map card (m_out m0) -> exists p', start_message m FORWARD p = Ok p' /\ interface_table card m0 p'.
Proof.
  intros m p M1 S1 C1 WP DP. assert (SO := slices_same card m0 HM m M1 S1).
  assert (Eout : m_out m = m_out m0) by apply S1.
  destruct (m_out m0) as [|o os] eqn:EO.
  - unfold start_message. rewrite Eout. cbn [length Nat.eqb]. rewrite uniform_ok. eexists. split; [reflexivity|].
    assert (LD : length (data p) = 1). { rewrite (wf_data_length _ WP), DP. reflexivity. }
    rewrite LD. unfold interface_table. rewrite EO.
    split; [apply wf_same_shape; auto|]. split; auto. split; [repeat constructor; discriminate|].
    intros _. unfold cell. cbn [dims data]. rewrite DP. reflexivity.
  - destruct (start_ok card m FORWARD p SO C1) as (p' & E & IT & _); auto.
    { now rewrite Eout. }
    { left. rewrite Eout. discriminate. }
    exists p'. split; auto. apply (interface_table_same card m m0); auto. congruence.
Qed.

Lemma agrees_fits : forall ts t i a, ts_observed ts = vars -> i <= nv ->
  (forall j, j < i -> (0 <= entry ts t j)%Z) -> (forall j, i <= j < nv -> (entry ts t j < 0)%Z) ->
  agrees m0 ts t a = fits vars (nth t (ts_data ts) []) i a.
Proof.
  intros ts t i a E Hi HP HN. unfold agrees, fits. rewrite E.
  replace (seq 0 nv) with (seq 0 i ++ seq (0 + i) (nv - i)) by (rewrite <- seq_app; f_equal; lia). cbn [plus].
  rewrite forallb_app. rewrite (proj2 (forallb_forall _ (seq i (nv - i)))).
  - rewrite andb_true_r. apply forallb_ext_in. intros j Hj. apply in_seq in Hj.
    rewrite HMK by (apply HV, nth_In; lia). cbn [Nat.land MARK_ON Nat.eqb]. 
    rewrite (proj2 (Z.ltb_ge _ _) (HP j ltac:(lia))). cbn [orb]. reflexivity.
  - intros j Hj. apply in_seq in Hj. rewrite (proj2 (Z.ltb_lt _ _) (HN j ltac:(lia))). rewrite orb_true_r. reflexivity.
Qed.

Lemma known_before : forall ts t i s, s < t -> t <= length (ts_data ts) ->
  nth s (ts_data (known ts t i)) [] = nth s (ts_data ts) [].
Proof.
  intros ts t i s Hs Ht. unfold known. cbn [ts_data]. rewrite app_nth1 by (rewrite firstn_length; lia).
  now rewrite nth_firstn.
Qed.
Lemma known_at : forall ts t i, t <= length (ts_data ts) ->
  nth t (ts_data (known ts t i)) [] = firstn i (nth t (ts_data ts) []) ++ repeat (-1)%Z (length (ts_observed ts) - i).
Proof.
  intros ts t i Ht. unfold known. cbn [ts_data]. rewrite app_nth2 by (rewrite firstn_length; lia).
  rewrite firstn_length. replace (t - Nat.min t (length (ts_data ts))) with 0 by lia. reflexivity.
Qed.

(** What a series has to share with the data drawn so far. *)
Definition extends (t : nat) (d : list (list Z)) (ts : time_series) : Prop :=
  ts_observed ts = vars /\ t <= length (ts_data ts) /\ forall s, s < t -> nth s (ts_data ts) [] = nth s d [].

Lemma extends_known : forall t d ts i, extends t d ts -> t <= length (ts_data ts) -> extends t d (known ts t i).
Proof.
  intros t d ts i (A & B & C) H. split; [exact A|]. split.
  - unfold known. cbn [ts_data]. rewrite app_length, firstn_length. cbn. lia.
  - intros s Hs. rewrite known_before by auto. auto.
Qed.


(** The joint on entering a slice, for every series that extends the data. *)
Lemma enter_joint : forall t m alpha ma ts, fresh card m0 (Nat.ltb 0 t) m -> (0 < t -> alpha_ok card m0 ts (t - 1) alpha) ->
  (if Nat.ltb 0 t then finish_message m FORWARD alpha None else Ok m) = Ok ma ->
  exists c, (0 < c)%Qc /\ forall a, valid card a -> joint (m_jt ma) a = (c * (sl m0 t a * inflow card m0 ts t a))%Qc.
Proof.
  intros t m alpha ma ts HF HA E.
  destruct (enter_slice card m0 ts HM t m alpha HF HA) as (ma' & F & c & E1 & M1 & S1 & N1 & R1 & Pc & Hc).
  rewrite E1 in E. inversion E; subst ma'. exists c. split; auto. intros a Ha.
  rewrite R1, (same_original m0 ma a S1), (no_evidence_one card ma a N1 Ha) by auto. rewrite <- Hc by auto. ring.
Qed.

Lemma drawn_posterior : forall t ma c row i ts, (0 < c)%Qc -> ts_observed ts = vars -> t < length (ts_data ts) ->
  nth t (ts_data ts) [] = row -> length row = nv ->
  (forall a, valid card a -> joint (m_jt ma) a = (c * (sl m0 t a * inflow card m0 (known ts t i) t a))%Qc) ->
  (forall j, j < nv -> (0 <= nth j row 0)%Z) -> i < nv ->
  drawn card m0 vars (joint (m_jt ma)) (rnd t) row i -> drawn_from card m0 ts t i (rnd t i).
Proof.
  intros t ma c row i ts Pc EO Ht ER Lr HJ HP Hi (k & d & A & B & C & D & L). unfold drawn_from. rewrite EO.
  exists d. split; auto. split.
  2: { exists k. split; [unfold entry; now rewrite ER|]. destruct (lottery_ok d (rnd t i)) as (k' & Ek & PK); [lia|].
    rewrite C, L in Ek. assert (k' = k) by (inversion Ek; lia). subst. exact PK. }
  intros x Hx. rewrite (filter_eq card m0 (known ts t i) HM t _ x) by (auto; apply HV, nth_In; auto). rewrite D by auto.
  assert (U : forall a, valid card a -> upto vars (joint (m_jt ma)) row i a = (c * G card m0 (known ts t i) t a)%Qc).
  { intros a Ha. rewrite G_eq. unfold upto. rewrite HJ by auto.
    rewrite (agrees_fits (known ts t i) t i a); auto; [|lia| |].
    - rewrite known_at by lia. rewrite ER, EO.
      rewrite (fits_same vars row (firstn i row ++ repeat (-1)%Z (nv - i))).
      + destruct (fits vars row i a); cbn [given]; ring.
      + intros j Hj. rewrite app_nth1 by (rewrite firstn_length; lia). now rewrite nth_firstn.
    - intros j Hj. unfold entry. rewrite known_at by lia. rewrite app_nth1 by (rewrite firstn_length, ER; lia).
      rewrite nth_firstn by auto. rewrite ER. apply HP. lia.
    - intros j Hj. unfold entry. rewrite known_at by lia. rewrite app_nth2 by (rewrite firstn_length, ER; lia).
      rewrite firstn_length, ER, EO. rewrite nth_repeat_lt by lia. reflexivity. }
  rewrite (sum_congr card m0 HM _ _ U), (where_congr card m0 HM _ _ _ x Hx U).
  rewrite (sumv_const_out card (seq 0 n) (G card m0 (known ts t i) t) c). unfold sum_where at 1. rewrite sumv_const_out.
  now apply scaled_ratio.
Qed.

Lemma generate_loop_ok : forall T m alpha, fresh card m0 false m -> wf alpha -> dims alpha = map card (m_out m0) ->
  exists m' alpha' data,
    for_up 0 T
      (fun t '(m, alpha, data) =>
         let* m := if Nat.ltb 0 t then finish_message m FORWARD alpha None else Ok m in
         let* row := rd data t in
         let* (m, row) := sample_step m vars (rnd t) row in
         let* data := wr data t row in
         let* m := make_consistent_model m in
         let* alpha := start_message m FORWARD alpha in
         let* m := reset_model m in
         let* m := use_priors m true in
         Ok (m, alpha, data))
      (m, alpha, repeat (repeat 0%Z nv) T) = Ok (m', alpha', data) /\
    model_ok card m' /\ same_model m0 m' /\ series_ok m0 (mkTS vars data) /\ length data = T /\
    states_ok card (mkTS vars data) /\
    (exact_case -> forall t i, t < T -> i < nv -> drawn_from card m0 (mkTS vars data) t i (rnd t i)) /\
    (positive_case -> forall t, t < T -> zev card m0 (mkTS vars data) t <> 0%Qc).
Proof.
  intros T m alpha HF WA DA.
  match goal with |- context [for_up 0 ?k0 ?b0 ?s0] =>
    destruct (for_up_inv (model * potential * list (list Z)) (fun t '(m', al, d) =>
      fresh card m0 (Nat.ltb 0 t) m' /\ wf al /\ dims al = map card (m_out m0) /\ (0 < t -> interface_table card m0 al) /\
      length d = T /\ (forall s, s < T -> length (nth s d []) = nv) /\
      (forall s i, s < t -> i < nv -> exists k, nth i (nth s d []) 0%Z = Z.of_nat k /\ k < card (nth i vars 0)) /\
      (exact_case -> forall ts, extends t d ts -> (0 < t -> alpha_ok card m0 ts (t - 1) al) /\
         (forall s i, s < t -> i < nv -> drawn_from card m0 ts s i (rnd s i)) /\
         (positive_case -> forall s, s < t -> zev card m0 ts s <> 0%Qc))) b0 0 k0 s0)
      as (((m' & al) & d) & E & A1 & A2 & A3 & A4 & A5 & A6 & A7 & A8) end.
  - lia.
  - split; [exact HF|]. split; auto. split; auto. split; [lia|]. split; [apply repeat_length|].
    split. { intros s Hs. rewrite nth_repeat_lt by auto. apply repeat_length. }
    split; [intros; lia|]. intros _ ts _. split; [lia|]. split; intros; lia.
  - intros t ((mt & al) & d) Ht (B1 & B2 & B3 & B4 & B5 & B6 & B7 & B8).
    destruct (enter_any t mt al B1 B4) as (ma & F & E1 & M1 & S1 & N1 & R1). rewrite E1. cbn [bind].
    rewrite (rd_ok _ _ _ []) by lia. cbn [bind].
    destruct (sample_step_ok card m0 HM vars ND HV ma F (rnd t) (nth t d []) M1 S1 N1 R1) as (mb & row & E2 & L2 & M2 & S2 & J2 & D2).
    { apply B6. lia. }
    rewrite E2. cbn [bind]. rewrite wr_ok by lia. cbn [bind].
    destruct (make_consistent_model_ok card mb M2) as (jt' & E3 & Ej & M3 & S3 & C3 & J3). rewrite E3. cbn [bind].
    assert (SC : same_model m0 (set_jt mb jt')) by (eapply same_model_trans; eauto).
    destruct (start_any (set_jt mb jt') al M3 SC C3 B2 B3) as (al' & E4 & IT). rewrite E4. cbn [bind].
    destruct (next_fresh card m0 HM (set_jt mb jt') true M3 SC) as (m1 & m2 & E5 & E6 & F6).
    rewrite E5. cbn [bind]. rewrite E6. cbn [bind]. eexists. split; [reflexivity|]. cbv beta iota.
    split; [exact F6|]. split; [apply IT|]. split; [apply IT|]. split; auto. split; [now rewrite set_nth_length|].
    split. { intros s Hs. rewrite nth_set_nth by lia. destruct (Nat.eqb_spec s t); auto. }
    split. { intros s i Hs Hi. rewrite nth_set_nth by lia. destruct (Nat.eqb_spec s t) as [->|Ns]; [|apply B7; auto; lia].
      destruct (D2 i Hi) as (k & q & K1 & K2 & _). eauto. }
    intros HX ts (X1 & X2 & X3).
    assert (XT : extends t d ts).
    { split; auto. split; [lia|]. intros s Hs. rewrite X3 by lia. rewrite nth_set_nth by lia.
      destruct (Nat.eqb_spec s t); auto. lia. }
    assert (XR : nth t (ts_data ts) [] = row).
    { rewrite X3 by lia. rewrite nth_set_nth by lia. now rewrite Nat.eqb_refl. }
    destruct (B8 HX ts XT) as (Y1 & Y2 & Y3).
    assert (RP : forall j, j < nv -> (0 <= nth j row 0)%Z).
    { intros j Hj. destruct (D2 j Hj) as (k & q & K1 & _). rewrite K1. lia. }
    destruct (enter_joint t mt al ma ts B1 Y1 E1) as (c & Pc & Hc).
    assert (JD : forall a, valid card a -> joint jt' a = (c * G card m0 ts t a)%Qc).
    { intros a Ha. rewrite J3, J2 by auto. unfold upto. rewrite Hc, G_eq by auto.
      rewrite (agrees_fits ts t nv a); auto; [|intros j Hj; unfold entry; rewrite XR; auto|intros; lia].
      rewrite XR. destruct (fits vars row nv a); cbn [given]; ring. }
    assert (ZP : positive_case -> zev card m0 ts t <> 0%Qc).
    { intros PC. destruct PC as (CS & PR). rewrite (zev_eq card m0 ts HM). intros Z.
      assert (HZ : sums (joint (m_jt ma)) <> 0%Qc).
      { rewrite (sum_congr card m0 HM _ _ Hc).
        rewrite (sumv_const_out card (seq 0 n) (fun a => sl m0 t a * inflow card m0 ts t a)%Qc c).
        rewrite <- (zref_eq card m0 ts HM). intros K. apply Qcmult_integral in K. destruct K as [K|K]; [now apply (Qc_pos_neq c)|].
        destruct t as [|t']; [rewrite (zref_first card m0 ts HM CS) in K; discriminate|].
        rewrite (zref_next card m0 ts HM CS) in K. apply (Y3 (conj CS PR) t'); auto. }
      apply (drawn_positive card m0 HM vars HV (joint (m_jt ma)) (rnd t) row) with (i := nv); auto.
      - apply joint_is_ext.
      - intros a Ha. apply (joint_nonneg card); auto; apply M1.
      - rewrite (sum_congr card m0 HM _ (fun a => c * G card m0 ts t a)%Qc).
        + rewrite (sumv_const_out card (seq 0 n) (G card m0 ts t) c). rewrite Z. ring.
        + intros a Ha. rewrite <- J2 by auto. rewrite <- J3 by auto. auto. }
    split; [|split].
    + intros _. rewrite Nat.sub_succ, Nat.sub_0_r.
      destruct (leave_slice card m0 HM (set_jt mb jt') FORWARD al (G card m0 ts t) c M3 SC C3) as (p' & E7 & I7 & T7); auto.
      { apply G_ext. }
      { destruct HX as [|PC]; auto. right. rewrite <- (zev_eq card m0 ts HM). auto. }
      rewrite E7 in E4. inversion E4; subst. split; auto.
    + intros s i Hs Hi. destruct (Nat.eq_dec s t) as [->|Ns]; [|apply Y2; auto; lia].
      destruct (B8 HX (known ts t i)) as (Z1 & _). { apply extends_known; auto. lia. }
      destruct (enter_joint t mt al ma (known ts t i) B1 Z1 E1) as (c' & Pc' & Hc').
      apply (drawn_posterior t ma c' row i ts); auto.
    + intros PC s Hs. destruct (Nat.eq_dec s t) as [->|Ns]; auto. apply Y3; auto. lia.
  - exists m', al, d. rewrite E. split; auto. destruct A1 as (M1 & S1 & _). split; auto. split; auto.
    assert (EX : extends T d (mkTS vars d)). { split; auto. cbn [ts_data]. split; [lia|auto]. }
    split. { split; [exact ND|]. split; [exact HV|]. cbn [ts_data ts_observed]. apply Forall_forall. intros r Hr.
      apply (In_nth _ _ []) in Hr. destruct Hr as (s & Hs & <-). apply A6. lia. }
    split; auto. split. { intros s i Hs Hi. cbn [ts_data ts_observed] in *. apply A7; auto. lia. }
    split. { intros HX t i Ht Hi. apply (A8 HX _ EX); auto. }
    intros PC t Ht. apply (A8 (or_intror PC) _ EX); auto.
Qed.
End Generate.

Lemma conditional_marked : forall card m, slices_ok card m -> conditional_slices card m -> conditional_slices card (all_marked m).
Proof.
  intros card m HM (A & B). assert (MI := mo_indep _ _ (so_model _ _ HM)).
  assert (P : forall l a, incl l (m_indep m) -> priors (all_marked m) l a = priors m l a).
  { intros l a Hl. unfold priors. apply qprod_map_ext. intros v Hv. rewrite all_marked_var by (apply MI; auto). reflexivity. }
  split.
  - unfold sum_all in *. rewrite all_marked_len. rewrite <- A. apply sumv_ext_free. intros d _.
    change (m_indep (all_marked m)) with (m_indep m). rewrite P by apply incl_refl. reflexivity.
  - intros a Ha. rewrite all_marked_len. rewrite <- (B a Ha). apply sumv_ext_free. intros d _.
    change (m_indep (all_marked m)) with (m_indep m). change (m_prev (all_marked m)) with (m_prev m).
    rewrite P; [reflexivity|]. intros v Hv. apply filter_In in Hv. tauto.
Qed.

Lemma generate_data_ok : forall card m T rnd fuel l, slices_ok card m -> topological m l -> length (m_vars m) <= fuel ->
  exists m' ts, generate_data fuel m T rnd = Ok (m', ts) /\ model_ok card m' /\ same_model (all_marked m) m' /\
    topological m (ts_observed ts) /\ length (ts_data ts) = T /\ series_ok m ts /\ states_ok card ts /\
    (m_out m <> [] \/ (conditional_slices card m /\ positive_random rnd) ->
     forall t i, t < T -> i < length (m_vars m) -> drawn_from card (all_marked m) ts t i (rnd t i)) /\
    (conditional_slices card m -> positive_random rnd ->
     sum_steps card (all_marked m) T (unrolled (all_marked m) ts T T) <> 0%Qc).
Proof.
  intros card m T rnd fuel l HM HL Hf. unfold generate_data. cbv zeta.
  destruct (sampling_order_ok m (model_parents card m (so_model _ _ HM)) fuel l HL Hf) as (vars & E & PV).
  rewrite E. cbn [bind]. assert (HA := all_marked_slices card m HM). set (m0 := all_marked m) in *.
  assert (Ln : length (m_vars m0) = length (m_vars m)) by apply all_marked_len.
  assert (Lv : length vars = length (m_vars m)).
  { destruct PV as (P & _). apply Permutation_length in P. now rewrite seq_length in P. }
  assert (NDv : NoDup vars). { destruct PV as (P & _). eapply Permutation_NoDup; [symmetry; exact P|apply seq_NoDup]. }
  assert (HVv : forall v, In v vars -> v < length (m_vars m0)).
  { intros v Hv. destruct PV as (P & _). eapply Permutation_in in Hv; [|exact P]. apply in_seq in Hv. lia. }
  destruct (interface_potential_ok card m0 HA) as (alpha & E1 & W1 & D1). rewrite E1. cbn [bind].
  destruct (next_fresh card m0 HA m0 false (so_model _ _ HA) (same_model_refl m0)) as (m1 & m2 & E2 & E3 & F2).
  rewrite E2. cbn [bind]. rewrite E3. cbn [bind].
  destruct (generate_loop_ok card m0 HA) with (vars := vars) (rnd := rnd) (T := T) (m := m2) (alpha := alpha)
    as (m' & al' & d & E4 & M4 & S4 & O4 & L4 & T4 & X4 & P4); auto.
  { intros v Hv. unfold m0. rewrite all_marked_var by lia. reflexivity. }
  rewrite <- Lv, E4. cbn [bind]. exists m', (mkTS vars d). split; [reflexivity|]. split; auto. split; auto. split; auto.
  split; auto.
  split. { destruct O4 as (O1 & O2 & O3). split; auto. split; auto. rewrite <- Ln. auto. }
  split; auto. split.
  - intros HX t i Ht Hi. apply X4; [|auto|lia]. destruct HX as [HX|(CS & PR)]; [left; exact HX|right].
    split; auto. now apply conditional_marked.
  - intros CS PR. destruct T as [|T'].
    + unfold sum_steps. cbn. discriminate.
    + change (sum_steps card m0 (S T') (unrolled m0 (mkTS vars d) (S T') (S T'))) with (zev card m0 (mkTS vars d) T').
      apply P4; [|lia]. split; auto. now apply conditional_marked.
Qed.
