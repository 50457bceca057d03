(** * Proofs: the operations of one time step, part 2 *)
From Coq Require Import Permutation Field.
From Verif Require Import Base BaseProofs PotentialModel PotentialSpec PotentialProofs
  PotentialProofs2 PotentialProofs3 VariableModel VariableProofs JoinTreeModel
  AssignSpec AssignProofs JoinTreeSpec JoinTreeProofs JoinTreeProofs2 JoinTreeProofs3
  JoinTreeProofs4 JoinTreeProofs5 JoinTreeProofs6 JoinTreeProofs7 NipModel NipSpec NipProofs
  NipProofs2 NipProofs3 GatherProofs2 SliceModel SliceSpec SliceProofs SliceProofs2.
Import ListNotations.
Open Scope nat_scope.
Local Open Scope res_scope.

Add Field Qcfield_slice3 : Qcft.

(** No evidence yet. *)
Definition no_evidence (card : nat -> nat) (m : model) : Prop :=
  forall v, v < length (m_vars m) -> v_lik (var m v) = repeat 1%Qc (card v).

Lemma no_evidence_one : forall card m a, no_evidence card m -> valid card a -> evidence m a = 1%Qc.
Proof.
  intros card m a H Ha. unfold evidence, weight. apply qprod_ones. intros v Hv. apply in_seq in Hv.
  rewrite H by lia. now apply at_ones.
Qed.

(** ** Entering the data of one step *)
Definition agrees1 (m : model) (ts : time_series) (t : nat) (a : nat -> nat) (j : nat) : bool :=
  let v := nth j (ts_observed ts) 0 in
  (Nat.eqb (Nat.land (v_mark (var m v)) MARK_ON) 0 || (entry ts t j <? 0)%Z ||
   (entry ts t j =? Z.of_nat (a v))%Z)%bool.

Lemma at_indicator : forall card v k a, valid card a ->
  at_state (indicator (card v) k) v a = given (k =? Z.of_nat (a v))%Z 1%Qc.
Proof.
  intros card v k a Ha. unfold at_state, indicator.
  rewrite (nth_map _ _ _ _ _ 0) by (rewrite seq_length; apply Ha). rewrite seq_nth by apply Ha.
  rewrite Z.eqb_sym. reflexivity.
Qed.

Lemma insert_ok : forall card m ts t F, model_ok card m -> series_ok m ts -> t < length (ts_data ts) ->
  represents card m F -> no_evidence card m ->
  exists m', insert_ts_step ts (Z.of_nat t) m MARK_ON = Ok (m', NO_ERROR) /\ model_ok card m' /\ same_model m m' /\
    represents card m' F /\ (forall a, valid card a -> evidence m' a = given (agrees m ts t a) 1%Qc) /\
    (forall a, valid card a -> joint (m_jt m') a = given (agrees m ts t a) (original m a * F a))%Qc.
Proof.
  intros card m ts t F HM (ND & HV & HL) Ht HR HN. unfold insert_ts_step.
  replace ((Z.of_nat t <? 0) || (Z.of_nat (length (ts_data ts)) <=? Z.of_nat t))%Z%bool with false.
  2: { symmetry. apply orb_false_iff. split; [apply Z.ltb_ge|apply Z.leb_gt]; lia. }
  rewrite Nat2Z.id.
  set (row := nth t (ts_data ts) []).
  assert (Lr : length row = length (ts_observed ts)).
  { rewrite Forall_forall in HL. apply HL. apply nth_In. auto. }
  match goal with |- context [for_up 0 ?n ?b ?s] =>
    destruct (for_up_inv model (fun i m' => model_ok card m' /\ same_model m m' /\ represents card m' F /\
       (forall j, i <= j < length (ts_observed ts) -> v_lik (var m' (nth j (ts_observed ts) 0)) =
            repeat 1%Qc (card (nth j (ts_observed ts) 0))) /\
       forall a, valid card a -> evidence m' a = given (forallb (agrees1 m ts t a) (seq 0 i)) 1%Qc) b 0 n s)
      as (m1 & E1 & A1 & A2 & A3 & A4 & A5) end.
  { lia. }
  { split; auto. split; [apply same_model_refl|]. split; auto. split.
    - intros j Hj. apply HN. apply HV. apply nth_In. lia.
    - intros a Ha. now apply (no_evidence_one card). }
  { intros i mi Hi (B1 & B2 & B3 & B4 & B5).
    assert (Li : length (m_vars mi) = length (m_vars m)) by apply B2.
    rewrite (rd_ok _ (ts_observed ts) i 0) by lia. cbn [bind].
    set (v := nth i (ts_observed ts) 0) in *.
    assert (Hv : v < length (m_vars m)) by (apply HV; apply nth_In; lia).
    rewrite rd_var by lia. cbn [bind].
    assert (Mk : v_mark (var mi v) = v_mark (var m v)).
    { destruct B2 as (_ & _ & SV & _). apply SV. }
    rewrite Mk.
    assert (SQ : forall a, forallb (agrees1 m ts t a) (seq 0 (S i)) =
       (forallb (agrees1 m ts t a) (seq 0 i) && agrees1 m ts t a i)%bool).
    { intros a. rewrite seq_S, forallb_app. simpl. now rewrite andb_true_r. }
    destruct (Nat.eqb (Nat.land (v_mark (var m v)) MARK_ON) 0) eqn:EM.
    { exists mi. split; [reflexivity|]. split; auto. split; auto. split; auto.
      split; [intros j Hj; apply B4; lia|]. intros a Ha. rewrite SQ. unfold agrees1 at 2. fold v. rewrite EM.
      cbn [orb]. rewrite andb_true_r. auto. }
    rewrite (rd_ok _ (ts_data ts) t []) by auto. cbn [bind]. fold row.
    rewrite (rd_ok _ row i 0%Z) by lia. cbn [bind].
    assert (EE : nth i row 0%Z = entry ts t i) by reflexivity. rewrite EE.
    destruct (Z.leb_spec 0 (entry ts t i)) as [P|P].
    2: { exists mi. split; [reflexivity|]. split; auto. split; auto. split; auto.
      split; [intros j Hj; apply B4; lia|]. intros a Ha. rewrite SQ. unfold agrees1 at 2.
      rewrite (proj2 (Z.ltb_lt _ _) P). rewrite orb_true_r. cbn [orb]. rewrite andb_true_r. auto. }
    rewrite (enter_index_ok card) by (auto; lia).
    set (e := indicator (card v) (entry ts t i)).
    destruct (enter_evidence_ok card mi v e F B1 B3) as (m' & Ee & C1 & C2 & C3 & C4 & C5 & C6); [lia|apply indicator_ok|].
    rewrite Ee. cbn [bind]. exists m'. split; [reflexivity|]. split; auto.
    split; [eapply same_model_trans; eauto|].
    assert (Ones : v_lik (var mi v) = repeat 1%Qc (card v)) by (apply B4; lia).
    split. { apply C6. intros (k & Hk & K1 & _). rewrite Ones in K1, Hk. rewrite repeat_length in Hk.
      rewrite nth_repeat_lt in K1 by auto. discriminate. }
    split. { intros j Hj. rewrite C3. destruct (Nat.eqb_spec (nth j (ts_observed ts) 0) v) as [K|K].
      - unfold v in K. apply (proj1 (NoDup_nth _ 0) ND) in K; lia.
      - apply B4. lia. }
    intros a Ha. rewrite SQ.
    assert (EV : evidence m' a = (at_state e v a * evidence mi a)%Qc).
    { unfold evidence. assert (L' : length (m_vars m') = length (m_vars mi)) by apply C2. rewrite L'.
      rewrite (weight_ext _ (fun w => v_lik (var m' w)) (fun w => if Nat.eqb w v then e else v_lik (var mi w))) by auto.
      destruct (weight_change (length (m_vars mi)) (fun w => v_lik (var mi w)) v e a) as (r & R1 & R2); [lia|].
      rewrite R1, R2. rewrite Ones, at_ones by auto. ring. }
    rewrite EV, B5 by auto. unfold e. rewrite at_indicator by auto.
    assert (AI : agrees1 m ts t a i = (entry ts t i =? Z.of_nat (a v))%Z).
    { unfold agrees1. fold v. rewrite EM. now rewrite (proj2 (Z.ltb_ge _ _) P). }
    rewrite AI.
    destruct (forallb (agrees1 m ts t a) (seq 0 i)), (_ =? _)%Z; cbn [given andb]; ring. }
  rewrite E1. cbn [bind]. exists m1. split; [reflexivity|]. split; auto. split; auto.
  split; auto. split; auto. intros a Ha. rewrite A3, A5 by auto. rewrite (same_original m m1 a A2).
  change (agrees m ts t a) with (forallb (agrees1 m ts t a) (seq 0 (length (ts_observed ts)))).
  destruct (forallb _ _); cbn [given]; ring.
Qed.

(** ** Results *)
Lemma marginal_vector_ok : forall card m v k r, model_ok card m -> calibrated card (m_jt m) ->
  v < length (m_vars m) -> k < length (cls (m_jt m)) -> In v (c_vars (clq (m_jt m) k)) -> length r = card v ->
  exists r', marginalise_clique (m_jt m) k v r = Ok (r', NO_ERROR) /\ length r' = card v /\
    normalise_array r' (card v) = Ok (normalised r') /\ length (normalised r') = card v /\
    forall x, x < card v -> nth x (normalised r') 0%Qc =
      (sum_where card m (joint (m_jt m)) v x / sum_all card m (joint (m_jt m)))%Qc.
Proof.
  intros card m v k r HM HC Hv Hk Iv Lr.
  destruct (marginalise_clique_ok card (m_jt m) k v r (mo_shape _ _ HM) Hk Iv Lr) as (r' & E & L' & H).
  exists r'. split; auto. split; auto. split. { rewrite <- L'. apply normalise_array_ok. }
  split. { now rewrite normalised_length. }
  assert (Hx : forall x, x < card v -> nth x r' 0%Qc = sum_where card m (joint (m_jt m)) v x).
  { intros x Hx. unfold sum_where.
    assert (Va : valid card (upd (fun _ => 0) v x)) by (apply upd_valid; auto; now apply (zero_valid card m)).
    specialize (H _ Va). rewrite upd_same in H. rewrite H.
    apply (clique_interface card); auto.
    - repeat constructor. auto.
    - intros y [<-|[]]. auto. }
  assert (Tot : qsum r' = sum_all card m (joint (m_jt m))).
  { rewrite <- (sum_where_total card m (joint (m_jt m)) v HM Hv (joint_is_ext _)).
    rewrite <- (map_nth_seq Qc 0%Qc r') at 1. rewrite L'. apply qsum_map_ext. intros x Hx'. apply in_seq in Hx'.
    apply Hx. lia. }
  intros x Hx'. unfold normalised. rewrite Tot. rewrite <- Hx by auto.
  destruct (qzero (sum_all card m (joint (m_jt m)))) eqn:Z.
  - apply qzero_true in Z. rewrite Z. unfold Qcdiv. rewrite Qcinv_0.
    rewrite Hx by auto.
    assert (Zx : sum_where card m (joint (m_jt m)) v x = 0%Qc).
    { rewrite <- (sum_where_total card m (joint (m_jt m)) v HM Hv (joint_is_ext _)) in Z.
      eapply qsum_zero_inv; [|exact Z|].
      - intros y Hy. apply in_map_iff in Hy. destruct Hy as (z & <- & Hz). apply in_seq in Hz.
        unfold sum_where. apply sumv_nonneg.
        + apply upd_valid; [now apply (zero_valid card m)|lia].
        + intros b Hb. apply (joint_nonneg card); auto; apply HM.
      - apply in_map. apply in_seq. lia. }
    rewrite Zx. ring.
  - rewrite (nth_map _ _ _ _ _ 0%Qc) by lia. reflexivity.
Qed.

(** A row of results for the listed variables. *)
Definition row_shape (card : nat -> nat) (vars : list nat) (row : list (list Qc)) : Prop :=
  length row = length vars /\
  forall i, i < length vars -> length (nth i row []) = card (nth i vars 0).

Lemma write_results_ok : forall card m vars row, model_ok card m -> calibrated card (m_jt m) ->
  (forall v, In v vars -> v < length (m_vars m)) -> row_shape card vars row ->
  exists m' row', write_results m vars row = Ok (m', row') /\ model_ok card m' /\ same_model m m' /\
    m_jt m' = m_jt m /\ row_shape card vars row' /\
    forall i x, i < length vars -> x < card (nth i vars 0) ->
      nth x (nth i row' []) 0%Qc =
      (sum_where card m (joint (m_jt m)) (nth i vars 0%nat) x / sum_all card m (joint (m_jt m)))%Qc.
Proof.
  intros card m vars row HM HC HV (LR & HR). unfold write_results.
  match goal with |- context [for_up 0 ?n ?b ?s] =>
    destruct (for_up_inv (model * list (list Qc)) (fun k '(m', row') => model_ok card m' /\ same_model m m' /\
       m_jt m' = m_jt m /\ row_shape card vars row' /\
       forall i x, i < k -> x < card (nth i vars 0) ->
         nth x (nth i row' []) 0%Qc =
         (sum_where card m (joint (m_jt m)) (nth i vars 0%nat) x / sum_all card m (joint (m_jt m)))%Qc) b 0 n s)
      as ((m1 & row1) & E1 & A1 & A2 & A3 & A4 & A5) end.
  { lia. }
  { split; auto. split; [apply same_model_refl|]. split; auto. split; [split; auto|]. intros; lia. }
  { intros i (mi, ri) Hi (B1 & B2 & B3 & (B4 & B4') & B5).
    assert (Li : length (m_vars mi) = length (m_vars m)) by apply B2.
    rewrite (rd_ok _ vars i 0) by lia. cbn [bind]. set (v := nth i vars 0) in *.
    assert (Hv : v < length (m_vars m)) by (apply HV; apply nth_In; lia).
    destruct (find_family_ok card mi v B1) as (mf & k & Ef & F1 & F2 & F3 & F4 & F5 & F6 & F7 & _); [lia|].
    rewrite Ef. cbn [bind]. rewrite (rd_ok _ ri i []) by lia. cbn [bind].
    assert (Lf : length (m_vars mf) = length (m_vars m)) by (rewrite <- Li; apply F2).
    destruct (marginal_vector_ok card mf v k (nth i ri []) F1) as (r' & Er & Lr & En & Ln & Hn).
    { rewrite F3, B3. auto. } { lia. } { rewrite F3. auto. } { rewrite F3. apply F7. simpl; auto. }
    { apply B4'. lia. }
    rewrite Er. cbn [bind]. rewrite rd_var by lia. cbn [bind].
    assert (Cv : v_card (var mf v) = card v) by (apply (mo_var _ _ F1); lia). rewrite Cv, En. cbn [bind].
    rewrite wr_ok by lia. cbn [bind]. eexists. split; [reflexivity|]. cbn beta iota.
    split; auto. split; [eapply same_model_trans; eauto|]. split; [congruence|]. split.
    { split; [now rewrite set_nth_length|]. intros j Hj. rewrite nth_set_nth by lia.
      destruct (Nat.eqb_spec j i) as [->|]; auto. }
    intros j x Hj Hx. rewrite nth_set_nth by lia.
    destruct (Nat.eqb_spec j i) as [->|]; [|apply B5; auto; lia].
    fold v in Hx |- *. rewrite Hn by auto. rewrite F3, B3. unfold sum_where, sum_all. now rewrite Lf. }
  rewrite E1. exists m1, row1. split; [reflexivity|]. auto.
Qed.

Lemma new_results_ok : forall card m vars T, model_ok card m -> (forall v, In v vars -> v < length (m_vars m)) ->
  exists rs, new_results m vars T = Ok rs /\ length rs = T /\ forall t, t < T -> row_shape card vars (nth t rs []).
Proof.
  intros card m vars T HM HV. unfold new_results.
  match goal with |- context [for_up 0 ?n ?b ?s] =>
    destruct (for_up_inv (list (list Qc)) (fun k row => length row = length vars /\
       forall i, i < k -> length (nth i row []) = card (nth i vars 0)) b 0 n s)
      as (row & E & A1 & A2) end.
  { lia. }
  { split; [apply repeat_length|]. intros; lia. }
  { intros i row Hi (B1 & B2). rewrite (rd_ok _ vars i 0) by lia. cbn [bind].
    assert (Hv : nth i vars 0 < length (m_vars m)) by (apply HV; apply nth_In; lia).
    rewrite rd_var by auto. cbn [bind]. rewrite wr_ok by lia. eexists. split; [reflexivity|].
    split; [now rewrite set_nth_length|]. intros j Hj. rewrite nth_set_nth by lia.
    destruct (Nat.eqb_spec j i) as [->|]; [|apply B2; lia]. rewrite repeat_length. apply (mo_var _ _ HM). auto. }
  rewrite E. cbn [bind]. eexists. split; [reflexivity|]. split; [apply repeat_length|].
  intros t Ht. rewrite nth_repeat_lt by auto. split; auto.
Qed.

(** ** The interface potential *)
Lemma interface_potential_ok : forall card m, slices_ok card m ->
  exists p, interface_potential m = Ok p /\ wf p /\ dims p = map card (m_out m).
Proof.
  intros card m HM. unfold interface_potential. assert (MO := so_model _ _ HM).
  destruct (so_out_clique _ _ HM) as (Hc & HI).
  assert (TC := shape_clq card (m_jt m) _ (mo_shape _ _ MO) Hc).
  set (C := c_vars (clq (m_jt m) (m_out_clique m))) in *.
  match goal with |- context [for_up 0 ?n ?b ?s] =>
    destruct (for_up_inv (list nat) (fun k l => length l = n /\ forall i, i < k -> nth i l 0 = card (nth i (m_out m) 0)) b 0 n s)
      as (l & E & A1 & A2) end.
  { lia. }
  { split; [apply repeat_length|]. intros; lia. }
  { intros i row Hi (B1 & B2). rewrite (rd_ok _ (m_out m) i 0) by lia. cbn [bind].
    assert (Hv : nth i (m_out m) 0 < length (m_vars m)).
    { apply (mo_scope _ _ MO (m_out_clique m)); auto. apply HI. apply nth_In. lia. }
    rewrite rd_var by auto. cbn [bind]. rewrite wr_ok by lia. eexists. split; [reflexivity|].
    split; [now rewrite set_nth_length|]. intros j Hj. rewrite nth_set_nth by lia.
    destruct (Nat.eqb_spec j i) as [->|]; [|apply B2; lia]. apply (mo_var _ _ MO). auto. }
  rewrite E. cbn [bind].
  assert (El : l = map card (m_out m)).
  { apply (list_ext_nth _ 0); [now rewrite map_length|]. intros i Hi.
    rewrite (nth_map _ _ _ _ _ 0 0) by lia. apply A2. lia. }
  assert (FN : firstn (length (m_out m)) l = map card (m_out m)) by (rewrite El, <- (map_length card (m_out m)); apply firstn_all).
  destruct (new_potential_ok l (length (m_out m)) None) as (p & Ep & Wp & Dp & _).
  - rewrite FN. assert (HC := shape_card card _ (mo_shape _ _ MO)). split.
    + apply Forall_forall. intros d Hd. apply in_map_iff in Hd. destruct Hd as (v & <- & _). auto.
    + destruct TC as (NC & (_ & _ & WB) & DC). rewrite DC in WB.
      rewrite (prod_perm _ _ (Permutation_map card (split_perm C (m_out m) NC (so_out _ _ HM) HI))) in WB.
      rewrite map_app, prod_app in WB.
      assert (0 < prod (map card (minus C (m_out m)))).
      { apply prod_pos. apply Forall_forall. intros d Hd. apply in_map_iff in Hd. destruct Hd as (v & <- & _). auto. }
      nia.
  - lia.
  - exact Logic.I.
  - rewrite Ep. cbn [bind]. exists p. rewrite FN in Dp. auto.
Qed.

(** ** Masses *)
Lemma mass_ok : forall card m, model_ok card m -> calibrated card (m_jt m) ->
  exists jt', model_prob_mass m = Ok (set_jt m jt', sum_all card m (joint (m_jt m))) /\
    model_ok card (set_jt m jt') /\ same_model m (set_jt m jt') /\ calibrated card jt' /\
    forall a, joint jt' a = joint (m_jt m) a.
Proof.
  intros card m HM HC. unfold model_prob_mass.
  destruct (probability_mass_ok card (m_jt m) (fun _ => 0) (mo_shape _ _ HM) (mo_nonneg _ _ HM) (mo_tree _ _ HM)
    (mo_rip _ _ HM) HC (zero_valid card m HM)) as (jt' & E & MO).
  rewrite E. cbn [bind]. exists jt'.
  destruct (marks_only_same _ _ MO) as (SH & PH & PS).
  assert (J : forall a, joint jt' a = joint (m_jt m) a).
  { intros a. destruct (shape_len _ _ SH) as (L1 & L2). apply joint_ext; auto. }
  split.
  { do 2 f_equal. unfold sum_all. apply sumv_perm; [|apply joint_is_ext]. now apply (all_vars_model card). }
  split. { apply model_ok_jt; auto; [apply (marks_only_ok card (m_jt m)); auto|apply (marks_only_nonneg (m_jt m)); auto]; apply HM. }
  split; [now apply same_model_jt|]. split; auto.
  intros s i a Hs Hi Ha. destruct SH as (L1 & L2 & SC & SS). rewrite PS.
  destruct (SS s) as (-> & E1 & E2). destruct (SC i) as (-> & _).
  rewrite (HC s i a) by (auto; try lia; congruence).
  apply sumv_ext; auto.
Qed.

Lemma reference_mass_ok : forall card m ll F, model_ok card m -> represents card m F ->
  exists m' z, reference_mass m ll = Ok (m', z) /\ model_ok card m' /\ same_model m m' /\
    represents card m' F /\ (forall v, v_lik (var m' v) = v_lik (var m v)) /\
    (ll = true -> z = sum_all card m (joint (m_jt m))).
Proof.
  intros card m ll F HM HR. unfold reference_mass. destruct ll.
  - destruct (make_consistent_model_ok card m HM) as (jt' & E & Ej & M1 & S1 & C1 & J1). rewrite E. cbn [bind].
    destruct (mass_ok card _ M1 C1) as (j2 & E2 & M2 & S2 & C2 & J2). rewrite E2.
    eexists. eexists. split; [reflexivity|]. split; [exact M2|].
    assert (SM : same_model m (set_jt (set_jt m jt') j2)) by (eapply same_model_trans; eauto).
    split; auto. split.
    + change (set_jt (set_jt m jt') j2) with (set_jt m j2) in *. apply represents_jt; auto; [apply SM|].
      intros a Ha. rewrite J2. cbn [m_jt set_jt]. auto.
    + split; auto. intros _. unfold sum_all. cbn [m_vars m_jt set_jt].
      apply sumv_ext; auto. now apply (zero_valid card m).
  - exists m, 0%Qc. split; auto. split; auto. split; [apply same_model_refl|]. split; auto. split; auto. discriminate.
Qed.

Lemma evidence_mass_ok : forall card m ll m1 l, model_ok card m -> calibrated card (m_jt m) ->
  exists m' l', evidence_mass m ll m1 l = Ok (m', l') /\ model_ok card m' /\ same_model m m' /\
    calibrated card (m_jt m') /\ (forall a, joint (m_jt m') a = joint (m_jt m) a) /\
    l' = if ll then l ++ [(m1, sum_all card m (joint (m_jt m)))] else l.
Proof.
  intros card m ll m1 l HM HC. unfold evidence_mass. destruct ll.
  - destruct (mass_ok card m HM HC) as (j2 & E2 & M2 & S2 & C2 & J2). rewrite E2. cbn [bind].
    destruct (Qclt_le_dec (sum_all card m (joint (m_jt m))) 0%Qc) as [K|K].
    + exfalso. apply Qclt_not_le in K. apply K. apply sumv_nonneg; [now apply (zero_valid card m)|].
      intros b Hb. apply (joint_nonneg card); auto; apply HM.
    + eexists. eexists. split; [reflexivity|]. split; auto.
  - exists m, l. split; auto. split; auto. split; [apply same_model_refl|]. auto.
Qed.

(** ** The next slice *)
Definition slice_priors (m : model) (hist : bool) (a : nat -> nat) : Qc :=
  priors m (if hist then filter (fun v => negb (existsb (Nat.eqb v) (m_prev m))) (m_indep m) else m_indep m) a.

Lemma next_slice_ok : forall card m hist, slices_ok card m ->
  exists m1 m', reset_model m = Ok m1 /\ use_priors m1 hist = Ok m' /\ model_ok card m' /\ same_model m m' /\
    no_evidence card m' /\ represents card m' (slice_priors m hist).
Proof.
  intros card m hist HM. assert (MO := so_model _ _ HM).
  destruct (reset_model_ok card m MO) as (m1 & E1 & M1 & S1 & L1 & R1 & _).
  destruct (use_priors_ok card m1 hist _ M1 R1) as (m2 & E2 & M2 & S2 & L2 & _ & R2).
  exists m1, m2. split; auto. split; auto. split; auto.
  assert (SM : same_model m m2) by (eapply same_model_trans; eauto). split; auto.
  assert (Lv : length (m_vars m2) = length (m_vars m)) by apply SM.
  split. { intros v Hv. rewrite L2. apply L1. lia. }
  eapply represents_ext; [|exact R2]. intros a Ha. cbv beta. rewrite (same_priors m m1 _ a S1).
  assert (P : pending m1 hist = if hist then filter (fun v => negb (existsb (Nat.eqb v) (m_prev m))) (m_indep m) else m_indep m).
  { unfold pending. assert (EI : m_indep m1 = m_indep m) by apply S1. rewrite EI.
    destruct (mo_indep _ _ MO) as (_ & HI).
    destruct hist.
    - apply filter_ext_in. intros v Hv. destruct (L1 v) as (_ & ->); [apply HI; auto|]. cbn [negb orb andb].
      destruct S1 as (_ & _ & SV & _). destruct (SV v) as (_ & _ & _ & -> & _).
      now rewrite (so_old _ _ HM v Hv).
    - rewrite (filter_ext_in _ (fun _ => true)).
      + clear. induction (m_indep m); cbn; congruence.
      + intros v Hv. destruct (L1 v) as (_ & ->); [apply HI; auto|]. reflexivity. }
  rewrite P. unfold slice_priors. ring.
Qed.
