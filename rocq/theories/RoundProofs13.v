(** * Rounded arithmetic: the operations of one time step *)
From Coq Require Import ZArith QArith Qcanon Field Lia Permutation String.
From Verif Require Import Base BaseProofs PotentialModel PotentialSpec PotentialProofs PotentialProofs2
  PotentialProofs3 VariableModel VariableProofs JoinTreeModel AssignSpec AssignProofs JoinTreeSpec
  JoinTreeProofs JoinTreeProofs2 JoinTreeProofs3 JoinTreeProofs4 JoinTreeProofs5 JoinTreeProofs6 JoinTreeProofs7
  NipModel NipSpec NipProofs NipProofs2 NipProofs3 GatherProofs2 SliceModel SliceSpec SliceProofs SliceProofs2
  SliceProofs3 RoundModel RoundSpec RoundProofs RoundProofs3
  RoundProofs4 RoundProofs5 RoundProofs6 RoundProofs7 RoundProofs8 RoundProofs9.
Import ListNotations.
Open Scope nat_scope.
Local Open Scope list_scope.
Local Open Scope res_scope.
Add Field QcfieldRound13 : Qcft.

Section Steps.
Variable u : Qc.
Variable fl : Qc -> Qc.
Hypothesis Hu0 : (0 <= u)%Qc.
Hypothesis Hu1 : (u < 1)%Qc.
Hypothesis Hfl : forall x, (0 <= x)%Qc -> near u 1 x (fl x).
Variable card : nat -> nat.
Variable N : nat.
Local Notation rrep := (rrep u card).

(** ** The table of a clique is replaced by a multiple *)
Lemma r_scale_clique_ok : forall K m c p (g : (nat -> nat) -> Qc), model_ok card m -> c < length (cls (m_jt m)) ->
  table card (c_vars (clq (m_jt m) c)) p ->
  (forall a, valid card a -> near u K (phi (m_jt m) c a * g a)%Qc (den (c_vars (clq (m_jt m) c)) p a)) ->
  exists jt', put_clique (m_jt m) c (set_p (clq (m_jt m) c) p) = Ok jt' /\
    same_shape (m_jt m) jt' /\ shape_ok card jt' /\ tables_nonneg jt' /\
    forall a, valid card a -> near u K (joint (m_jt m) a * g a)%Qc (joint jt' a).
Proof.
  intros K m c p g HM Hc Tp Hp.
  assert (HS := mo_shape _ _ HM). set (jt := m_jt m) in *.
  assert (HS' := HS). destruct HS' as (HC & HCl & HSp).
  rewrite put_clique_ok by auto.
  set (jt' := mkJT (set_nth (cls jt) c (set_p (clq jt c) p)) (sps jt)).
  exists jt'. split; [reflexivity|].
  assert (Q : forall k, clq jt' k = if Nat.eqb k c then set_p (clq jt c) p else clq jt k).
  { intros k. unfold jt'. rewrite clq_set by auto. now rewrite jt_eta. }
  assert (QS : forall k, sep jt' k = sep jt k) by reflexivity.
  assert (SH : same_shape jt jt').
  { split; [cbn; apply set_nth_length|]. split; [reflexivity|]. split; [|intros; auto].
    intros k. rewrite Q. destruct (Nat.eqb_spec k c) as [->|]; auto. }
  assert (SO : shape_ok card jt').
  { apply (shape_ok_change card jt); auto.
    - intros k Hk. rewrite Q. destruct (Nat.eqb_spec k c) as [->|]; auto. now apply HCl.
    - intros s Hs. rewrite QS. now apply HSp.
    - intros s Hs. rewrite QS. now apply HSp. }
  assert (PH : forall a, valid card a -> near u K (phi jt c a * g a)%Qc (phi jt' c a)).
  { intros a Ha. assert (Z := Hp a Ha). unfold phi at 2. rewrite Q, Nat.eqb_refl. exact Z. }
  assert (L1 : length (cls jt') = length (cls jt)) by (apply SH).
  split; auto. split; auto. split.
  - apply (nonneg_intro card); auto.
    + intros i a Hk Ha. rewrite L1 in Hk. destruct (Nat.eq_dec i c) as [->|Nc].
      * exact (proj2 (near_nonneg u Hu0 Hu1 _ _ _ (PH a Ha))).
      * replace (phi jt' i a) with (phi jt i a). { apply (phi_nonneg card); auto. apply HM. }
        unfold phi. rewrite Q. destruct (Nat.eqb_spec i c); congruence.
    + intros s a Hs Ha. apply (psi_nonneg card jt s a); auto. apply HM.
  - intros a Ha. unfold joint. rewrite L1.
    destruct (qprod_change1_nn (fun i => phi jt' i a) (fun i => phi jt i a) (length (cls jt)) c Hc)
      as (r & R1 & R2 & R3).
    { intros i Nc. unfold phi. rewrite Q. destruct (Nat.eqb_spec i c); congruence. }
    { intros i Hi. apply (phi_nonneg card); auto. apply HM. }
    rewrite R1, R2. cbv beta.
    change (length (sps jt')) with (length (sps jt)). change (psi jt') with (psi jt).
    set (d := qprod (map (fun s => psi jt s a) (seq 0 (length (sps jt))))).
    replace (phi jt c a * r / d * g a)%Qc with (phi jt c a * g a * r / d)%Qc by (unfold Qcdiv; ring).
    apply near_div_r; auto; [|apply near_mul_r; auto].
    apply qprod_nonneg. intros x Hx. apply in_map_iff in Hx. destruct Hx as (s & <- & Hs). apply in_seq in Hs.
    apply (psi_nonneg card); auto. apply HM. lia.
Qed.

Lemma r_absorb_table_none : forall C S num target m,
  nonneg target -> nonneg num -> (forall v, 0 < card v) ->
  table card C target -> table card S num ->
  length S <= length C -> length m = length S -> Forall (fun k => k < length C) m ->
  (forall b : nat -> nat, sel m (map b C) = map b S) ->
  exists t', r_update_potential (rt fl) (Some num) None target m = Ok (t', NO_ERROR) /\
    table card C t' /\
    forall a, valid card a -> near u 1 (den C target a * den S num a)%Qc (den C t' a).
Proof.
  intros C S num target m PT PN HC0 TC TN. assert (TC' := TC). assert (TN' := TN). revert TC' TN'.
  intros (NC & WC & DC) (NS & WS & DS) HL Hlm HF Hm.
  destruct (r_update_potential_ok fl (Some num) None target m) as (t' & E & D & W & H); auto.
  - left. discriminate.
  - cbn. split; auto. split.
    + rewrite DC, map_length. auto.
    + rewrite DC, DS. apply Hm.
  - exact Logic.I.
  - unfold dimensionality. rewrite DC, map_length. lia.
  - exists t'. split; [exact E|]. split; [repeat split; auto; try congruence; apply W|].
    intros a Ha. unfold den. rewrite H by (rewrite DC; now apply valid_ix_map). cbn [option_map]. rewrite Hm.
    apply (absorb1_near u fl Hu0 Hu1 Hfl (Some _) None); auto.
    + now apply (den_nonneg card C target a).
    + intros y Ey. inversion Ey; subst. now apply (den_nonneg card S num a).
    + intros y Ey. discriminate Ey.
Qed.

(** ** The incoming message *)
Lemma r_finish_ok : forall k m dir num den0 F, slices_ok card m -> rrep k m F ->
  interface_table card m num ->
  match den0 with Some d => interface_table card m d | None => True end ->
  exists m', r_finish_message (rt fl) m dir num den0 = Ok m' /\ model_ok card m' /\ same_model m m' /\
    (forall w, v_lik (var m' w) = v_lik (var m w)) /\
    rrep (k + 2) m' (fun a => F a * (cell num (map a (in_vars m dir)) *
      match den0 with Some d => / cell d (map a (in_vars m dir)) | None => 1 end))%Qc.
Proof.
  intros k m dir num den0 F HM HR (WN & DN & NN & ON) HD. unfold r_finish_message.
  destruct (in_vars_ok card m dir HM) as (ND & Hc & HI & HL & HK).
  assert (MO := so_model _ _ HM).
  destruct (Nat.eqb_spec (length (m_out m)) 0) as [Z|NZ].
  - exists m. split; [reflexivity|]. split; auto. split; [apply same_model_refl|]. split; auto.
    apply length_zero_iff_nil in Z.
    assert (in_vars m dir = []) as -> by (apply length_zero_iff_nil; now rewrite HL, Z).
    apply (rrep_le u Hu0 Hu1 card k); [lia|]. eapply rrep_ext; [|exact HR].
    intros a Ha. cbv beta. cbn [map]. rewrite ON by auto. destruct den0 as [d|].
    + destruct HD as (_ & _ & _ & OD). rewrite OD by auto. field. discriminate.
    + ring.
  - change (match dir with FORWARD => m_in_clique m | BACKWARD => m_out_clique m end) with (in_clique m dir).
    change (match dir with FORWARD => m_prev m | BACKWARD => m_out m end) with (in_vars m dir).
    rewrite rd_clq by auto. cbn [bind].
    assert (TC := shape_clq card (m_jt m) _ (mo_shape _ _ MO) Hc).
    set (c := in_clique m dir) in *. set (V := in_vars m dir) in *.
    rewrite (table_dim card _ _ TC). rewrite <- HL.
    assert (NC : NoDup (c_vars (clq (m_jt m) c))) by apply TC.
    destruct (mapper_vars _ V NC ND HI) as (mp & Em & Lm & LV & Fm & Sm).
    rewrite Em. cbn [bind].
    assert (TN : table card V num) by (split; auto; split; auto; now rewrite HK).
    assert (HC0 := shape_card card _ (mo_shape _ _ MO)).
    assert (PT : nonneg (c_p (clq (m_jt m) c))) by (now apply (proj1 (mo_nonneg _ _ MO))).
    set (g := fun a => (cell num (map a V) * match den0 with Some d => / cell d (map a V) | None => 1 end)%Qc).
    assert (U : exists p, r_update_potential (rt fl) (Some num) den0 (c_p (clq (m_jt m) c)) (unarr mp) = Ok (p, NO_ERROR) /\
       table card (c_vars (clq (m_jt m) c)) p /\
       forall a, valid card a -> near u 2 (phi (m_jt m) c a * g a)%Qc (den (c_vars (clq (m_jt m) c)) p a)).
    { destruct den0 as [d|].
      - destruct HD as (WD & DD & ND0 & _).
        assert (TD : table card V d) by (split; auto; split; auto; now rewrite HK).
        destruct (r_absorb_table u fl Hu0 Hu1 Hfl card _ V num d _ (unarr mp) HC0 PT NN ND0 TC TN TD LV Lm Fm Sm) as (p & E & Tp & Hp).
        exists p. split; auto. split; auto. intros a Ha. specialize (Hp a Ha).
        replace (phi (m_jt m) c a * g a)%Qc with
          (den (c_vars (clq (m_jt m) c)) (c_p (clq (m_jt m) c)) a * den V num a / den V d a)%Qc; [exact Hp|].
        unfold g, phi, den, Qcdiv. ring.
      - destruct (r_absorb_table_none _ V num _ (unarr mp) PT NN HC0 TC TN LV Lm Fm Sm) as (p & E & Tp & Hp).
        exists p. split; auto. split; auto. intros a Ha. apply (near_le u Hu0 Hu1 1); [lia|].
        specialize (Hp a Ha). unfold g. rewrite Qcmult_1_r. exact Hp. }
    destruct U as (p & Ep & Tp & Hp). rewrite Ep. cbn [bind].
    destruct (r_scale_clique_ok 2 m c p g MO Hc Tp Hp) as (jt' & Ej & S1 & S2 & S3 & S4).
    rewrite Ej. cbn [bind]. eexists. split; [reflexivity|].
    split; [now apply model_ok_jt|]. assert (SM : same_model m (set_jt m jt')) by (now apply same_model_jt).
    split; auto. split; auto. intros a Ha. cbn [m_jt set_jt].
    rewrite (same_original m _ a SM).
    change (evidence (set_jt m jt') a) with (evidence m a).
    eapply (near_trans u Hu0 Hu1); [|exact (S4 a Ha)]. 
    replace (original m a * evidence m a * (F a * (cell num (map a V) * match den0 with Some d => / cell d (map a V) | None => 1 end)))%Qc
      with (original m a * evidence m a * F a * g a)%Qc by (unfold g; ring).
    apply near_mul_r; auto.
    unfold g. apply Qc_mul_nonneg; [now apply (den_nonneg card V num a TN NN)|].
    destruct den0 as [d|]; [|discriminate]. apply Qc_inv_nonneg. destruct HD as (WD & DD & ND0 & _).
    apply (den_nonneg card V d a); auto. split; auto. split; auto. now rewrite HK.
Qed.

(** ** The outgoing message *)
Lemma r_clique_interface : forall m c V a, model_ok card m -> rcalibrated u card (N + 2) (m_jt m) ->
  c < length (cls (m_jt m)) -> NoDup V -> incl V (c_vars (clq (m_jt m) c)) -> valid card a ->
  near u (length (sps (m_jt m)) * (N + 2))
    (sumv card (minus (seq 0 (length (m_vars m))) V) (joint (m_jt m)) a)
    (sumv card (minus (c_vars (clq (m_jt m) c)) V) (phi (m_jt m) c) a).
Proof.
  intros m c V a HM HC Hc ND HI Ha. set (C := c_vars (clq (m_jt m) c)) in *.
  assert (TC := shape_clq card (m_jt m) _ (mo_shape _ _ HM) Hc).
  assert (NC : NoDup C) by apply TC.
  assert (IC : forall v, In v C -> In v (all_vars (m_jt m))).
  { intros v Hv. apply all_vars_in. exists c. auto. }
  assert (P : Permutation (minus (seq 0 (length (m_vars m))) V) (minus C V ++ minus (all_vars (m_jt m)) C)).
  { apply NoDup_Permutation.
    - apply minus_nodup. apply seq_NoDup.
    - apply NoDup_app_intro; try apply minus_nodup; auto; [apply all_vars_nodup|].
      intros v H1 H2. apply minus_in in H1. apply minus_in in H2. tauto.
    - intros v. rewrite in_app_iff, !minus_in.
      assert (AV : In v (all_vars (m_jt m)) <-> In v (seq 0 (length (m_vars m)))).
      { split; apply Permutation_in; [|symmetry]; now apply (all_vars_model card). }
      split.
      + intros (H1 & H2). destruct (in_dec Nat.eq_dec v C); [left|right]; split; auto. now apply AV.
      + intros [(H1 & H2)|(H1 & H2)]; split; auto; try (apply AV; auto). }
  rewrite (sumv_perm card _ _ (joint (m_jt m)) a P) by apply joint_is_ext.
  rewrite sumv_app. apply (near_sumv u Hu0 Hu1 card); auto. intros b Hb. apply near_sym; auto.
  apply (r_clique_marginal_ok u Hu0 Hu1 card); auto; apply HM.
Qed.

Lemma r_start_ok : forall m dir p k g, slices_ok card m -> cliques_within card (m_jt m) N ->
  rcalibrated u card (N + 2) (m_jt m) ->
  wf p -> dims p = map card (m_out m) -> ext g ->
  (forall a, valid card a -> near u k (g a) (joint (m_jt m) a)) ->
  (m_out m <> [] \/ sum_all card m g <> 0%Qc) ->
  exists p', r_start_message (rt fl) m dir p = Ok p' /\ interface_table card m p' /\
    exists c, (0 < c)%Qc /\ forall ix, valid_ix (map card (m_out m)) ix ->
      near u (k + length (sps (m_jt m)) * (N + 2) + N + 1)
        (c * sum_all card m (fun b => given (ix_eqb (map b (out_vars m dir)) ix) (g b)))%Qc (cell p' ix).
Proof.
  intros m dir p k g HM HW HC WP DP HE HG HZ. unfold r_start_message.
  destruct (out_vars_ok card m dir HM) as (ND & Hc & HI & HL & HK).
  assert (MO := so_model _ _ HM). assert (HS := mo_shape _ _ MO).
  assert (ZV := zero_valid card m MO).
  assert (GN : forall a, valid card a -> (0 <= g a)%Qc).
  { intros a Ha. exact (proj1 (near_nonneg u Hu0 Hu1 _ _ _ (HG a Ha))). }
  assert (SN : (0 <= sum_all card m g)%Qc) by (apply sumv_nonneg; auto).
  assert (POS : forall x, (0 <= x)%Qc -> x <> 0%Qc -> (0 < / x)%Qc).
  { intros x H1 H2. assert (H3 := Qc_inv_nonneg x H1). apply Qcle_lt_or_eq in H3. destruct H3 as [|K]; auto.
    exfalso. assert (x * / x = 1)%Qc by (apply Qcmult_inv_r; auto). rewrite <- K in H. ring_simplify in H. discriminate. }
  destruct (Nat.eqb_spec (length (m_out m)) 0) as [Z|NZ].
  - apply length_zero_iff_nil in Z. rewrite uniform_ok. eexists. split; [reflexivity|].
    assert (EV : out_vars m dir = []) by (apply length_zero_iff_nil; now rewrite HL, Z).
    assert (LD : length (data p) = 1). { rewrite (wf_data_length _ WP), DP, Z. reflexivity. }
    rewrite LD. split.
    + split; [apply wf_same_shape; auto|]. split; auto. split; [repeat constructor; discriminate|].
      intros _. unfold cell. cbn [dims data]. rewrite DP, Z. reflexivity.
    + rewrite EV. exists (/ sum_all card m g)%Qc.
      assert (NZ : sum_all card m g <> 0%Qc) by tauto.
      split; [auto|]. intros ix Hix. rewrite Z in Hix. cbn [map] in Hix.
      assert (ix = []) as -> by (inversion Hix; reflexivity).
      replace (sum_all card m (fun b => given (ix_eqb (map b []) []) (g b))) with (sum_all card m g).
      2: { apply sumv_ext_free. intros d _. reflexivity. }
      apply near_eq; auto.
      * apply Qc_mul_nonneg; auto. apply Qc_inv_nonneg. auto.
      * unfold cell. cbn [dims data]. rewrite DP, Z. cbn. field. auto.
  - change (match dir with FORWARD => m_out_clique m | BACKWARD => m_in_clique m end) with (out_clique m dir).
    change (match dir with FORWARD => m_out m | BACKWARD => m_prev m end) with (out_vars m dir).
    rewrite rd_clq by auto. cbn [bind].
    assert (TC := shape_clq card (m_jt m) _ HS Hc).
    set (c := out_clique m dir) in *. set (V := out_vars m dir) in *.
    rewrite (table_dim card _ _ TC). rewrite <- HL.
    assert (NC : NoDup (c_vars (clq (m_jt m) c))) by apply TC.
    destruct (mapper_vars _ V NC ND HI) as (mp & Em & Lm & LV & Fm & Sm).
    rewrite Em. cbn [bind].
    assert (TP : table card V p) by (split; auto; split; auto; now rewrite HK).
    assert (PT : nonneg (c_p (clq (m_jt m) c))) by (now apply (proj1 (mo_nonneg _ _ MO))).
    destruct (r_marginalise_table u fl Hu0 Hu1 Hfl card N _ V (c_p (clq (m_jt m) c)) p (unarr mp) (shape_card card _ HS) TC PT (HW c Hc) TP HI LV Fm Sm)
      as (q & Eq & Tq & Hq).
    rewrite Eq. cbn [bind].
    assert (Hq' : forall a, valid card a ->
        near u (k + length (sps (m_jt m)) * (N + 2) + N) (sumv card (minus (seq 0 (length (m_vars m))) V) g a) (den V q a)).
    { intros a Ha. eapply (near_trans u Hu0 Hu1); [|exact (Hq a Ha)].
      eapply (near_trans u Hu0 Hu1); [|exact (r_clique_interface m c V a MO HC Hc ND HI Ha)].
      apply (near_sumv u Hu0 Hu1 card); auto. }
    assert (QN : forall a, valid card a -> (0 <= den V q a)%Qc).
    { intros a Ha. exact (proj2 (near_nonneg u Hu0 Hu1 _ _ _ (Hq' a Ha))). }
    assert (Tq' := Tq). destruct Tq' as (_ & Wq & Dq).
    assert (Nq : nonneg q) by (apply (nonneg_den card V); auto; apply HS).
    destruct (r_normalise_array_ok u fl Hu0 Hu1 Hfl (data q) Nq) as (l' & El & Ll & (d & Pd & Hd) & _).
    unfold r_normalise_potential, size_of_data. rewrite El. cbn [bind].
    eexists. split; [reflexivity|].
    assert (NN : forall i, (0 <= nth i l' 0)%Qc).
    { intros i. exact (proj2 (near_nonneg u Hu0 Hu1 _ _ _ (Hd i))). }
    split.
    + split; [apply wf_same_shape; auto|]. split; [cbn; now rewrite Dq, HK|].
      split; [|intros E; rewrite E in NZ; cbn in NZ; congruence].
      unfold nonneg. cbn [data]. apply Forall_forall. intros x Hx. apply (In_nth _ _ 0%Qc) in Hx.
      destruct Hx as (i & _ & <-). apply NN.
    + exists d. split; auto. intros ix Hix. rewrite <- HK in Hix.
      destruct (ix_assignment card V ix (fun _ => 0) ND ZV Hix) as (a & Va & Ea & Oa).
      eapply (near_trans u Hu0 Hu1); [|unfold cell; cbn [dims data]; apply Hd].
      apply near_mul_l; auto. { apply Qclt_le_weak. auto. }
      fold (cell q ix). replace (cell q ix) with (den V q a) by (unfold den; now rewrite Ea).
      replace (sum_all card m (fun b => given (ix_eqb (map b V) ix) (g b)))
        with (sumv card (minus (seq 0 (length (m_vars m))) V) g a); [apply Hq'; auto|].
      assert (IS : incl V (seq 0 (length (m_vars m)))).
      { intros v Hv. apply in_seq. split; [lia|]. apply (mo_scope _ _ MO c); auto. }
      rewrite (marginal_given card (seq 0 (length (m_vars m))) V g a ix); auto using seq_NoDup.
      apply sumv_base.
      * intros b b' Eb. now rewrite (HE b b' Eb), (map_ext b b' Eb).
      * intros v Hv. apply Oa. intros K. apply Hv. now apply IS.
Qed.

(** ** The observations of one step *)
Lemma r_insert_ok : forall k m ts t F, model_ok card m -> series_ok m ts -> t < length (ts_data ts) ->
  rrep k m F -> no_evidence card m ->
  exists m', r_insert_ts_step (rt fl) ts (Z.of_nat t) m MARK_ON = Ok (m', NO_ERROR) /\ model_ok card m' /\ same_model m m' /\
    rrep (k + 2 * length (ts_observed ts)) m' F /\
    (forall a, valid card a -> evidence m' a = given (agrees m ts t a) 1%Qc).
Proof.
  intros k0 m ts t F HM (ND & HV & HL) Ht HR HN. unfold r_insert_ts_step.
  replace ((Z.of_nat t <? 0) || (Z.of_nat (length (ts_data ts)) <=? Z.of_nat t))%Z%bool with false.
  2: { symmetry. apply orb_false_iff. split; [apply Z.ltb_ge|apply Z.leb_gt]; lia. }
  rewrite Nat2Z.id.
  set (row := nth t (ts_data ts) []).
  assert (Lr : length row = length (ts_observed ts)).
  { rewrite Forall_forall in HL. apply HL. apply nth_In. auto. }
  match goal with |- context [for_up 0 ?n ?b ?s] =>
    destruct (for_up_inv model (fun i m' => model_ok card m' /\ same_model m m' /\ rrep (k0 + 2 * i) m' F /\
       (forall j, i <= j < length (ts_observed ts) -> v_lik (var m' (nth j (ts_observed ts) 0)) =
            repeat 1%Qc (card (nth j (ts_observed ts) 0))) /\
       forall a, valid card a -> evidence m' a = given (forallb (agrees1 m ts t a) (seq 0 i)) 1%Qc) b 0 n s)
      as (m1 & E1 & A1 & A2 & A3 & A4 & A5) end.
  { lia. }
  { split; auto. split; [apply same_model_refl|]. split; [apply (rrep_le u Hu0 Hu1 card k0); auto; lia|]. split.
    - intros j Hj. apply HN. apply HV. apply nth_In. lia.
    - intros a Ha. now apply (no_evidence_one card). }
  { intros i mi Hi (B1 & B2 & B3 & B4 & B5).
    assert (Li : length (m_vars mi) = length (m_vars m)) by apply B2.
    rewrite (rd_ok _ (ts_observed ts) i 0) by lia. cbn [bind].
    set (v := nth i (ts_observed ts) 0) in *.
    assert (Hv : v < length (m_vars m)) by (apply HV; apply nth_In; lia).
    rewrite rd_var by lia. cbn [bind].
    assert (Mk : v_mark (var mi v) = v_mark (var m v)).
    { destruct B2 as (_ & _ & SV & _). apply SV. }
    rewrite Mk.
    assert (SQ : forall a, forallb (agrees1 m ts t a) (seq 0 (S i)) =
       (forallb (agrees1 m ts t a) (seq 0 i) && agrees1 m ts t a i)%bool).
    { intros a. rewrite seq_S, forallb_app. simpl. now rewrite andb_true_r. }
    assert (B3' : rrep (k0 + 2 * S i) mi F) by (apply (rrep_le u Hu0 Hu1 card (k0 + 2 * i)); auto; lia).
    destruct (Nat.eqb (Nat.land (v_mark (var m v)) MARK_ON) 0) eqn:EM.
    { exists mi. split; [reflexivity|]. split; auto. split; auto. split; auto.
      split; [intros j Hj; apply B4; lia|]. intros a Ha. rewrite SQ. unfold agrees1 at 2. fold v. rewrite EM.
      cbn [orb]. rewrite andb_true_r. auto. }
    rewrite (rd_ok _ (ts_data ts) t []) by auto. cbn [bind]. fold row.
    rewrite (rd_ok _ row i 0%Z) by lia. cbn [bind].
    assert (EE : nth i row 0%Z = entry ts t i) by reflexivity. rewrite EE.
    destruct (Z.leb_spec 0 (entry ts t i)) as [P|P].
    2: { exists mi. split; [reflexivity|]. split; auto. split; auto. split; auto.
      split; [intros j Hj; apply B4; lia|]. intros a Ha. rewrite SQ. unfold agrees1 at 2.
      rewrite (proj2 (Z.ltb_lt _ _) P). rewrite orb_true_r. cbn [orb]. rewrite andb_true_r. auto. }
    rewrite (r_enter_index_ok fl card) by (auto; lia).
    set (e := indicator (card v) (entry ts t i)).
    destruct (r_enter_evidence_ok u fl Hu0 Hu1 Hfl card (k0 + 2 * i) mi v e F B1 B3) as (m' & Ee & C1 & C2 & C3 & C4 & C5 & C6); [lia|apply indicator_ok|].
    rewrite Ee. cbn [bind]. exists m'. split; [reflexivity|]. split; auto.
    split; [eapply same_model_trans; eauto|].
    assert (Ones : v_lik (var mi v) = repeat 1%Qc (card v)) by (apply B4; lia).
    split. { replace (k0 + 2 * S i) with (k0 + 2 * i + 2) by lia.
      apply C6. intros (k & Hk & K1 & _). rewrite Ones in K1, Hk. rewrite repeat_length in Hk.
      rewrite nth_repeat_lt in K1 by auto. discriminate. }
    split. { intros j Hj. rewrite C3. destruct (Nat.eqb_spec (nth j (ts_observed ts) 0) v) as [K|K].
      - unfold v in K. apply (proj1 (NoDup_nth _ 0) ND) in K; lia.
      - apply B4. lia. }
    intros a Ha. rewrite SQ.
    assert (EV : evidence m' a = (at_state e v a * evidence mi a)%Qc).
    { unfold evidence. assert (L' : length (m_vars m') = length (m_vars mi)) by apply C2. rewrite L'.
      rewrite (weight_ext _ (fun w => v_lik (var m' w)) (fun w => if Nat.eqb w v then e else v_lik (var mi w))) by auto.
      destruct (weight_change (length (m_vars mi)) (fun w => v_lik (var mi w)) v e a) as (r & R1 & R2); [lia|].
      rewrite R1, R2. rewrite Ones, at_ones by auto. ring. }
    rewrite EV, B5 by auto. unfold e. rewrite at_indicator by auto.
    assert (AI : agrees1 m ts t a i = (entry ts t i =? Z.of_nat (a v))%Z).
    { unfold agrees1. fold v. rewrite EM. now rewrite (proj2 (Z.ltb_ge _ _) P). }
    rewrite AI.
    destruct (forallb (agrees1 m ts t a) (seq 0 i)), (_ =? _)%Z; cbn [given andb]; ring. }
  rewrite E1. cbn [bind]. exists m1. split; [reflexivity|]. split; auto.
Qed.

(** ** The posteriors of one step *)
Lemma r_marginal_vector_ok : forall m v c r k G, model_ok card m -> cliques_within card (m_jt m) N ->
  rcalibrated u card (N + 2) (m_jt m) -> v < length (m_vars m) -> c < length (cls (m_jt m)) ->
  In v (c_vars (clq (m_jt m) c)) -> length r = card v -> ext G ->
  (forall a, valid card a -> near u k (G a) (joint (m_jt m) a)) ->
  exists r1 r2, r_marginalise_clique (rt fl) (m_jt m) c v r = Ok (r1, NO_ERROR) /\
    r_normalise_array (rt fl) r1 (card v) = Ok r2 /\ length r2 = card v /\
    forall x, x < card v ->
      near u (2 * (k + length (sps (m_jt m)) * (N + 2) + N) + card v + 1)
        (sum_where card m G v x / sum_all card m G)%Qc (nth x r2 0%Qc).
Proof.
  intros m v c r0 k G HM HW HC Hv Hc Iv L0 HE HG. set (jt := m_jt m) in *.
  destruct (r_marginalise_clique_ok u fl Hu0 Hu1 Hfl card N jt c v r0) as (r & Er & Lr & Hr); auto.
  { apply HM. } { apply HM. }
  exists r. set (K := k + length (sps jt) * (N + 2) + N).
  assert (Hx : forall x, x < length r -> near u K (sum_where card m G v x) (nth x r 0%Qc)).
  { intros x Hx. rewrite Lr in Hx. unfold sum_where.
    assert (Va : valid card (upd (fun _ => 0) v x)) by (apply upd_valid; auto; now apply (zero_valid card m)).
    set (a := upd (fun _ => 0) v x) in *.
    assert (Hra := Hr a Va). assert (Ea : a v = x) by (unfold a; apply upd_same). rewrite Ea in Hra.
    unfold K. eapply (near_trans u Hu0 Hu1); [|exact Hra].
    eapply (near_trans u Hu0 Hu1) with (y := sumv card (minus (seq 0 (length (m_vars m))) [v]) (joint jt) a).
    { apply (near_sumv u Hu0 Hu1 card); auto. }
    apply r_clique_interface; auto.
    - constructor; [simpl; tauto|constructor].
    - intros w [<-|[]]. auto. }
  assert (NN : Forall (fun y => (0 <= y)%Qc) r).
  { apply Forall_forall. intros y Hy. apply (In_nth _ _ 0%Qc) in Hy. destruct Hy as (i & Hi & <-).
    exact (proj2 (near_nonneg u Hu0 Hu1 _ _ _ (Hx i Hi))). }
  destruct (r_normalise_array_ok u fl Hu0 Hu1 Hfl r NN) as (r2 & Er2 & Lr2 & _ & Hr2).
  exists r2. split; [exact Er|]. rewrite <- Lr. split; [exact Er2|].
  split; [lia|]. intros x Hxl.
  replace (2 * K + length r + 1) with (2 * K + S (length r)) by lia.
  eapply (near_trans u Hu0 Hu1); [|apply Hr2].
  rewrite <- (sum_where_total card m G v HM Hv HE). rewrite <- Lr. now apply near_normalised.
Qed.

Lemma r_write_results_ok : forall m vars row k G, model_ok card m -> cliques_within card (m_jt m) N ->
  rcalibrated u card (N + 2) (m_jt m) ->
  (forall v, In v vars -> v < length (m_vars m)) -> row_shape card vars row -> ext G ->
  (forall a, valid card a -> near u k (G a) (joint (m_jt m) a)) ->
  exists m' row', r_write_results (rt fl) m vars row = Ok (m', row') /\ model_ok card m' /\ same_model m m' /\
    m_jt m' = m_jt m /\ row_shape card vars row' /\
    forall i x, i < length vars -> x < card (nth i vars 0) ->
      near u (2 * (k + length (sps (m_jt m)) * (N + 2) + N) + card (nth i vars 0%nat) + 1)
        (sum_where card m G (nth i vars 0%nat) x / sum_all card m G)%Qc (nth x (nth i row' []) 0%Qc).
Proof.
  intros m vars row k0 G HM HW HC HV (LR & HR) HE HG. unfold r_write_results.
  match goal with |- context [for_up 0 ?n ?b ?s] =>
    destruct (for_up_inv (model * list (list Qc)) (fun k '(m', row') => model_ok card m' /\ same_model m m' /\
       m_jt m' = m_jt m /\ row_shape card vars row' /\
       forall i x, i < k -> x < card (nth i vars 0) ->
         near u (2 * (k0 + length (sps (m_jt m)) * (N + 2) + N) + card (nth i vars 0%nat) + 1)
           (sum_where card m G (nth i vars 0%nat) x / sum_all card m G)%Qc (nth x (nth i row' []) 0%Qc)) b 0 n s)
      as ((m1 & row1) & E1 & A1 & A2 & A3 & A4 & A5) end.
  { lia. }
  { split; auto. split; [apply same_model_refl|]. split; auto. split; [split; auto|]. intros; lia. }
  { intros i (mi, ri) Hi (B1 & B2 & B3 & (B4 & B4') & B5).
    assert (Li : length (m_vars mi) = length (m_vars m)) by apply B2.
    rewrite (rd_ok _ vars i 0) by lia. cbn [bind]. set (v := nth i vars 0) in *.
    assert (Hv : v < length (m_vars m)) by (apply HV; apply nth_In; lia).
    destruct (find_family_ok card mi v B1) as (mf & k & Ef & F1 & F2 & F3 & F4 & F5 & F6 & F7 & _); [lia|].
    rewrite Ef. cbn [bind]. rewrite (rd_ok _ ri i []) by lia. cbn [bind].
    assert (Lf : length (m_vars mf) = length (m_vars m)) by (rewrite <- Li; apply F2).
    destruct (r_marginal_vector_ok mf v k (nth i ri []) k0 G F1) as (r1 & r2 & Er & En & Ln & Hn).
    { rewrite F3, B3. auto. } { rewrite F3, B3. auto. } { lia. } { rewrite F3. auto. } { rewrite F3. apply F7. simpl; auto. }
    { apply B4'. lia. } { exact HE. } { rewrite F3, B3. exact HG. }
    rewrite Er. cbn [bind]. rewrite rd_var by lia. cbn [bind].
    assert (Cv : v_card (var mf v) = card v) by (apply (mo_var _ _ F1); lia). rewrite Cv, En. cbn [bind].
    rewrite wr_ok by lia. cbn [bind]. eexists. split; [reflexivity|]. cbn beta iota.
    split; auto. split; [eapply same_model_trans; eauto|]. split; [congruence|]. split.
    { split; [now rewrite set_nth_length|]. intros j Hj. rewrite nth_set_nth by lia.
      destruct (Nat.eqb_spec j i) as [->|]; auto. }
    intros j x Hj Hx. rewrite nth_set_nth by lia.
    destruct (Nat.eqb_spec j i) as [->|]; [|apply B5; auto; lia].
    fold v in Hx |- *. assert (Q := Hn x Hx). rewrite F3, B3 in Q.
    unfold sum_where, sum_all in Q |- *. rewrite Lf in Q. exact Q. }
  rewrite E1. exists m1, row1. split; [reflexivity|]. auto.
Qed.

(** ** Forgetting, and the priors of the next step *)
Lemma r_next_slice_ok : forall m hist, slices_ok card m ->
  exists m1 m', r_reset_model (rt fl) m = Ok m1 /\ r_use_priors (rt fl) m1 hist = Ok m' /\ model_ok card m' /\ same_model m m' /\
    no_evidence card m' /\ rrep (length (m_vars m) + length (m_indep m)) m' (slice_priors m hist).
Proof.
  intros m hist HM. assert (MO := so_model _ _ HM).
  destruct (r_reset_model_ok u fl Hu0 Hu1 Hfl card m MO) as (m1 & E1 & M1 & S1 & L1 & R1).
  destruct (r_use_priors_ok u fl Hu0 Hu1 Hfl card _ m1 hist _ M1 R1) as (m2 & E2 & M2 & S2 & L2 & _ & R2).
  exists m1, m2. split; auto. split; auto. split; auto.
  assert (SM : same_model m m2) by (eapply same_model_trans; eauto). split; auto.
  assert (Lv : length (m_vars m2) = length (m_vars m)) by apply SM.
  assert (EI : m_indep m1 = m_indep m) by apply S1. rewrite EI in R2.
  split. { intros v Hv. rewrite L2. apply L1. lia. }
  eapply rrep_ext; [|exact R2]. intros a Ha. cbv beta. rewrite (same_priors m m1 _ a S1).
  assert (P : pending m1 hist = if hist then filter (fun v => negb (existsb (Nat.eqb v) (m_prev m))) (m_indep m) else m_indep m).
  { unfold pending. rewrite EI.
    destruct (mo_indep _ _ MO) as (_ & HI).
    destruct hist.
    - apply filter_ext_in. intros v Hv. destruct (L1 v) as (_ & ->); [apply HI; auto|]. cbn [negb orb andb].
      destruct S1 as (_ & _ & SV & _). destruct (SV v) as (_ & _ & _ & -> & _).
      now rewrite (so_old _ _ HM v Hv).
    - rewrite (filter_ext_in _ (fun _ => true)).
      + clear. induction (m_indep m); cbn; congruence.
      + intros v Hv. destruct (L1 v) as (_ & ->); [apply HI; auto|]. reflexivity. }
  rewrite P. unfold slice_priors. ring.
Qed.
End Steps.
