(** * Proofs: the operations of one time step *)
From Coq Require Import Permutation Field.
From Verif Require Import Base BaseProofs PotentialModel PotentialSpec PotentialProofs
  PotentialProofs2 PotentialProofs3 VariableModel VariableProofs JoinTreeModel
  AssignSpec AssignProofs JoinTreeSpec JoinTreeProofs JoinTreeProofs2 JoinTreeProofs3
  JoinTreeProofs4 JoinTreeProofs5 JoinTreeProofs6 JoinTreeProofs7 NipModel NipSpec NipProofs
  NipProofs2 NipProofs3 GatherProofs2 SliceModel SliceSpec SliceProofs.
Import ListNotations.
Open Scope nat_scope.
Local Open Scope res_scope.

Add Field Qcfield_slice2 : Qcft.

(** ** Replacing the table of a clique by a multiple *)
Lemma scale_clique_ok : forall card m c p (g : (nat -> nat) -> Qc), model_ok card m -> c < length (cls (m_jt m)) ->
  table card (c_vars (clq (m_jt m) c)) p ->
  (forall a, valid card a -> (0 <= g a)%Qc) ->
  (forall a, valid card a -> den (c_vars (clq (m_jt m) c)) p a = (phi (m_jt m) c a * g a)%Qc) ->
  exists jt', put_clique (m_jt m) c (set_p (clq (m_jt m) c) p) = Ok jt' /\
    same_shape (m_jt m) jt' /\ shape_ok card jt' /\ tables_nonneg jt' /\
    forall a, valid card a -> joint jt' a = (joint (m_jt m) a * g a)%Qc.
Proof.
  intros card m c p g HM Hc Tp Hg Hp.
  assert (HS := mo_shape _ _ HM). set (jt := m_jt m) in *.
  assert (HS' := HS). destruct HS' as (HC & HCl & HSp).
  rewrite put_clique_ok by auto.
  set (jt' := mkJT (set_nth (cls jt) c (set_p (clq jt c) p)) (sps jt)).
  exists jt'. split; [reflexivity|].
  assert (Q : forall k, clq jt' k = if Nat.eqb k c then set_p (clq jt c) p else clq jt k).
  { intros k. unfold jt'. rewrite clq_set by auto. now rewrite jt_eta. }
  assert (QS : forall k, sep jt' k = sep jt k) by reflexivity.
  assert (SH : same_shape jt jt').
  { split; [cbn; apply set_nth_length|]. split; [reflexivity|]. split; [|intros; auto].
    intros k. rewrite Q. destruct (Nat.eqb_spec k c) as [->|]; auto. }
  assert (SO : shape_ok card jt').
  { apply (shape_ok_change card jt); auto.
    - intros k Hk. rewrite Q. destruct (Nat.eqb_spec k c) as [->|]; auto. now apply HCl.
    - intros s Hs. rewrite QS. now apply HSp.
    - intros s Hs. rewrite QS. now apply HSp. }
  assert (PH : forall a, valid card a -> phi jt' c a = (phi jt c a * g a)%Qc).
  { intros a Ha. rewrite <- Hp by auto. unfold phi. rewrite Q, Nat.eqb_refl. reflexivity. }
  assert (L1 : length (cls jt') = length (cls jt)) by (apply SH).
  split; auto. split; auto. split.
  - apply (nonneg_intro card); auto.
    + intros i a Hk Ha. rewrite L1 in Hk. destruct (Nat.eq_dec i c) as [->|N].
      * rewrite PH by auto. apply Qc_mul_nonneg; auto. apply (phi_nonneg card); auto. apply HM.
      * replace (phi jt' i a) with (phi jt i a). { apply (phi_nonneg card); auto. apply HM. }
        unfold phi. rewrite Q. destruct (Nat.eqb_spec i c); congruence.
    + intros s a Hs Ha. apply (psi_nonneg card jt s a); auto. apply HM.
  - intros a Ha. unfold joint. rewrite L1.
    destruct (qprod_change1 card (fun i => phi jt' i a) (fun i => phi jt i a) (length (cls jt)) c Hc)
      as (r & R1 & R2).
    { intros i N. unfold phi. rewrite Q. destruct (Nat.eqb_spec i c); congruence. }
    rewrite R1, R2. cbv beta. rewrite PH by auto.
    change (qprod (map (fun s => psi jt' s a) (seq 0 (length (sps jt'))))) with
      (qprod (map (fun s => psi jt s a) (seq 0 (length (sps jt))))). unfold Qcdiv. ring.
Qed.

Lemma absorb_table_none : forall card C S num target m,
  table card C target -> table card S num ->
  length S <= length C -> length m = length S -> Forall (fun k => k < length C) m ->
  (forall b : nat -> nat, sel m (map b C) = map b S) ->
  exists t', update_potential (Some num) None target m = Ok (t', NO_ERROR) /\
    table card C t' /\
    forall a, valid card a -> den C t' a = (den C target a * den S num a)%Qc.
Proof.
  intros card C S num target m (NC & WC & DC) (NS & WS & DS) HL Hlm HF Hm.
  destruct (update_potential_ok (Some num) None target m) as (t' & E & D & W & H); auto.
  - left. discriminate.
  - cbn. split; auto. split.
    + rewrite DC, map_length. auto.
    + rewrite DC, DS. apply Hm.
  - exact Logic.I.
  - unfold dimensionality. rewrite DC, map_length. lia.
  - exists t'. split; [exact E|]. split; [repeat split; auto; try congruence; apply W|].
    intros a Ha. unfold den. rewrite H.
    + cbn [option_map absorb1]. rewrite Hm. reflexivity.
    + rewrite DC. now apply valid_ix_map.
Qed.

(** ** The variables and the clique of a message *)
Definition in_vars (m : model) (dir : direction) : list nat :=
  match dir with FORWARD => m_prev m | BACKWARD => m_out m end.
Definition in_clique (m : model) (dir : direction) : nat :=
  match dir with FORWARD => m_in_clique m | BACKWARD => m_out_clique m end.
Definition out_vars (m : model) (dir : direction) : list nat :=
  match dir with FORWARD => m_out m | BACKWARD => m_prev m end.
Definition out_clique (m : model) (dir : direction) : nat :=
  match dir with FORWARD => m_out_clique m | BACKWARD => m_in_clique m end.

Lemma slices_ok_same : forall card m m', slices_ok card m -> model_ok card m' -> same_model m m' -> slices_ok card m'.
Proof.
  intros card m m' [H1 H2 H3 H4 H5 H6 H7] HM' SM.
  destruct SM as (SH & L & SV & E1 & E2 & E3 & E4 & E5 & E6). destruct SH as (L1 & _ & SC & _).
  split; rewrite ?E1, ?E3, ?E4, ?E5, ?E6; auto.
  - destruct (SC (m_out_clique m)) as (-> & _). rewrite L1. auto.
  - destruct (SC (m_in_clique m)) as (-> & _). rewrite L1. auto.
  - intros v Hv. destruct (SV v) as (_ & _ & _ & -> & _). auto.
Qed.

Lemma prev_length : forall card m, slices_ok card m -> length (m_prev m) = length (m_out m).
Proof. intros card m H. rewrite <- (map_length card (m_prev m)), <- (so_cards _ _ H). apply map_length. Qed.

Lemma in_vars_ok : forall card m dir, slices_ok card m ->
  NoDup (in_vars m dir) /\ in_clique m dir < length (cls (m_jt m)) /\
  incl (in_vars m dir) (c_vars (clq (m_jt m) (in_clique m dir))) /\
  length (in_vars m dir) = length (m_out m) /\ map card (in_vars m dir) = map card (m_out m).
Proof.
  intros card m dir H. assert (L := prev_length _ _ H). destruct H as [H1 H2 H3 H4 (H5 & H5') (H6 & H6') H7].
  destruct dir; cbn; auto 10.
Qed.
Lemma out_vars_ok : forall card m dir, slices_ok card m ->
  NoDup (out_vars m dir) /\ out_clique m dir < length (cls (m_jt m)) /\
  incl (out_vars m dir) (c_vars (clq (m_jt m) (out_clique m dir))) /\
  length (out_vars m dir) = length (m_out m) /\ map card (out_vars m dir) = map card (m_out m).
Proof.
  intros card m dir H. assert (L := prev_length _ _ H). destruct H as [H1 H2 H3 H4 (H5 & H5') (H6 & H6') H7].
  destruct dir; cbn; auto 10.
Qed.

(** A table with the shape of the interface. *)
Definition interface_table (card : nat -> nat) (m : model) (p : potential) : Prop :=
  wf p /\ dims p = map card (m_out m) /\ nonneg p /\ (m_out m = [] -> cell p [] = 1%Qc).

Lemma interface_table_same : forall card m m' p, m_out m' = m_out m -> interface_table card m p ->
  interface_table card m' p.
Proof. intros card m m' p E (H1 & H2 & H3 & H4). unfold interface_table. rewrite E. auto. Qed.

Lemma finish_ok : forall card m dir num den0 F, slices_ok card m -> represents card m F ->
  interface_table card m num ->
  match den0 with Some d => interface_table card m d | None => True end ->
  exists m', finish_message m dir num den0 = Ok m' /\ model_ok card m' /\ same_model m m' /\
    (forall w, v_lik (var m' w) = v_lik (var m w)) /\
    represents card m' (fun a => F a * (cell num (map a (in_vars m dir)) *
      match den0 with Some d => / cell d (map a (in_vars m dir)) | None => 1 end))%Qc.
Proof.
  intros card m dir num den0 F HM HR (WN & DN & NN & ON) HD. unfold finish_message.
  destruct (in_vars_ok card m dir HM) as (ND & Hc & HI & HL & HK).
  assert (MO := so_model _ _ HM).
  destruct (Nat.eqb_spec (length (m_out m)) 0) as [Z|NZ].
  - exists m. split; [reflexivity|]. split; auto. split; [apply same_model_refl|]. split; auto.
    apply length_zero_iff_nil in Z.
    assert (in_vars m dir = []) as -> by (apply length_zero_iff_nil; now rewrite HL, Z).
    intros a Ha. rewrite HR by auto. cbn [map]. rewrite ON by auto. destruct den0 as [d|].
    + destruct HD as (_ & _ & _ & OD). rewrite OD by auto. field. discriminate.
    + ring.
  - change (match dir with FORWARD => m_in_clique m | BACKWARD => m_out_clique m end) with (in_clique m dir).
    change (match dir with FORWARD => m_prev m | BACKWARD => m_out m end) with (in_vars m dir).
    rewrite rd_clq by auto. cbn [bind].
    assert (TC := shape_clq card (m_jt m) _ (mo_shape _ _ MO) Hc).
    set (c := in_clique m dir) in *. set (V := in_vars m dir) in *.
    rewrite (table_dim card _ _ TC). rewrite <- HL.
    assert (NC : NoDup (c_vars (clq (m_jt m) c))) by apply TC.
    destruct (mapper_vars _ V NC ND HI) as (mp & Em & Lm & LV & Fm & Sm).
    rewrite Em. cbn [bind].
    assert (TN : table card V num) by (split; auto; split; auto; now rewrite HK).
    set (g := fun a => (cell num (map a V) * match den0 with Some d => / cell d (map a V) | None => 1 end)%Qc).
    assert (U : exists p, update_potential (Some num) den0 (c_p (clq (m_jt m) c)) (unarr mp) = Ok (p, NO_ERROR) /\
       table card (c_vars (clq (m_jt m) c)) p /\
       forall a, valid card a -> den (c_vars (clq (m_jt m) c)) p a = (phi (m_jt m) c a * g a)%Qc).
    { destruct den0 as [d|].
      - destruct HD as (WD & DD & _).
        assert (TD : table card V d) by (split; auto; split; auto; now rewrite HK).
        destruct (absorb_table card _ V num d _ (unarr mp) TC TN TD LV Lm Fm Sm) as (p & E & Tp & Hp).
        exists p. split; auto. split; auto. intros a Ha. rewrite Hp by auto. unfold g, den, phi, Qcdiv. 
        unfold den. ring.
      - destruct (absorb_table_none card _ V num _ (unarr mp) TC TN LV Lm Fm Sm) as (p & E & Tp & Hp).
        exists p. split; auto. split; auto. intros a Ha. rewrite Hp by auto. unfold g, phi, den. ring. }
    destruct U as (p & Ep & Tp & Hp). rewrite Ep. cbn [bind].
    destruct (scale_clique_ok card m c p g MO Hc Tp) as (jt' & Ej & S1 & S2 & S3 & S4); auto.
    { intros a Ha. unfold g. apply Qc_mul_nonneg; [now apply (den_nonneg card V num a TN NN)|].
      destruct den0 as [d|]; [|discriminate]. apply Qc_inv_nonneg. destruct HD as (WD & DD & ND0 & _).
      apply (den_nonneg card V d a); auto. split; auto. split; auto. now rewrite HK. }
    rewrite Ej. cbn [bind]. eexists. split; [reflexivity|].
    split; [now apply model_ok_jt|]. assert (SM : same_model m (set_jt m jt')) by (now apply same_model_jt).
    split; auto. split; auto. intros a Ha. cbn [m_jt set_jt]. rewrite S4, HR by auto.
    rewrite (same_original m _ a SM).
    change (evidence (set_jt m jt') a) with (evidence m a). unfold g. ring.
Qed.

(** ** The outgoing message *)
Lemma clique_interface : forall card m c V a, model_ok card m -> calibrated card (m_jt m) ->
  c < length (cls (m_jt m)) -> NoDup V -> incl V (c_vars (clq (m_jt m) c)) -> valid card a ->
  sumv card (minus (c_vars (clq (m_jt m) c)) V) (phi (m_jt m) c) a =
  sumv card (minus (seq 0 (length (m_vars m))) V) (joint (m_jt m)) a.
Proof.
  intros card m c V a HM HC Hc ND HI Ha. set (C := c_vars (clq (m_jt m) c)) in *.
  assert (TC := shape_clq card (m_jt m) _ (mo_shape _ _ HM) Hc).
  assert (NC : NoDup C) by apply TC.
  rewrite (sumv_ext card _ _ (sumv card (minus (all_vars (m_jt m)) C) (joint (m_jt m)))); auto.
  2: { intros b Hb. apply clique_marginal_ok; auto; apply HM. }
  rewrite <- sumv_app.
  assert (IC : forall v, In v C -> In v (all_vars (m_jt m))).
  { intros v Hv. apply all_vars_in. exists c. auto. }
  apply sumv_perm; [|apply joint_is_ext].
  apply NoDup_Permutation.
  - apply NoDup_app_intro; try apply minus_nodup; auto; [apply all_vars_nodup|].
    intros v H1 H2. apply minus_in in H1. apply minus_in in H2. tauto.
  - apply minus_nodup. apply seq_NoDup.
  - intros v. rewrite in_app_iff, !minus_in.
    assert (AV : In v (all_vars (m_jt m)) <-> In v (seq 0 (length (m_vars m)))).
    { split; apply Permutation_in; [|symmetry]; now apply (all_vars_model card). }
    split.
    + intros [(H1 & H2)|(H1 & H2)]; split; auto; try (apply AV; auto).
    + intros (H1 & H2). destruct (in_dec Nat.eq_dec v C); [left|right]; split; auto. now apply AV.
Qed.

Lemma start_ok : forall card m dir p, slices_ok card m -> calibrated card (m_jt m) ->
  wf p -> dims p = map card (m_out m) ->
  (m_out m <> [] \/ sum_all card m (joint (m_jt m)) <> 0%Qc) ->
  exists p', start_message m dir p = Ok p' /\ interface_table card m p' /\
    exists c, (0 < c)%Qc /\ forall a, valid card a ->
      cell p' (map a (out_vars m dir)) =
      (c * sumv card (minus (seq 0 (length (m_vars m))) (out_vars m dir)) (joint (m_jt m)) a)%Qc.
Proof.
  intros card m dir p HM HC WP DP HZ. unfold start_message.
  destruct (out_vars_ok card m dir HM) as (ND & Hc & HI & HL & HK).
  assert (MO := so_model _ _ HM). assert (HS := mo_shape _ _ MO).
  assert (JN : forall a, valid card a -> (0 <= joint (m_jt m) a)%Qc).
  { intros a Ha. apply (joint_nonneg card); auto. apply MO. }
  assert (ZV := zero_valid card m MO).
  assert (SN : (0 <= sum_all card m (joint (m_jt m)))%Qc) by (apply sumv_nonneg; auto).
  assert (POS : forall x, (0 <= x)%Qc -> x <> 0%Qc -> (0 < / x)%Qc).
  { intros x H1 H2. assert (H3 := Qc_inv_nonneg x H1). apply Qcle_lt_or_eq in H3. destruct H3 as [|K]; auto.
    exfalso. assert (x * / x = 1)%Qc by (apply Qcmult_inv_r; auto). rewrite <- K in H. ring_simplify in H. discriminate. }
  destruct (Nat.eqb_spec (length (m_out m)) 0) as [Z|NZ].
  - apply length_zero_iff_nil in Z. rewrite uniform_ok. eexists. split; [reflexivity|].
    assert (EV : out_vars m dir = []) by (apply length_zero_iff_nil; now rewrite HL, Z).
    assert (LD : length (data p) = 1). { rewrite (wf_data_length _ WP), DP, Z. reflexivity. }
    rewrite LD. split.
    + split; [apply wf_same_shape; auto|]. split; auto. split; [repeat constructor; discriminate|].
      intros _. unfold cell. cbn [dims data]. rewrite DP, Z. reflexivity.
    + rewrite EV. exists (/ sum_all card m (joint (m_jt m)))%Qc.
      assert (NZ : sum_all card m (joint (m_jt m)) <> 0%Qc) by tauto.
      split; [auto|]. intros a Ha. cbn [map].
      assert (minus (seq 0 (length (m_vars m))) [] = seq 0 (length (m_vars m))) as ->.
      { unfold minus. cbn. induction (seq 0 (length (m_vars m))); cbn; congruence. }
      replace (sumv card (seq 0 (length (m_vars m))) (joint (m_jt m)) a) with (sum_all card m (joint (m_jt m))).
      * unfold cell. cbn [dims data]. rewrite DP, Z. cbn. field. auto.
      * unfold sum_all. apply (sumv_dep_arg card (seq 0 (length (m_vars m)))).
        -- intros b c Hbc. unfold joint. f_equal; apply qprod_map_ext; intros i Hi; apply in_seq in Hi.
           ++ apply phi_dep. intros v Hv. apply Hbc. apply in_seq. split; [lia|].
              apply (mo_scope _ _ MO i); auto. lia.
           ++ apply psi_dep. intros v Hv. apply Hbc. apply in_seq. split; [lia|].
              destruct HS as (_ & _ & HSp). destruct (HSp i) as (_ & _ & K1 & _ & _ & K2 & _); [lia|].
              apply (mo_scope _ _ MO (s_first (sep (m_jt m) i))); auto.
        -- intros v H1 H2. tauto.
  - change (match dir with FORWARD => m_out_clique m | BACKWARD => m_in_clique m end) with (out_clique m dir).
    change (match dir with FORWARD => m_out m | BACKWARD => m_prev m end) with (out_vars m dir).
    rewrite rd_clq by auto. cbn [bind].
    assert (TC := shape_clq card (m_jt m) _ HS Hc).
    set (c := out_clique m dir) in *. set (V := out_vars m dir) in *.
    rewrite (table_dim card _ _ TC). rewrite <- HL.
    assert (NC : NoDup (c_vars (clq (m_jt m) c))) by apply TC.
    destruct (mapper_vars _ V NC ND HI) as (mp & Em & Lm & LV & Fm & Sm).
    rewrite Em. cbn [bind].
    assert (TP : table card V p) by (split; auto; split; auto; now rewrite HK).
    destruct (marginalise_table card _ V (c_p (clq (m_jt m) c)) p (unarr mp) (shape_card card _ HS) TC TP HI LV Fm Sm)
      as (q & Eq & Tq & Hq).
    rewrite Eq. cbn [bind]. rewrite normalise_potential_ok. cbn [bind].
    eexists. split; [reflexivity|].
    assert (Hq' : forall a, valid card a -> den V q a =
        sumv card (minus (seq 0 (length (m_vars m))) V) (joint (m_jt m)) a).
    { intros a Ha. rewrite Hq by auto. apply (clique_interface card m c V a MO HC Hc ND HI Ha). }
    assert (QN : forall a, valid card a -> (0 <= den V q a)%Qc).
    { intros a Ha. rewrite Hq' by auto. apply sumv_nonneg; auto. }
    assert (Tq' := Tq). destruct Tq' as (_ & Wq & Dq).
    assert (Nq : nonneg q) by (apply (nonneg_den card V); auto; apply HS).
    set (z := qsum (data q)).
    assert (Zn : (0 <= z)%Qc). { apply qsum_nonneg. intros x Hx. unfold nonneg in Nq. rewrite Forall_forall in Nq. auto. }
    assert (CE : forall ix, cell (mkPot (dims q) (normalised (data q))) ix = if qzero z then cell q ix else (cell q ix / z)%Qc).
    { intros ix. unfold cell. cbn [dims data]. apply nth_normalised. }
    split.
    + split; [apply wf_same_shape; auto; apply normalised_length|]. split; [cbn; now rewrite Dq, HK|].
      split; [|intros E; rewrite E in NZ; cbn in NZ; congruence].
      unfold nonneg. cbn [data]. unfold normalised. fold z. destruct (qzero z) eqn:EZ; [exact Nq|].
      apply Forall_forall. intros x Hx. apply in_map_iff in Hx. destruct Hx as (y & <- & Hy).
      unfold nonneg in Nq. rewrite Forall_forall in Nq. apply Qc_div_nonneg; auto.
    + destruct (qzero z) eqn:EZ.
      * exists 1%Qc. split; [reflexivity|]. intros a Ha. rewrite CE. rewrite <- Hq' by auto. unfold den. ring.
      * exists (/ z)%Qc. apply qzero_false in EZ. split; [auto|]. intros a Ha. rewrite CE, <- Hq' by auto.
        unfold den. field. auto.
Qed.
