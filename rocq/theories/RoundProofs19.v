(** * Rounded arithmetic: normalising and multiplying tables, resetting the model *)
From Coq Require Import ZArith QArith Qcanon Field Lia Permutation String.
From Verif Require Import Base BaseProofs PotentialModel PotentialSpec PotentialProofs PotentialProofs2
  PotentialProofs3 VariableModel VariableProofs JoinTreeModel AssignSpec AssignProofs JoinTreeSpec
  JoinTreeProofs JoinTreeProofs2 JoinTreeProofs3 JoinTreeProofs4 JoinTreeProofs5 JoinTreeProofs6 JoinTreeProofs7
  NipModel NipSpec NipProofs NipProofs2 NipProofs3 SliceModel SliceSpec LearnModel LearnSpec LearnProofs LearnProofs3
  RoundModel RoundModel3 RoundSpec RoundProofs RoundProofs3 RoundProofs8.
Import ListNotations.
Open Scope nat_scope.
Local Open Scope list_scope.
Local Open Scope res_scope.
Add Field QcfieldRound19 : Qcft.

Section Total.
Variable u : Qc.
Variable fl : Qc -> Qc.
Hypothesis Hu0 : (0 <= u)%Qc.
Hypothesis Hu1 : (u < 1)%Qc.
Hypothesis Hfl : forall x, (0 <= x)%Qc -> near u 1 x (fl x).
Local Notation rt := (rt fl).

Lemma r_normalise_blocks_ok : forall r fuel d b n, 0 < n -> r < fuel -> length d = n * (b + r) ->
  (forall i, (0 <= nth i d 0)%Qc) ->
  exists d', r_normalise_blocks rt fuel d (n * b) (n * (b + r)) n = Ok d' /\ length d' = length d /\
    (forall k, k < n * b -> nth k d' 0%Qc = nth k d 0%Qc) /\
    (forall c j, b <= c < b + r -> j < n -> near u (S n) (block_norm d n c j) (nth (n * c + j) d' 0%Qc)).
Proof.
  induction r as [|r IH]; intros fuel d b n Hn Hf HL HP; (destruct fuel as [|fuel]; [lia|]); cbn [r_normalise_blocks].
  - rewrite Nat.add_0_r, Nat.ltb_irrefl. exists d. repeat split; auto; intros; lia.
  - assert (n * b < n * (b + S r)) by nia.
    destruct (Nat.ltb_spec (n * b) (n * (b + S r))); [|lia].
    destruct (r_normalise_array_at_ok u fl Hu0 Hu1 Hfl d (n * b) n) as (d1 & E1 & HL1 & (s & Hs & H1) & H1'); [nia|intros; apply HP|].
    rewrite E1. cbn [bind].
    pose proof (near_zero u Hu0 Hu1 _ _ _ Hs) as HZ. destruct (near_nonneg u Hu0 Hu1 _ _ _ Hs) as (_ & Ps).
    assert (B : forall j, j < n -> near u (S n) (block_norm d n b j) (nth (n * b + j) d1 0%Qc)).
    { intros j Hj. rewrite H1 by auto. unfold block_norm. cbv zeta.
      set (S := qsum _) in *. destruct (qzero s) eqn:Z.
      - apply qzero_true in Z. apply HZ in Z. rewrite Z. change (qzero 0%Qc) with true. cbv iota. apply near_refl; auto.
      - apply qzero_false in Z. assert (Z' : S <> 0%Qc) by tauto. apply qzero_false in Z'. rewrite Z'.
        apply (near_fl u fl Hu0 Hu1 Hfl). apply (near_div u Hu0 Hu1 0 n); auto. apply near_refl; auto. }
    assert (HP1 : forall i, (0 <= nth i d1 0)%Qc).
    { intros i. destruct (Nat.lt_ge_cases i (n * b)) as [L|L]; [rewrite H1' by auto; apply HP|].
      destruct (Nat.lt_ge_cases i (n * b + n)) as [L'|L']; [|rewrite H1' by auto; apply HP].
      replace i with (n * b + (i - n * b)) by lia. assert (Q := B (i - n * b) ltac:(lia)).
      exact (proj2 (near_nonneg u Hu0 Hu1 _ _ _ Q)). }
    replace (n * b + n) with (n * S b) by lia. replace (b + S r) with (S b + r) by lia.
    destruct (IH fuel d1 (S b) n Hn ltac:(lia) ltac:(lia) HP1) as (d2 & E2 & HL2 & H2 & H2').
    rewrite E2. exists d2. split; auto. split; [lia|]. split.
    + intros k Hk. rewrite H2 by lia. apply H1'. lia.
    + intros c j Hc Hj. destruct (Nat.eq_dec c b) as [->|NE].
      * rewrite H2 by nia. now apply B.
      * assert (K := H2' c j ltac:(lia) Hj). unfold block_norm in *. cbv zeta in *.
        assert (Q : forall i, i < n -> nth (n * c + i) d1 0%Qc = nth (n * c + i) d 0%Qc)
          by (intros i Hi; apply H1'; right; nia).
        rewrite (qsum_map_ext _ (fun i => nth (n * c + i) d1 0%Qc) (fun i => nth (n * c + i) d 0%Qc)) in K.
        -- now rewrite Q in K.
        -- intros i Hi. apply in_seq in Hi. apply Q; lia.
Qed.

Lemma r_normalise_cpd_ok : forall p, wf p -> nonneg p -> 0 < dimensionality p ->
  exists p', r_normalise_cpd rt (Some p) = Ok (Some p', NO_ERROR) /\ dims p' = dims p /\ wf p' /\
    forall j t, valid_ix (dims p) (j :: t) ->
      near u (S (hd 0 (dims p))) (if qzero (colsum p t) then cell p (j :: t) else (cell p (j :: t) / colsum p t)%Qc)
        (cell p' (j :: t)).
Proof.
  intros p HW HN H0. pose proof HW as (HP & HL & HM). unfold r_normalise_cpd.
  rewrite card_array_rd by auto. cbn [bind].
  unfold dimensionality in H0. destruct (dims p) as [|d0 ds] eqn:ED; [simpl in H0; lia|].
  inversion HP; subst. cbn [nth]. simpl in HL.
  destruct (r_normalise_blocks_ok (prod ds) (S (size_of_data p)) (data p) 0 d0) as (d' & E & HLd & _ & H).
  - auto.
  - unfold size_of_data. rewrite HL. nia.
  - simpl. auto.
  - intros i. now apply nonneg_nth.
  - unfold size_of_data in *. rewrite Nat.mul_0_r, Nat.add_0_l in E. rewrite <- HL in E.
    rewrite E. cbn [bind]. eexists; split; [reflexivity|]. cbn [dims]. split; auto.
    assert (HW' : wf (mkPot (d0 :: ds) d')) by (repeat split; simpl; auto; lia).
    split; auto. intros j t HV. inversion HV; subst. cbn [hd].
    assert (Hc : forall i, cell p (i :: t) = nth (d0 * flat ds t + i) (data p) 0%Qc)
      by (intros i; unfold cell; rewrite ED; simpl; f_equal; lia).
    unfold colsum. rewrite ED. cbn [hd].
    rewrite (qsum_map_ext _ (fun j => cell p (j :: t)) (fun i => nth (d0 * flat ds t + i) (data p) 0%Qc))
      by (intros; apply Hc).
    assert (K := H (flat ds t) j). unfold block_norm in K. cbv zeta in K. rewrite !Hc.
    replace (cell {| dims := d0 :: ds; data := d' |} (j :: t)) with (nth (d0 * flat ds t + j) d' 0%Qc)
      by (unfold cell; simpl; f_equal; lia).
    apply K; auto. split; [lia|]. simpl. now apply flat_lt.
Qed.

Lemma r_init_potential_ok : forall probs target m, wf target -> wf probs ->
  map_ok m (dims target) (dims probs) -> 0 < dimensionality probs ->
  exists t', r_init_potential rt probs target m = Ok (t', NO_ERROR) /\
    dims t' = dims target /\ wf t' /\
    forall ix, valid_ix (dims target) ix ->
      cell t' ix = fl (cell target ix * cell probs (sel m ix))%Qc.
Proof.
  intros probs target m HT HP (HM & HS) H0. unfold r_init_potential.
  destruct (Nat.eqb_spec (dimensionality probs) 0); [lia|].
  assert (Hpos : Forall (fun d => 0 < d) (dims target)) by (destruct HT; auto).
  assert (Hlm : length m = dimensionality probs) by (unfold dimensionality; rewrite <- HS; now rewrite sel_length).
  assert (Hdt : 0 < dimensionality target).
  { unfold dimensionality. destruct m as [|a m']; simpl in *; [lia|]. inversion HM; lia. }
  match goal with |- context [for_up 0 _ ?b _] => set (body := b) end.
  destruct (table_pointwise target (fun ix x => fl (x * cell probs (sel m ix))%Qc) body HT)
    as (d & E & _ & HW & H).
  - intros k d Hk HL Hnk. unfold body.
    rewrite inverse_mapping_ok; auto; [|unfold size_of_data; rewrite (wf_data_length target HT); auto
          |apply temp_index_length; lia].
    cbn [bind]. rewrite choose_ok; [|rewrite temp_index_length; lia|lia|now rewrite unflat_length].
    cbn [bind].
    assert (HV : valid_ix (dims probs) (sel m (unflat (dims target) k)))
      by (rewrite <- HS; apply sel_valid; auto; now apply unflat_valid).
    rewrite get_pointer_ok by (auto using wf_shape). cbn [bind].
    rewrite (rd_ok _ _ _ 0%Qc) by (rewrite (wf_data_length probs HP); now apply flat_lt). cbn [bind].
    rewrite (rd_ok _ d k 0%Qc) by lia. cbn [bind RoundProofs3.rt]. rewrite wr_ok by lia. now rewrite Hnk.
  - rewrite E. cbn [bind]. eexists; split; [reflexivity|]. simpl. auto.
Qed.

Lemma r_total_reset_ok : forall card m, model_ok card m ->
  exists m', r_total_reset rt m = Ok m' /\ model_ok card m' /\ same_structure m m' /\
    length (sps (m_jt m')) = length (sps (m_jt m)) /\
    (forall v, v_prior (var m' v) = v_prior (var m v)) /\
    (forall a, valid card a -> original m' a = 1%Qc) /\
    (forall k a, k < length (cls (m_jt m)) -> valid card a ->
       den (c_vars (clq (m_jt m') k)) (c_orig (clq (m_jt m') k)) a = 1%Qc).
Proof.
  intros card m HM. unfold r_total_reset.
  match goal with |- context [for_up 0 ?n ?b ?s] =>
    destruct (for_up_inv jtree (fun i jt => model_ok card (set_jt m jt) /\ same_structure m (set_jt m jt) /\
       sps jt = sps (m_jt m) /\
       forall j, j < i -> c_orig (clq jt j) = ones (c_orig (clq (m_jt m) j))) b 0 n s)
      as (jt & E1 & A1 & A2 & AS & A3) end.
  { lia. }
  { replace (set_jt m (m_jt m)) with m by (destruct m; reflexivity). split; auto. split; [apply same_structure_refl|]. split; auto. intros; lia. }
  { intros i jt Hi (B1 & B2 & BS & B3). assert (Li : length (cls jt) = length (cls (m_jt m))) by apply B2.
    rewrite rd_clq by lia. cbn [bind]. rewrite uniform_ok. cbn [bind]. rewrite put_clique_ok by lia.
    set (k := set_orig (clq jt i) (mkPot (dims (c_orig (clq jt i))) (repeat 1%Qc (length (data (c_orig (clq jt i))))))).
    assert (S0 := mo_shape _ _ B1). cbn [m_jt set_jt] in S0.
    destruct S0 as (C0 & HCl & HSp). destruct (HCl i ltac:(lia)) as (T1 & T2 & _).
    assert (MK : model_ok card (set_jt (set_jt m jt) (putc (m_jt (set_jt m jt)) i k))).
    { apply replace_model; auto; cbn [m_jt set_jt]; try lia; try reflexivity.
      - apply (ones_table card _ _ T2).
      - apply (proj1 (mo_nonneg _ _ B1)). cbn. lia.
      - apply (ones_nonneg (c_orig (clq jt i))). }
    eexists. split; [reflexivity|]. split; [exact MK|]. split.
    { eapply same_structure_trans; [exact B2|]. apply (replace_structure (set_jt m jt) i k); cbn [m_jt set_jt]; auto; lia. }
    split; [exact BS|].
    intros j Hj. fold (putc jt i k). rewrite clq_putc by lia. destruct (Nat.eqb_spec j i) as [->|NE]; [|apply B3; lia].
    unfold k, ones. cbn [c_orig set_orig].
    assert (Tm : table card (c_vars (clq (m_jt m) i)) (c_orig (clq (m_jt m) i))) by (apply (mo_shape _ _ HM); lia).
    assert (V : c_vars (clq jt i) = c_vars (clq (m_jt m) i)) by apply B2.
    destruct T2 as (_ & (_ & W2 & _) & D2), Tm as (_ & (_ & W3 & _) & D3). rewrite W2, W3, D2, D3, V. reflexivity. }
  rewrite E1. cbn [bind].
  destruct (r_reset_model_ok u fl Hu0 Hu1 Hfl card (set_jt m jt) A1) as (m' & E2 & M' & S' & R1 & R2).
  rewrite E2. exists m'. split; auto. split; auto.
  assert (SS : same_structure m m') by (eapply same_structure_trans; [exact A2|]; apply same_structure_model; auto).
  split; auto. split. { destruct S' as ((_ & SL & _) & _). rewrite SL. cbn [m_jt set_jt]. now rewrite AS. }
  split. { intros v. destruct S' as (_ & _ & SV & _). destruct (SV v) as (_ & -> & _). reflexivity. }
  assert (Li : length (cls jt) = length (cls (m_jt m))) by apply A2.
  assert (KO : forall i a, i < length (cls (m_jt m)) -> valid card a -> den (c_vars (clq jt i)) (c_orig (clq jt i)) a = 1%Qc).
  { intros i a Hi Ha. rewrite A3 by lia. assert (V : c_vars (clq jt i) = c_vars (clq (m_jt m) i)) by apply A2. rewrite V.
    apply (ones_den card); auto. apply (mo_shape _ _ HM). lia. }
  split.
  - intros a Ha. rewrite (same_original _ _ a S'). unfold original. apply qprod_ones. intros i Hi. apply in_seq in Hi.
    cbn [m_jt set_jt] in Hi |- *. apply KO; auto. lia.
  - intros k a Hk Ha. destruct S' as ((_ & _ & SC & _) & _). destruct (SC k) as (-> & _ & ->). cbn [m_jt set_jt]. now apply KO.
Qed.
End Total.
