(** * Proofs about the model of nippotential.c, part 3 *)
From Verif Require Import Base BaseProofs PotentialModel PotentialSpec PotentialProofs PotentialProofs2.
From Coq Require Import Permutation Field.
Import ListNotations.

Add Field Qcfield3 : Qcft.

(** ** update_evidence *)
Definition evid1 (num : Qc) (den : option Qc) (x : Qc) : Qc :=
  match den with
  | Some z => if qzero z then (x * num)%Qc else (x * num / z)%Qc
  | None => (x * num)%Qc
  end.

Lemma update_evidence_ok : forall num den target v, wf target -> v < dimensionality target ->
  nth v (dims target) 0 <= length num ->
  (match den with Some d => nth v (dims target) 0 <= length d | None => True end) ->
  exists t', update_evidence num den target v = Ok t' /\ dims t' = dims target /\ wf t' /\
    forall ix, valid_ix (dims target) ix ->
      cell t' ix = evid1 (nth (nth v ix 0) num 0%Qc)
                     (option_map (fun d => nth (nth v ix 0) d 0%Qc) den) (cell target ix).
Proof.
  intros num den target v HT Hv Hn Hd. unfold update_evidence.
  assert (Hpos : Forall (fun d => 0 < d) (dims target)) by (destruct HT; auto).
  match goal with |- context [for_up 0 _ ?b _] => set (body := b) end.
  destruct (table_pointwise target (fun ix x => evid1 (nth (nth v ix 0) num 0%Qc)
                     (option_map (fun d => nth (nth v ix 0) d 0%Qc) den) x) body HT)
    as (d & E & _ & HW & H).
  - intros k d Hk HL Hnk. unfold body.
    rewrite inverse_mapping_ok; auto; [|unfold size_of_data; rewrite (wf_data_length target HT); auto
          |apply temp_index_length; lia].
    cbn [bind]. rewrite (rd_ok _ _ v 0) by (rewrite unflat_length; auto). cbn [bind].
    pose proof (valid_ix_nth _ _ v (unflat_valid (dims target) k Hpos) Hv) as Hs.
    set (s := nth v (unflat (dims target) k) 0) in *.
    rewrite (rd_ok _ d k 0%Qc) by lia. cbn [bind]. rewrite (rd_ok _ num s 0%Qc) by lia. cbn [bind].
    rewrite wr_ok by lia. cbn [bind]. rewrite Hnk. destruct den as [dn|]; cbn [option_map evid1]; auto.
    rewrite (rd_ok _ dn s 0%Qc) by lia. cbn [bind].
    destruct (qzero (nth s dn 0%Qc)) eqn:Z; auto.
    rewrite (rd_ok _ _ k 0%Qc) by (rewrite set_nth_length; lia). cbn [bind].
    rewrite nth_set_nth_eq by lia. apply qzero_false in Z. rewrite qdiv_ok by auto. cbn [bind].
    rewrite wr_ok by (rewrite set_nth_length; lia). now rewrite set_nth_twice.
  - rewrite E. cbn [bind]. eexists; split; [reflexivity|]. simpl. auto.
Qed.

(** ** init_potential *)
Lemma init_potential_ok : forall probs target m, wf target -> wf probs ->
  map_ok m (dims target) (dims probs) -> 0 < dimensionality probs ->
  exists t', init_potential probs target (Some m) = Ok (t', NO_ERROR) /\
    dims t' = dims target /\ wf t' /\
    forall ix, valid_ix (dims target) ix ->
      cell t' ix = (cell target ix * cell probs (sel m ix))%Qc.
Proof.
  intros probs target m HT HP (HM & HS) H0. unfold init_potential.
  destruct (Nat.eqb_spec (dimensionality probs) 0); [lia|].
  assert (Hpos : Forall (fun d => 0 < d) (dims target)) by (destruct HT; auto).
  assert (Hlm : length m = dimensionality probs) by (unfold dimensionality; rewrite <- HS; now rewrite sel_length).
  assert (Hdt : 0 < dimensionality target).
  { unfold dimensionality. destruct m as [|a m']; simpl in *; [lia|]. inversion HM; lia. }
  match goal with |- context [for_up 0 _ ?b _] => set (body := b) end.
  destruct (table_pointwise target (fun ix x => (x * cell probs (sel m ix))%Qc) body HT)
    as (d & E & _ & HW & H).
  - intros k d Hk HL Hnk. unfold body.
    rewrite inverse_mapping_ok; auto; [|unfold size_of_data; rewrite (wf_data_length target HT); auto
          |apply temp_index_length; lia].
    cbn [bind]. rewrite choose_ok; [|rewrite temp_index_length; lia|lia|now rewrite unflat_length].
    cbn [bind].
    assert (HV : valid_ix (dims probs) (sel m (unflat (dims target) k)))
      by (rewrite <- HS; apply sel_valid; auto; now apply unflat_valid).
    rewrite get_pointer_ok by (auto using wf_shape). cbn [bind].
    rewrite (rd_ok _ _ _ 0%Qc) by (rewrite (wf_data_length probs HP); now apply flat_lt). cbn [bind].
    rewrite (rd_ok _ d k 0%Qc) by lia. cbn [bind]. rewrite wr_ok by lia. now rewrite Hnk.
  - rewrite E. cbn [bind]. eexists; split; [reflexivity|]. simpl. auto.
Qed.

Lemma init_potential_scalar : forall probs target m, dimensionality probs = 0 ->
  init_potential probs target (Some m) = Ok (target, NO_ERROR).
Proof. intros. unfold init_potential. now rewrite H. Qed.

Lemma init_potential_nomap_ok : forall probs target, wf target -> wf probs ->
  dims probs = dims target ->
  exists t', init_potential probs target None = Ok (t', NO_ERROR) /\
    dims t' = dims target /\ wf t' /\
    forall ix, valid_ix (dims target) ix -> cell t' ix = (cell target ix * cell probs ix)%Qc.
Proof.
  intros probs target HT HP HD. unfold init_potential.
  assert (HLs : length (data probs) = length (data target))
    by (rewrite (wf_data_length _ HT), (wf_data_length _ HP); congruence).
  unfold size_of_data at 1 2. rewrite HLs, Nat.eqb_refl. cbn [negb].
  assert (Hpos : Forall (fun d => 0 < d) (dims target)) by (destruct HT; auto).
  match goal with |- context [for_up 0 _ ?b _] => set (body := b) end.
  destruct (table_pointwise target (fun ix x => (x * cell probs ix)%Qc) body HT)
    as (d & E & _ & HW & H).
  - intros k d Hk HL Hnk. unfold body.
    rewrite (rd_ok _ d k 0%Qc) by lia. cbn [bind].
    rewrite (rd_ok _ (data probs) k 0%Qc) by (rewrite HLs, (wf_data_length _ HT); lia). cbn [bind].
    rewrite wr_ok by lia. rewrite Hnk. unfold cell. rewrite HD, flat_unflat by auto. reflexivity.
  - rewrite E. cbn [bind]. eexists; split; [reflexivity|]. simpl. auto.
Qed.

Lemma init_potential_nomap_rejects : forall probs target,
  length (data probs) <> length (data target) ->
  init_potential probs target None = Ok (target, EFAULT).
Proof.
  intros probs target H. unfold init_potential, size_of_data.
  apply Nat.eqb_neq in H. now rewrite H.
Qed.

(** ** retract *)
Lemma retract_ok : forall p ref, wf p -> wf ref -> dims p = dims ref ->
  retract_potential p ref = Ok (ref, NO_ERROR).
Proof.
  intros p ref HP HR HD. unfold retract_potential.
  assert (Hdim : dimensionality p = dimensionality ref) by (unfold dimensionality; congruence).
  rewrite Hdim, Nat.eqb_refl. cbn [negb].
  destruct (for_up_inv bool (fun _ b => b = true)
     (fun i same => let* c := rd (card_array p) i in let* r := rd (card_array ref) i in
         Ok (same && Nat.eqb c r)%bool) 0 (dimensionality ref) true) as (b & E & ->); auto; try lia.
  { intros i b Hi ->. rewrite !card_array_rd by lia. cbn [bind]. rewrite HD, Nat.eqb_refl. eauto. }
  rewrite E. cbn [bind].
  assert (HL : length (data p) = length (data ref))
    by (rewrite (wf_data_length _ HP), (wf_data_length _ HR); congruence).
  destruct (for_up_fill Qc 0%Qc (fun i => nth i (data ref) 0%Qc)
     (fun i d => let* x := rd (data ref) i in wr d i x) (data p) (size_of_data p)) as (d & Ed & HLd & H); auto.
  { unfold size_of_data. intros i l' Hi HLl. rewrite (rd_ok _ _ i 0%Qc) by lia. cbn [bind].
    now rewrite wr_ok by lia. }
  rewrite Ed. cbn [bind]. unfold size_of_data in *. do 2 f_equal. destruct ref as [dr xr]; simpl in *.
  rewrite HD. f_equal. apply (list_ext_nth _ 0%Qc); [congruence|]. intros; apply H; lia.
Qed.

Lemma retract_rejects : forall p ref, dims p <> dims ref ->
  retract_potential p ref = Ok (p, EINVAL).
Proof.
  intros p ref HD. unfold retract_potential.
  destruct (Nat.eqb_spec (dimensionality p) (dimensionality ref)) as [Hdim|]; cbn [negb]; auto.
  destruct (for_up_inv bool (fun n b => b = true <-> (forall i, i < n -> nth i (dims p) 0 = nth i (dims ref) 0))
     (fun i same => let* c := rd (card_array p) i in let* r := rd (card_array ref) i in
         Ok (same && Nat.eqb c r)%bool) 0 (dimensionality p) true) as (b & E & Hb).
  { lia. } { split; auto. intros; lia. }
  { intros i b Hi Hb. rewrite !card_array_rd by lia. cbn [bind]. eexists; split; [reflexivity|].
    rewrite Bool.andb_true_iff, Hb, Nat.eqb_eq. split.
    - intros (A & B) j Hj. destruct (Nat.eq_dec j i); [subst; auto|apply A; lia].
    - intros A. split; [intros; apply A; lia|apply A; lia]. }
  rewrite E. cbn [bind]. destruct b; auto. exfalso. apply HD.
  apply (list_ext_nth _ 0); [exact Hdim|]. intros i Hi. apply Hb; auto.
Qed.

(** ** normalise *)
Lemma normalise_array_at_ok : forall l off n, off + n <= length l ->
  exists l', normalise_array_at l off n = Ok l' /\ length l' = length l /\
    let s := qsum (map (fun i => nth (off + i) l 0%Qc) (seq 0 n)) in
    (forall i, i < n -> nth (off + i) l' 0%Qc =
        if qzero s then nth (off + i) l 0%Qc else (nth (off + i) l 0 / s)%Qc) /\
    (forall k, k < off \/ off + n <= k -> nth k l' 0%Qc = nth k l 0%Qc).
Proof.
  intros l off n HL. unfold normalise_array_at.
  destruct (for_up_inv Qc (fun i s => s = qsum (map (fun i => nth (off + i) l 0%Qc) (seq 0 i)))
     (fun i sum => let* x := rd l (off + i) in Ok (sum + x)%Qc) 0 n 0%Qc) as (s & E & Hs).
  { lia. } { reflexivity. }
  { intros i s Hi ->. rewrite (rd_ok _ l _ 0%Qc) by lia. cbn [bind]. eexists; split; [reflexivity|].
    rewrite seq_S, map_app, qsum_app. simpl. ring. }
  rewrite E. cbn [bind]. rewrite <- Hs. cbv zeta.
  destruct (qzero s) eqn:Z.
  - exists l. auto.
  - apply qzero_false in Z.
    match goal with |- context [for_up 0 _ ?b _] => set (body := b) end.
    destruct (for_up_inv (list Qc) (fun i l' => length l' = length l /\
       (forall j, j < i -> nth (off + j) l' 0%Qc = (nth (off + j) l 0 / s)%Qc) /\
       (forall k, k < off \/ off + i <= k -> nth k l' 0%Qc = nth k l 0%Qc)) body 0 n l)
      as (l' & E' & H1 & H2 & H3).
    + lia.
    + repeat split; auto. intros; lia.
    + intros i l' Hi (H1 & H2 & H3). unfold body. rewrite (rd_ok _ l' _ 0%Qc) by lia. cbn [bind].
      rewrite qdiv_ok by auto. cbn [bind]. rewrite wr_ok by lia. eexists; split; [reflexivity|].
      rewrite set_nth_length. repeat split; auto.
      * intros j Hj. rewrite nth_set_nth by lia. destruct (Nat.eqb_spec (off + j) (off + i)).
        -- replace j with i by lia. rewrite H3 by lia. reflexivity.
        -- apply H2; lia.
      * intros k Hk. rewrite nth_set_nth by lia. destruct (Nat.eqb_spec k (off + i)); [lia|].
        apply H3; lia.
    + exists l'. auto.
Qed.

Definition normalised (l : list Qc) : list Qc :=
  if qzero (qsum l) then l else map (fun x => (x / qsum l)%Qc) l.

Lemma normalise_array_ok : forall l, normalise_array l (length l) = Ok (normalised l).
Proof.
  intros l. unfold normalise_array.
  destruct (normalise_array_at_ok l 0 (length l)) as (l' & E & HL & H & _); [lia|].
  rewrite E. f_equal. simpl in H. rewrite map_nth_seq in H.
  unfold normalised. destruct (qzero (qsum l)).
  - apply (list_ext_nth _ 0%Qc); auto. intros; apply H; lia.
  - apply (list_ext_nth _ 0%Qc); [now rewrite map_length|]. intros i Hi.
    rewrite H by lia. now rewrite (nth_map _ _ _ _ _ 0%Qc) by lia.
Qed.

Lemma normalised_sum : forall l, qsum l <> 0%Qc -> qsum (normalised l) = 1%Qc.
Proof.
  intros l H. unfold normalised. apply qzero_false in H. rewrite H. apply qzero_false in H.
  unfold Qcdiv. rewrite qsum_map_scale_r. rewrite map_id. field. auto.
Qed.

Lemma normalised_idem : forall l, normalised (normalised l) = normalised l.
Proof.
  intros l. destruct (Qc_eq_dec (qsum l) 0%Qc) as [E|N].
  - unfold normalised at 2 3. apply qzero_true in E. rewrite E. unfold normalised. now rewrite E.
  - pose proof (normalised_sum l N) as S1. unfold normalised at 1. rewrite S1.
    assert (Z : qzero 1%Qc = false) by (apply qzero_false; discriminate). rewrite Z.
    rewrite <- map_id. apply map_ext. intros x. field. discriminate.
Qed.

Lemma normalise_potential_ok : forall p,
  normalise_potential (Some p) = Ok (Some (mkPot (dims p) (normalised (data p))), NO_ERROR).
Proof.
  intros p. unfold normalise_potential, size_of_data. now rewrite normalise_array_ok.
Qed.

Lemma normalised_length : forall l, length (normalised l) = length l.
Proof. intros l. unfold normalised. destruct (qzero _); auto. now rewrite map_length. Qed.

Lemma nth_normalised : forall l i, nth i (normalised l) 0%Qc =
  if qzero (qsum l) then nth i l 0%Qc else (nth i l 0 / qsum l)%Qc.
Proof.
  intros l i. unfold normalised. destruct (qzero (qsum l)); auto.
  destruct (Nat.lt_ge_cases i (length l)).
  - now rewrite (nth_map _ _ _ _ _ 0%Qc) by auto.
  - rewrite !nth_overflow; auto; [|now rewrite map_length]. unfold Qcdiv. ring.
Qed.

(** ** normalise_cpd *)
Definition block_norm (d : list Qc) (n c j : nat) : Qc :=
  let s := qsum (map (fun i => nth (n * c + i) d 0%Qc) (seq 0 n)) in
  if qzero s then nth (n * c + j) d 0%Qc else (nth (n * c + j) d 0 / s)%Qc.

Lemma normalise_blocks_ok : forall r fuel d b n, 0 < n -> r < fuel -> length d = n * (b + r) ->
  exists d', normalise_blocks fuel d (n * b) (n * (b + r)) n = Ok d' /\ length d' = length d /\
    (forall k, k < n * b -> nth k d' 0%Qc = nth k d 0%Qc) /\
    (forall c j, b <= c < b + r -> j < n -> nth (n * c + j) d' 0%Qc = block_norm d n c j).
Proof.
  induction r as [|r IH]; intros fuel d b n Hn Hf HL; (destruct fuel as [|fuel]; [lia|]); simpl.
  - rewrite Nat.add_0_r, Nat.ltb_irrefl. exists d. repeat split; auto. intros; lia.
  - assert (n * b < n * (b + S r)) by nia.
    destruct (Nat.ltb_spec (n * b) (n * (b + S r))); [|lia].
    destruct (normalise_array_at_ok d (n * b) n) as (d1 & E1 & HL1 & H1 & H1'); [nia|].
    rewrite E1. cbn [bind]. simpl in H1.
    replace (n * b + n) with (n * S b) by lia. replace (b + S r) with (S b + r) by lia.
    destruct (IH fuel d1 (S b) n Hn ltac:(lia) ltac:(lia)) as (d2 & E2 & HL2 & H2 & H2').
    rewrite E2. exists d2. split; auto. split; [lia|]. split.
    + intros k Hk. rewrite H2 by lia. apply H1'. lia.
    + intros c j Hc Hj. destruct (Nat.eq_dec c b) as [->|N].
      * rewrite H2 by nia. rewrite H1 by auto. reflexivity.
      * rewrite H2' by lia. unfold block_norm.
        assert (Q : forall i, i < n -> nth (n * c + i) d1 0%Qc = nth (n * c + i) d 0%Qc)
          by (intros i Hi; apply H1'; right; nia).
        rewrite (qsum_map_ext _ (fun i => nth (n * c + i) d1 0%Qc) (fun i => nth (n * c + i) d 0%Qc)).
        -- now rewrite Q.
        -- intros i Hi. apply in_seq in Hi. apply Q; lia.
Qed.

Lemma normalise_cpd_ok : forall p, wf p -> 0 < dimensionality p ->
  exists p', normalise_cpd (Some p) = Ok (Some p', NO_ERROR) /\ dims p' = dims p /\ wf p' /\
    forall j t, valid_ix (dims p) (j :: t) ->
      cell p' (j :: t) = if qzero (colsum p t) then cell p (j :: t)
                         else (cell p (j :: t) / colsum p t)%Qc.
Proof.
  intros p HW H0. pose proof HW as (HP & HL & HM). unfold normalise_cpd.
  rewrite card_array_rd by auto. cbn [bind].
  unfold dimensionality in H0. destruct (dims p) as [|d0 ds] eqn:ED; [simpl in H0; lia|].
  inversion HP; subst. cbn [nth]. simpl in HL.
  destruct (normalise_blocks_ok (prod ds) (S (size_of_data p)) (data p) 0 d0) as (d' & E & HLd & _ & H).
  - auto.
  - unfold size_of_data. rewrite HL. nia.
  - simpl. auto.
  - unfold size_of_data in *. rewrite Nat.mul_0_r, Nat.add_0_l in E. rewrite <- HL in E.
    rewrite E. cbn [bind]. eexists; split; [reflexivity|]. cbn [dims]. split; auto.
    assert (HW' : wf (mkPot (d0 :: ds) d')) by (repeat split; simpl; auto; lia).
    split; auto. intros j t HV. inversion HV; subst.
    assert (Hc : forall i, cell p (i :: t) = nth (d0 * flat ds t + i) (data p) 0%Qc)
      by (intros i; unfold cell; rewrite ED; simpl; f_equal; lia).
    unfold colsum. rewrite ED. cbn [hd].
    rewrite (qsum_map_ext _ (fun j => cell p (j :: t)) (fun i => nth (d0 * flat ds t + i) (data p) 0%Qc))
      by (intros; apply Hc).
    unfold cell at 1. simpl. rewrite Nat.add_comm. rewrite H; auto.
    + unfold block_norm. now rewrite !Hc.
    + split; [lia|]. simpl. now apply flat_lt.
Qed.

Lemma colsum_normalised : forall p p' t, dims p' = dims p ->
  (forall j t, valid_ix (dims p) (j :: t) ->
      cell p' (j :: t) = if qzero (colsum p t) then cell p (j :: t)
                         else (cell p (j :: t) / colsum p t)%Qc) ->
  valid_ix (tl (dims p)) t -> dims p <> [] ->
  colsum p' t = if qzero (colsum p t) then 0%Qc else 1%Qc.
Proof.
  intros p p' t HD H HV HN. destruct (dims p) as [|d ds] eqn:ED; [congruence|]. simpl in HV.
  unfold colsum at 1. rewrite HD. cbn [hd].
  rewrite (qsum_map_ext _ _ (fun j => if qzero (colsum p t) then cell p (j :: t)
                         else (cell p (j :: t) / colsum p t)%Qc)).
  - destruct (qzero (colsum p t)) eqn:Z.
    + apply qzero_true in Z. unfold colsum in Z. rewrite ED in Z. exact Z.
    + apply qzero_false in Z. unfold Qcdiv. rewrite qsum_map_scale_r.
      replace (qsum (map (fun x => cell p (x :: t)) (seq 0 d))) with (colsum p t)
        by (unfold colsum; now rewrite ED). field. auto.
  - intros j Hj. apply in_seq in Hj. apply H. constructor; auto; lia.
Qed.

Lemma normalise_cpd_idem : forall p p', wf p -> 0 < dimensionality p ->
  normalise_cpd (Some p) = Ok (Some p', NO_ERROR) ->
  normalise_cpd (Some p') = Ok (Some p', NO_ERROR).
Proof.
  intros p p' HW H0 E. destruct (normalise_cpd_ok p HW H0) as (q & E1 & HD & HWq & H).
  rewrite E in E1. inversion E1; subst q. clear E1.
  assert (H0' : 0 < dimensionality p') by (unfold dimensionality in *; congruence).
  destruct (normalise_cpd_ok p' HWq H0') as (q & E2 & HD2 & HW2 & H2).
  rewrite E2. do 3 f_equal. apply pot_ext; auto. intros ix HV. rewrite HD2 in HV.
  destruct ix as [|j t]. { apply valid_ix_length in HV. unfold dimensionality in H0'. simpl in HV. lia. }
  rewrite H2 by auto.
  assert (HVt : valid_ix (tl (dims p)) t) by (rewrite HD in HV; inversion HV; auto).
  rewrite (colsum_normalised p p' t HD H HVt).
  - destruct (qzero (colsum p t)) eqn:Z.
    + assert (qzero 0%Qc = true) as -> by now apply qzero_true. auto.
    + assert (qzero 1%Qc = false) as -> by (apply qzero_false; discriminate). field. discriminate.
  - unfold dimensionality in H0. destruct (dims p); simpl in *; [lia|discriminate].
Qed.

(** ** sum_potential *)
Lemma sum_potential_ok : forall s inc, wf s -> wf inc -> dims s = dims inc ->
  exists s', sum_potential (Some s) (Some inc) = Ok (Some s', NO_ERROR) /\ dims s' = dims s /\ wf s' /\
    forall ix, valid_ix (dims s) ix -> cell s' ix = (cell s ix + cell inc ix)%Qc.
Proof.
  intros s inc HS HI HD. unfold sum_potential.
  assert (HLs : length (data s) = length (data inc))
    by (rewrite (wf_data_length _ HS), (wf_data_length _ HI); congruence).
  unfold size_of_data at 1 2. rewrite HLs, Nat.eqb_refl. cbn [negb].
  assert (Hpos : Forall (fun d => 0 < d) (dims s)) by (destruct HS; auto).
  match goal with |- context [for_up 0 _ ?b _] => set (body := b) end.
  destruct (table_pointwise s (fun ix x => (x + cell inc ix)%Qc) body HS)
    as (d & E & _ & HW & H).
  - intros k d Hk HL Hnk. unfold body.
    rewrite (rd_ok _ d k 0%Qc) by lia. cbn [bind].
    rewrite (rd_ok _ (data inc) k 0%Qc) by (rewrite <- HLs, (wf_data_length _ HS); lia). cbn [bind].
    rewrite wr_ok by lia. rewrite Hnk. unfold cell. rewrite <- HD, flat_unflat by auto. reflexivity.
  - rewrite E. cbn [bind]. eexists; split; [reflexivity|]. simpl. auto.
Qed.

(** ** normalise_dimension: divides by the marginal of the chosen variable *)
Lemma normalise_dimension_ok : forall p k, wf p -> k < dimensionality p ->
  (Z.of_nat (nth k (dims p) 0%nat) <= INT_MAX)%Z ->
  exists p', normalise_dimension (Some p) (Z.of_nat k) = Ok (Some p', NO_ERROR) /\
    dims p' = dims p /\ wf p' /\
    forall ix, valid_ix (dims p) ix ->
      cell p' ix = if qzero (marg p [k] [nth k ix 0]) then 0%Qc
                   else (cell p ix / marg p [k] [nth k ix 0%nat])%Qc.
Proof.
  intros p k HW Hk HI. unfold normalise_dimension.
  destruct (Z.ltb_spec (Z.of_nat k) 0); [lia|].
  destruct (Z.leb_spec (Z.of_nat (dimensionality p)) (Z.of_nat k)); [lia|]. cbn [orb].
  rewrite Nat2Z.id, card_array_rd by auto. cbn [bind]. set (c := nth k (dims p) 0) in *.
  assert (Hc : 0 < c).
  { destruct HW as (HP & _). rewrite Forall_forall in HP. apply HP, nth_In. auto. }
  destruct (new_potential_ok [c] 1 None) as (dn & E1 & HWd & HDd & _).
  { split; [repeat constructor; auto|]. simpl. now rewrite Nat.mul_1_r. }
  { simpl; lia. } { exact I. }
  change (Z.of_nat 1) with 1%Z in E1. rewrite E1. cbn [bind]. simpl in HDd.
  assert (HM : map_ok [k] (dims p) (dims dn)) by (split; [repeat constructor; auto|rewrite HDd; reflexivity]).
  destruct (general_marginalise_ok p dn [k] HW HWd HM) as (dn' & E2 & HDd' & HWd' & Hm).
  { unfold dimensionality in *. rewrite HDd. simpl. lia. }
  rewrite E2. cbn [bind].
  destruct (update_potential_ok None (Some dn') p [k]) as (p' & E3 & HD3 & HW3 & H3); auto.
  { right; discriminate. } { exact I. } { split; auto. now rewrite HDd'. } { simpl. lia. }
  rewrite E3. cbn [bind]. exists p'. split; auto. split; auto. split; auto.
  intros ix HV. rewrite H3 by auto. cbn [option_map absorb1].
  assert (Es : sel [k] ix = [nth k ix 0]) by reflexivity. rewrite Es.
  rewrite Hm; [reflexivity|]. rewrite HDd. constructor; [|constructor].
  now apply valid_ix_nth.
Qed.
