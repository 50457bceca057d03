(** * Proofs about potentials, in the form of the property statements *)
From Verif Require Import Base BaseProofs PotentialModel PotentialSpec
  PotentialProofs PotentialProofs2 PotentialProofs3.
From Coq Require Import Permutation Field QArith_base.
Open Scope nat_scope.
Import ListNotations.

Add Field Qcfield4 : Qcft.

Lemma C01_set_then_get_lemma : forall p ix v, wf p -> valid_ix (dims p) ix ->
  exists p', set_potential_value p ix v = Ok p' /\
    get_potential_value p' ix = Ok v /\
    (forall jx, valid_ix (dims p) jx -> jx <> ix ->
       exists x, get_potential_value p jx = Ok x /\ get_potential_value p' jx = Ok x).
Proof.
  intros p ix v HW HV. destruct (set_value_ok p ix v HW HV) as (p' & E & HD & HW' & H1 & H2).
  exists p'. split; auto. split.
  - rewrite get_value_ok; auto; [congruence|now rewrite HD].
  - intros jx HJ N. exists (cell p jx). split; [now apply get_value_ok|].
    rewrite get_value_ok; auto; [now rewrite H2|now rewrite HD].
Qed.

Lemma C01_inverse_mapping_lemma : forall p k scratch, wf p -> k < size_of_data p ->
  length scratch = dimensionality p ->
  exists ix, inverse_mapping p k scratch = Ok ix /\ valid_ix (dims p) ix /\
    get_potential_pointer p ix = Ok k /\
    (forall jx, valid_ix (dims p) jx -> get_potential_pointer p jx = Ok k -> jx = ix).
Proof.
  intros p k scratch HW Hk HL. exists (unflat (dims p) k).
  assert (HP : Forall (fun d => 0 < d) (dims p)) by (destruct HW; auto).
  assert (HV : valid_ix (dims p) (unflat (dims p) k)) by now apply unflat_valid.
  assert (Hk' : k < prod (dims p)) by (rewrite <- (wf_data_length p HW); auto).
  split; [now apply inverse_mapping_ok|]. split; auto.
  split.
  - rewrite get_pointer_ok by (auto using wf_shape). now rewrite flat_unflat.
  - intros jx HJ E. rewrite get_pointer_ok in E by (auto using wf_shape). inversion E.
    now rewrite unflat_flat.
Qed.

Lemma filter_true : forall A (f : A -> bool) l, (forall x, In x l -> f x = true) -> filter f l = l.
Proof.
  induction l; intros H; simpl; auto. rewrite H by (left; auto). f_equal. apply IHl. intros; apply H; right; auto.
Qed.

Lemma C02_marginalise_scalar_lemma : forall src dst m, wf src -> wf dst -> dims dst = [] ->
  exists dst', general_marginalise src dst m = Ok (dst', NO_ERROR) /\
    dims dst' = [] /\ cell dst' [] = total src.
Proof.
  intros src dst m HS HD HE.
  assert (E : general_marginalise src dst m = general_marginalise src dst []).
  { unfold general_marginalise.
    assert (dimensionality dst = 0) as -> by (unfold dimensionality; now rewrite HE). reflexivity. }
  destruct (general_marginalise_ok src dst [] HS HD) as (d & Ed & Hd & HW & H).
  - rewrite HE. split; constructor.
  - unfold dimensionality. rewrite HE. simpl. lia.
  - exists d. rewrite E. split; auto. split; [congruence|]. rewrite H by (rewrite HE; constructor).
    unfold marg, total. rewrite filter_true; auto.
Qed.

Lemma C03_mass_conserved_lemma : forall src dst m, wf src -> wf dst ->
  map_ok m (dims src) (dims dst) -> dimensionality dst <= dimensionality src ->
  exists dst', general_marginalise src dst m = Ok (dst', NO_ERROR) /\ total dst' = total src.
Proof.
  intros src dst m HS HD HM Hdim.
  destruct (general_marginalise_ok src dst m HS HD HM Hdim) as (d & E & Hd & HW & H).
  exists d. split; auto. unfold total at 1. rewrite Hd. destruct HM as (M1 & M2).
  rewrite <- (marg_total src m (dims dst) M1 M2). apply qsum_map_ext.
  intros ix Hix. apply H. now apply all_ix_valid.
Qed.

Lemma C03_two_steps_lemma : forall p q r m1 m2, wf p -> wf q -> wf r ->
  map_ok m1 (dims p) (dims q) -> map_ok m2 (dims q) (dims r) ->
  dimensionality q <= dimensionality p -> dimensionality r <= dimensionality q ->
  exists q' r', general_marginalise p q m1 = Ok (q', NO_ERROR) /\
    general_marginalise q' r m2 = Ok (r', NO_ERROR) /\
    general_marginalise p r (sel m2 m1) = Ok (r', NO_ERROR).
Proof.
  intros p q r m1 m2 HP HQ HR HM1 HM2 D1 D2.
  destruct (general_marginalise_ok p q m1 HP HQ HM1 D1) as (q' & E1 & Hd1 & HW1 & H1).
  assert (HM2' : map_ok m2 (dims q') (dims r)) by now rewrite Hd1.
  destruct (general_marginalise_ok q' r m2 HW1 HR HM2') as (r' & E2 & Hd2 & HW2 & H2).
  { unfold dimensionality in *. now rewrite Hd1. }
  destruct HM1 as (A1 & A2). destruct HM2 as (B1 & B2).
  assert (HL : length m1 = length (dims q)) by (rewrite <- A2; now rewrite sel_length).
  assert (B1' : Forall (fun k => k < length m1) m2) by now rewrite HL.
  assert (HM3 : map_ok (sel m2 m1) (dims p) (dims r)).
  { split.
    - apply Forall_forall. intros x Hx. unfold sel in Hx. apply in_map_iff in Hx.
      destruct Hx as (k & <- & Hk). rewrite Forall_forall in A1, B1'. apply A1, nth_In, B1', Hk.
    - rewrite <- sel_sel by auto. congruence. }
  destruct (general_marginalise_ok p r (sel m2 m1) HP HR HM3) as (r'' & E3 & Hd3 & HW3 & H3).
  { lia. }
  exists q', r'. repeat split; auto. rewrite E3. do 2 f_equal. apply pot_ext; auto; [congruence|].
  intros ix HV. rewrite Hd3 in HV. rewrite H3, H2 by auto. symmetry.
  apply marg_marg; auto; [congruence|]. intros jx HJ. apply H1. congruence.
Qed.

Lemma marg_single : forall p v i, marg p [v] [i] =
  qsum (map (cell p) (filter (fun jx => Nat.eqb (nth v jx 0) i) (all_ix (dims p)))).
Proof.
  intros p v i. unfold marg. f_equal. f_equal. apply filter_ext. intros jx. simpl.
  destruct (Nat.eqb_spec (nth v jx 0) i) as [->|N].
  - apply ix_eqb_refl.
  - destruct (ix_eqb _ _) eqn:Z; auto. apply ix_eqb_true in Z. congruence.
Qed.

Lemma C04_total_marginalise_lemma : forall src dest v, wf src -> v < dimensionality src ->
  nth v (dims src) 0 <= length dest ->
  exists dest', total_marginalise src dest (Z.of_nat v) = Ok (dest', NO_ERROR) /\
    length dest' = length dest /\
    (forall i, i < nth v (dims src) 0 -> nth i dest' 0%Qc =
       qsum (map (cell src) (filter (fun jx => Nat.eqb (nth v jx 0) i) (all_ix (dims src))))) /\
    (forall i, nth v (dims src) 0 <= i -> nth i dest' 0%Qc = nth i dest 0%Qc).
Proof.
  intros src dest v HS Hv HL. destruct (total_marginalise_ok src dest v HS Hv HL) as (d & E & H1 & H2 & H3).
  exists d. repeat split; auto. intros i Hi. rewrite H2 by auto. apply marg_single.
Qed.

Lemma C04_agrees_lemma : forall src dst dest v, wf src -> wf dst ->
  v < dimensionality src -> dims dst = [nth v (dims src) 0] ->
  length dest = nth v (dims src) 0 ->
  exists dst', general_marginalise src dst [v] = Ok (dst', NO_ERROR) /\
    total_marginalise src dest (Z.of_nat v) = Ok (data dst', NO_ERROR).
Proof.
  intros src dst dest v HS HD Hv HE HL.
  destruct (total_marginalise_ok src dest v HS Hv ltac:(lia)) as (d & E & H1 & H2 & H3).
  destruct (general_marginalise_ok src dst [v] HS HD) as (d' & E' & Hd' & HW' & H').
  - split; [repeat constructor; auto|now rewrite HE].
  - unfold dimensionality in *. rewrite HE. simpl. lia.
  - exists d'. split; auto. rewrite E. do 2 f_equal.
    apply (list_ext_nth _ 0%Qc).
    + rewrite H1, HL, (wf_data_length d' HW'), Hd', HE. simpl. lia.
    + intros i Hi. assert (Hlt : i < nth v (dims src) 0) by lia. rewrite H2 by auto. rewrite <- H'.
      * unfold cell. rewrite Hd', HE. simpl. f_equal. lia.
      * rewrite HE. repeat constructor; auto.
Qed.

Lemma C05_update_lemma : forall num den target m,
  wf target -> (num <> None \/ den <> None) ->
  (forall n, num = Some n -> wf n /\ map_ok m (dims target) (dims n)) ->
  (forall d, den = Some d -> wf d /\ map_ok m (dims target) (dims d)) ->
  length m <= dimensionality target ->
  exists t', update_potential num den target m = Ok (t', NO_ERROR) /\
    dims t' = dims target /\ wf t' /\
    forall ix, valid_ix (dims target) ix ->
      let factor := match num with Some n => cell n (sel m ix) | None => 1%Qc end in
      match den with
      | None => cell t' ix = (cell target ix * factor)%Qc
      | Some d =>
          (cell d (sel m ix) = 0%Qc -> cell t' ix = 0%Qc) /\
          (cell d (sel m ix) <> 0%Qc -> cell t' ix = (cell target ix * factor / cell d (sel m ix))%Qc)
      end.
Proof.
  intros num den target m HT Hne HN HD Hl.
  destruct (update_potential_ok num den target m) as (t' & E & Hd & HW & H); auto.
  - destruct num; simpl; auto.
  - destruct den; simpl; auto.
  - exists t'. do 3 (split; [auto|]). intros ix HV. cbv zeta. rewrite H by auto. unfold absorb1.
    destruct den as [d|]; cbn [option_map].
    + split; intros Z.
      * apply qzero_true in Z. now rewrite Z.
      * pose proof Z as Z'. apply qzero_false in Z. rewrite Z. destruct num; cbn [option_map]; auto.
        field; auto.
    + destruct num; cbn [option_map]; ring.
Qed.

Lemma C06_absorb_lemma : forall target num den m, wf target -> wf num -> wf den ->
  map_ok m (dims target) (dims num) -> dims den = dims num -> length m <= dimensionality target ->
  (forall ix, valid_ix (dims num) ix ->
     cell den ix = qsum (map (cell target) (filter (fun jx => ix_eqb (sel m jx) ix) (all_ix (dims target))))) ->
  (forall ix, valid_ix (dims num) ix -> cell den ix = 0%Qc -> cell num ix = 0%Qc) ->
  exists t' s', update_potential (Some num) (Some den) target m = Ok (t', NO_ERROR) /\
    general_marginalise t' den m = Ok (s', NO_ERROR) /\ s' = num.
Proof.
  intros target num den m HT HN HD (HM1 & HM2) HE HL Hm Hz.
  destruct (update_potential_ok (Some num) (Some den) target m) as (t' & E & Hd & HW & H); auto.
  { left; discriminate. } { split; [auto|split; auto]. } { split; [auto|split; auto; congruence]. }
  destruct (general_marginalise_ok t' den m HW HD) as (s' & E' & Hd' & HW' & H').
  { split; rewrite Hd; auto. congruence. }
  { unfold dimensionality in *. rewrite HE, <- HM2, sel_length, Hd. auto. }
  exists t', s'. repeat split; auto. apply pot_ext; auto; [congruence|].
  intros ix HV. rewrite Hd', HE in HV. rewrite H' by (now rewrite HE).
  eapply absorb_marginal with (target := target) (den := den); eauto.
Qed.

Lemma C07_normalise_array_lemma : forall l,
  exists l', normalise_array l (length l) = Ok l' /\ length l' = length l /\
    (qsum l = 0%Qc -> l' = l) /\
    (qsum l <> 0%Qc -> qsum l' = 1%Qc /\ forall i, nth i l' 0%Qc = (nth i l 0 / qsum l)%Qc) /\
    normalise_array l' (length l') = Ok l'.
Proof.
  intros l. exists (normalised l). split; [apply normalise_array_ok|]. split; [apply normalised_length|].
  split; [|split].
  - intros Z. apply qzero_true in Z. unfold normalised. now rewrite Z.
  - intros N. split; [now apply normalised_sum|]. intros i. rewrite nth_normalised.
    apply qzero_false in N. now rewrite N.
  - rewrite normalise_array_ok. now rewrite normalised_idem.
Qed.

Lemma C07_normalise_potential_lemma : forall p, wf p ->
  exists p', normalise_potential (Some p) = Ok (Some p', NO_ERROR) /\ dims p' = dims p /\ wf p' /\
    (total p = 0%Qc -> p' = p) /\
    (total p <> 0%Qc -> total p' = 1%Qc /\
       forall ix, valid_ix (dims p) ix -> cell p' ix = (cell p ix / total p)%Qc) /\
    normalise_potential (Some p') = Ok (Some p', NO_ERROR).
Proof.
  intros p HW. exists (mkPot (dims p) (normalised (data p))).
  assert (HW' : wf (mkPot (dims p) (normalised (data p))))
    by (apply wf_same_shape; auto; apply normalised_length).
  rewrite !total_data by (apply wf_data_length; auto). cbn [data].
  split; [apply normalise_potential_ok|]. split; auto. split; auto. split; [|split].
  - intros Z. apply qzero_true in Z. unfold normalised. rewrite Z. now destruct p.
  - intros N. split; [now apply normalised_sum|]. intros ix HV. unfold cell. cbn [data dims].
    rewrite nth_normalised. apply qzero_false in N. now rewrite N.
  - rewrite normalise_potential_ok. cbn [data dims]. now rewrite normalised_idem.
Qed.

Lemma C08_normalise_cpd_lemma : forall p, wf p -> 0 < dimensionality p ->
  exists p', normalise_cpd (Some p) = Ok (Some p', NO_ERROR) /\ dims p' = dims p /\ wf p' /\
    (forall t, valid_ix (tl (dims p)) t ->
       (colsum p t = 0%Qc -> forall j, j < hd 1 (dims p) -> cell p' (j :: t) = cell p (j :: t)) /\
       (colsum p t <> 0%Qc -> colsum p' t = 1%Qc /\
          forall j, j < hd 1 (dims p) -> cell p' (j :: t) = (cell p (j :: t) / colsum p t)%Qc)) /\
    normalise_cpd (Some p') = Ok (Some p', NO_ERROR).
Proof.
  intros p HW H0. destruct (normalise_cpd_ok p HW H0) as (p' & E & HD & HW' & H).
  assert (HN : dims p <> []) by (unfold dimensionality in H0; destruct (dims p); simpl in *; [lia|discriminate]).
  exists p'. split; auto. split; auto. split; auto. split; [|exact (normalise_cpd_idem p p' HW H0 E)].
  intros t HV.
  assert (HV' : forall j, j < hd 1 (dims p) -> valid_ix (dims p) (j :: t)).
  { intros j Hj. destruct (dims p); [congruence|]. constructor; auto. }
  split; intros Z.
  - intros j Hj. rewrite H by auto. apply qzero_true in Z. now rewrite Z.
  - apply qzero_false in Z. split.
    + rewrite (colsum_normalised p p' t HD H HV HN). now rewrite Z.
    + intros j Hj. rewrite H by auto. now rewrite Z.
Qed.

Lemma dim_le_prod : forall ds k, Forall (fun d => 0 < d) ds -> k < length ds -> nth k ds 0 <= prod ds.
Proof.
  induction ds as [|d ds IH]; intros k HF Hk; simpl in *; [lia|]. inversion HF; subst.
  pose proof (prod_pos ds H2). destruct k; [nia|]. specialize (IH k H2 ltac:(lia)). nia.
Qed.

Lemma C09_partial_lemma : forall p k, wf p -> k < dimensionality p ->
  exists p', normalise_dimension (Some p) (Z.of_nat k) = Ok (Some p', NO_ERROR) /\
    dims p' = dims p /\ wf p' /\
    forall ix, valid_ix (dims p) ix ->
      let s := qsum (map (cell p) (filter (fun jx => Nat.eqb (nth k jx 0) (nth k ix 0)) (all_ix (dims p)))) in
      (s = 0%Qc -> cell p' ix = 0%Qc) /\ (s <> 0%Qc -> cell p' ix = (cell p ix / s)%Qc).
Proof.
  intros p k HW Hk. pose proof HW as (HP & _ & HM).
  assert (Z.of_nat (nth k (dims p) 0%nat) <= INT_MAX)%Z.
  { pose proof (dim_le_prod (dims p) k HP Hk). lia. }
  destruct (normalise_dimension_ok p k HW Hk H) as (p' & E & HD & HW' & Hc).
  exists p'. do 3 (split; [auto|]). intros ix HV. cbv zeta. split; intros Z; rewrite Hc by auto; rewrite marg_single.
  - apply qzero_true in Z. now rewrite Z.
  - apply qzero_false in Z. now rewrite Z.
Qed.

Definition c09_witness : potential :=
  mkPot [2; 2] (map (fun n => Q2Qc (inject_Z n)) [1; 2; 3; 4]%Z).

Lemma C09_refuted_lemma :
  exists p, wf p /\ 0 < dimensionality p /\
    exists p1 p2, normalise_dimension (Some p) 0 = Ok (Some p1, NO_ERROR) /\
      normalise_cpd (Some p) = Ok (Some p2, NO_ERROR) /\ p1 <> p2 /\
      colsum p1 [0] <> 1%Qc.
Proof.
  exists c09_witness.
  assert (HW : wf c09_witness) by (repeat split; simpl; try (repeat constructor; lia); unfold INT_MAX; lia).
  split; auto. split; [vm_compute; lia|].
  destruct (normalise_dimension (Some c09_witness) 0) as [[[p1|] c1]| |] eqn:E1;
    try (vm_compute in E1; discriminate).
  destruct (normalise_cpd (Some c09_witness)) as [[[p2|] c2]| |] eqn:E2;
    try (vm_compute in E2; discriminate).
  exists p1, p2.
  assert (c1 = NO_ERROR) by (vm_compute in E1; congruence).
  assert (c2 = NO_ERROR) by (vm_compute in E2; congruence). subst c1 c2.
  split; auto. split; auto.
  assert (K : this (colsum p1 [0]) <> this 1%Qc).
  { assert (p1 = match normalise_dimension (Some c09_witness) 0 with Ok (Some p, _) => p | _ => c09_witness end) as ->
      by now rewrite E1. vm_compute. discriminate. }
  split.
  - intros ->. apply K.
    assert (p2 = match normalise_cpd (Some c09_witness) with Ok (Some p, _) => p | _ => c09_witness end) as ->
      by now rewrite E2. vm_compute. reflexivity.
  - intros C. apply K. now rewrite C.
Qed.

Lemma C10_new_lemma : forall cs init, Forall (fun d => 0 < d) cs -> (Z.of_nat (prod cs) <= INT_MAX)%Z ->
  (forall l, init = Some l -> length l = prod cs) ->
  exists p, new_potential cs (Z.of_nat (length cs)) init = Ok (Some p) /\ wf p /\ dims p = cs /\
    (init = None -> forall ix, valid_ix cs ix -> cell p ix = 1%Qc) /\
    (forall l, init = Some l -> data p = l).
Proof.
  intros cs init HP HM HI.
  destruct (new_potential_ok cs (length cs) init) as (p & E & HW & HD & Hd); rewrite ?firstn_all in *.
  - split; auto.
  - lia.
  - destruct init; auto. rewrite (HI l); auto.
  - exists p. do 3 (split; [auto|]). split.
    + intros -> ix HV. unfold cell. rewrite Hd, HD. apply nth_repeat_lt. now apply flat_lt.
    + intros l ->. rewrite Hd. rewrite <- (HI l) by auto. apply firstn_all.
Qed.

Lemma C10_new_rejects_lemma : forall cs n init, (n < 0)%Z -> new_potential cs n init = Ok None.
Proof. intros cs n init H. unfold new_potential. apply Z.ltb_lt in H. now rewrite H. Qed.

Lemma C10_retract_lemma : forall p ref, wf p -> wf ref ->
  (dims p = dims ref -> retract_potential p ref = Ok (ref, NO_ERROR)) /\
  (dims p <> dims ref -> retract_potential p ref = Ok (p, EINVAL)).
Proof. intros p ref HP HR. split; [now apply retract_ok|apply retract_rejects]. Qed.

Lemma C11_update_evidence_lemma : forall num den target v, wf target -> v < dimensionality target ->
  length num = nth v (dims target) 0 ->
  (forall d, den = Some d -> length d = nth v (dims target) 0) ->
  exists t', update_evidence num den target v = Ok t' /\ dims t' = dims target /\ wf t' /\
    forall ix, valid_ix (dims target) ix ->
      let y := nth (nth v ix 0) num 0%Qc in
      match den with
      | None => cell t' ix = (cell target ix * y)%Qc
      | Some d => let z := nth (nth v ix 0) d 0%Qc in
          (z = 0%Qc -> cell t' ix = (cell target ix * y)%Qc) /\
          (z <> 0%Qc -> cell t' ix = (cell target ix * y / z)%Qc)
      end.
Proof.
  intros num den target v HT Hv HN HD.
  destruct (update_evidence_ok num den target v HT Hv) as (t' & E & Hd & HW & H).
  - lia.
  - destruct den; auto. rewrite (HD l); auto.
  - exists t'. do 3 (split; [auto|]). intros ix HV. cbv zeta. specialize (H ix HV).
    destruct den as [d|]; cbn [option_map evid1] in H; auto.
    split; intros Z.
    + apply qzero_true in Z. now rewrite Z in H.
    + apply qzero_false in Z. now rewrite Z in H.
Qed.

Lemma C11_replace_evidence_lemma : forall e1 e2 target v, wf target -> v < dimensionality target ->
  length e1 = nth v (dims target) 0 -> length e2 = nth v (dims target) 0 ->
  (forall i, nth i e1 0%Qc = 0%Qc -> nth i e2 0%Qc = 0%Qc) ->
  exists t1 t2, update_evidence e1 None target v = Ok t1 /\
    update_evidence e2 (Some e1) t1 v = Ok t2 /\
    update_evidence e2 None target v = Ok t2.
Proof.
  intros e1 e2 target v HT Hv H1 H2 HZ.
  destruct (update_evidence_ok e1 None target v HT Hv) as (t1 & E1 & D1 & W1 & C1); [lia|auto|].
  assert (Hv1 : v < dimensionality t1) by (unfold dimensionality in *; congruence).
  destruct (update_evidence_ok e2 (Some e1) t1 v W1 Hv1) as (t2 & E2 & D2 & W2 & C2);
    [rewrite D1; lia|rewrite D1; lia|].
  destruct (update_evidence_ok e2 None target v HT Hv) as (t3 & E3 & D3 & W3 & C3); [lia|auto|].
  exists t1, t2. repeat split; auto. rewrite E3. f_equal. apply pot_ext; auto; [congruence|].
  intros ix HV. rewrite D3 in HV. rewrite C3 by auto. rewrite C2 by (now rewrite D1). rewrite C1 by auto.
  cbn [option_map evid1]. set (i := nth v ix 0).
  destruct (qzero (nth i e1 0%Qc)) eqn:Z.
  - apply qzero_true in Z. rewrite (HZ i Z), Z. ring.
  - apply qzero_false in Z. field. auto.
Qed.

Lemma C12_init_unmapped_lemma : forall probs target, wf target -> wf probs ->
  (dims probs = dims target ->
    exists t', init_potential probs target None = Ok (t', NO_ERROR) /\ dims t' = dims target /\ wf t' /\
      forall ix, valid_ix (dims target) ix -> cell t' ix = (cell target ix * cell probs ix)%Qc) /\
  (length (data probs) <> length (data target) ->
    init_potential probs target None = Ok (target, EFAULT)).
Proof.
  intros probs target HT HP. split.
  - now apply init_potential_nomap_ok.
  - apply init_potential_nomap_rejects.
Qed.
