(** * Proofs about the model of nippotential.c, part 2 *)
From Verif Require Import Base BaseProofs PotentialModel PotentialSpec PotentialProofs.
From Coq Require Import Permutation Field.
Import ListNotations.

Add Field Qcfield2 : Qcft.

Lemma wf_data_length : forall p, wf p -> length (data p) = prod (dims p).
Proof. intros p (_ & H & _); auto. Qed.

Lemma wf_same_shape : forall p d, wf p -> length d = length (data p) -> wf (mkPot (dims p) d).
Proof. intros p d (H1 & H2 & H3) H. repeat split; simpl; auto. congruence. Qed.

Lemma cell_unflat : forall p k, wf p -> k < prod (dims p) ->
  cell p (unflat (dims p) k) = nth k (data p) 0%Qc.
Proof. intros p k (HP & _) Hk. unfold cell. now rewrite flat_unflat. Qed.

(** Two well-formed potentials of the same shape and cells are equal. *)
Lemma pot_ext : forall p q, wf p -> wf q -> dims p = dims q ->
  (forall ix, valid_ix (dims p) ix -> cell p ix = cell q ix) -> p = q.
Proof.
  intros [dp xp] [dq xq] Hp Hq E H. simpl in *. subst dq. f_equal.
  pose proof (wf_data_length _ Hp) as L1. pose proof (wf_data_length _ Hq) as L2. simpl in *.
  apply (list_ext_nth _ 0%Qc); [congruence|]. intros k Hk.
  destruct Hp as (HP & _). simpl in HP.
  specialize (H (unflat dp k) (unflat_valid _ _ HP)). unfold cell in H. simpl in H.
  rewrite flat_unflat in H by (auto; lia). auto.
Qed.

(** ** marginalise *)
Lemma general_marginalise_ok : forall src dst m, wf src -> wf dst ->
  map_ok m (dims src) (dims dst) -> dimensionality dst <= dimensionality src ->
  exists dst', general_marginalise src dst m = Ok (dst', NO_ERROR) /\
    dims dst' = dims dst /\ wf dst' /\
    forall ix, valid_ix (dims dst) ix -> cell dst' ix = marg src m ix.
Proof.
  intros src dst m HS HD (HM & HSel) Hdim. unfold general_marginalise.
  destruct (Nat.ltb_spec (dimensionality src) (dimensionality dst)); [lia|].
  assert (Hmarg : forall ix, marg src m ix =
     qsum (map (fun k => nth k (data src) 0%Qc)
       (filter (fun k => ix_eqb (sel m (unflat (dims src) k)) ix) (seq 0 (length (data src)))))).
  { intros ix. unfold marg. rewrite (wf_data_length src HS). rewrite all_ix_unflat.
    rewrite !qsum_filter, map_map. apply qsum_map_ext. intros k Hk. apply in_seq in Hk.
    now rewrite cell_unflat by (auto; lia). }
  destruct (Nat.eqb_spec (dimensionality dst) 0) as [Hz|Hz].
  - unfold dimensionality in Hz. apply length_zero_iff_nil in Hz.
    assert (Hl : length (data dst) = 1) by (rewrite (wf_data_length dst HD), Hz; reflexivity).
    rewrite wr_ok by lia. cbn [bind].
    destruct (for_up_inv (list Qc)
      (fun i d => length d = 1 /\ nth 0 d 0%Qc = qsum (map (fun k => nth k (data src) 0%Qc) (seq 0 i)))
      (fun i d => let* x := rd d 0 in let* s := rd (data src) i in wr d 0 (x + s)%Qc)
      0 (size_of_data src) (set_nth (data dst) 0 0%Qc)) as (d & E & HL & Hd).
    + lia.
    + rewrite set_nth_length. split; auto. now rewrite nth_set_nth_eq by lia.
    + intros i d Hi (HL & Hd). unfold size_of_data in Hi.
      rewrite (rd_ok _ d 0 0%Qc) by lia. cbn [bind]. rewrite (rd_ok _ _ i 0%Qc) by lia. cbn [bind].
      rewrite wr_ok by lia. eexists; split; [reflexivity|]. rewrite set_nth_length. split; auto.
      rewrite nth_set_nth_eq by lia. rewrite Hd, seq_S, map_app, qsum_app. simpl. ring.
    + rewrite E. cbn [bind]. eexists; split; [reflexivity|]. simpl. split; auto.
      split; [apply wf_same_shape; auto; congruence|].
      intros ix Hix. rewrite Hz in Hix. inversion Hix; subst. unfold cell. simpl. rewrite Hz. simpl.
      rewrite Hd, Hmarg. unfold size_of_data. f_equal. f_equal.
      assert (m = []).
      { rewrite Hz in HSel. destruct m; auto. discriminate. }
      subst m. clear. simpl. generalize (seq 0 (length (data src))).
      induction l; simpl; auto. now rewrite <- IHl.
  - rewrite uniform_ok. cbn [bind].
    set (dst0 := mkPot (dims dst) (repeat 0%Qc (length (data dst)))).
    match goal with |- context [for_up 0 _ ?b _] => set (body := b) end.
    destruct (for_up_inv potential
      (fun i q => dims q = dims dst /\ wf q /\ forall ix, valid_ix (dims dst) ix ->
         cell q ix = qsum (map (fun k => nth k (data src) 0%Qc)
            (filter (fun k => ix_eqb (sel m (unflat (dims src) k)) ix) (seq 0 i))))
      body 0 (size_of_data src) dst0) as (q & E & Hdq & Hwq & Hq).
    + lia.
    + split; [reflexivity|]. split.
      * apply wf_same_shape; auto. now rewrite repeat_length.
      * intros ix Hix. unfold cell, dst0; simpl. apply nth_repeat_lt.
        rewrite (wf_data_length dst HD). now apply flat_lt.
    + intros i q Hi (Hdq & Hwq & Hq). unfold body. unfold size_of_data in Hi.
      assert (Hsrcpos : Forall (fun d => 0 < d) (dims src)) by (destruct HS; auto).
      rewrite inverse_mapping_ok; auto; try lia;
        [|unfold size_of_data; lia|apply temp_index_length; lia].
      cbn [bind].
      assert (Hdimq : dimensionality q = dimensionality dst) by (unfold dimensionality; congruence).
      assert (Hlm : length m = dimensionality dst).
      { unfold dimensionality. rewrite <- HSel. now rewrite sel_length. }
      rewrite choose_ok; [|rewrite temp_index_length; lia|lia|rewrite unflat_length; auto].
      cbn [bind].
      assert (HV : valid_ix (dims q) (sel m (unflat (dims src) i))).
      { rewrite Hdq, <- HSel. apply sel_valid; auto. now apply unflat_valid. }
      rewrite get_pointer_ok by (auto using wf_shape). cbn [bind].
      pose proof (flat_lt _ _ HV) as Hlt. rewrite <- (wf_data_length q Hwq) in Hlt.
      rewrite (rd_ok _ _ _ 0%Qc) by auto. cbn [bind].
      rewrite (rd_ok _ (data src) i 0%Qc) by lia. cbn [bind].
      rewrite wr_ok by auto. cbn [bind]. eexists; split; [reflexivity|].
      split; [auto|]. split; [apply wf_same_shape; auto; now rewrite set_nth_length|].
      intros ix Hix. rewrite seq_S, filter_app, map_app, qsum_app, <- Hq by auto. simpl.
      unfold cell at 1. simpl. rewrite Hdq in HV.
      destruct (list_eq_dec Nat.eq_dec (sel m (unflat (dims src) i)) ix) as [Eq|Nq].
      * subst ix. rewrite ix_eqb_refl. simpl. rewrite nth_set_nth_eq by auto. unfold cell. ring.
      * assert (Ef : ix_eqb (sel m (unflat (dims src) i)) ix = false)
          by (destruct (ix_eqb _ _) eqn:Z; auto; apply ix_eqb_true in Z; contradiction).
        rewrite Ef. simpl. rewrite nth_set_nth_neq.
        -- unfold cell. ring.
        -- intros C. apply Nq. rewrite Hdq in C. symmetry. eapply flat_inj; eauto.
    + rewrite E. cbn [bind]. exists q. split; auto. split; auto. split; auto.
      intros ix Hix. rewrite Hq by auto. now rewrite Hmarg.
Qed.

Lemma general_marginalise_rejects : forall src dst m,
  dimensionality src < dimensionality dst ->
  general_marginalise src dst m = Ok (dst, EINVAL).
Proof.
  intros src dst m H. unfold general_marginalise. apply Nat.ltb_lt in H. now rewrite H.
Qed.

(** Algebra of [marg] *)
Lemma marg_as_if : forall p m ix,
  marg p m ix = qsum (map (fun jx => if ix_eqb (sel m jx) ix then cell p jx else 0%Qc) (all_ix (dims p))).
Proof. intros. unfold marg. apply qsum_filter. Qed.

Lemma qsum_indicator : forall (l : list (list nat)) (x : list nat) (c : Qc),
  NoDup l -> In x l ->
  qsum (map (fun y => if ix_eqb x y then c else 0%Qc) l) = c.
Proof.
  induction l as [|a l IH]; intros x c HN HI; simpl in *; [contradiction|].
  inversion HN; subst. destruct HI as [->|HI].
  - rewrite ix_eqb_refl. rewrite qsum_map_zero; [ring|].
    intros y Hy. destruct (ix_eqb x y) eqn:E; auto. apply ix_eqb_true in E. subst; contradiction.
  - rewrite IH by auto. destruct (ix_eqb x a) eqn:E; [|ring].
    apply ix_eqb_true in E. subst; contradiction.
Qed.

Lemma marg_total : forall p m ds, Forall (fun k => k < length (dims p)) m -> sel m (dims p) = ds ->
  qsum (map (marg p m) (all_ix ds)) = total p.
Proof.
  intros p m ds HF HS. unfold total.
  erewrite qsum_map_ext; [|intros; apply marg_as_if].
  rewrite qsum_swap. apply qsum_map_ext. intros jx HJ.
  apply qsum_indicator; [apply all_ix_NoDup|].
  apply all_ix_valid. subst ds. apply sel_valid; auto. now apply all_ix_valid.
Qed.

Lemma sel_sel : forall m2 m1 ix, Forall (fun k => k < length m1) m2 ->
  sel m2 (sel m1 ix) = sel (sel m2 m1) ix.
Proof.
  intros m2 m1 ix H. unfold sel at 1 3 4. rewrite map_map. apply map_ext_in.
  intros k Hk. rewrite Forall_forall in H. unfold sel. rewrite (nth_map _ _ _ _ _ 0); auto.
Qed.

(** [q] being the table of [marg p m1], its marginal is a marginal of [p]. *)
Lemma marg_marg : forall p q m1 m2 ix,
  Forall (fun k => k < length (dims p)) m1 -> sel m1 (dims p) = dims q ->
  (forall jx, valid_ix (dims q) jx -> cell q jx = marg p m1 jx) ->
  Forall (fun k => k < length m1) m2 ->
  marg q m2 ix = marg p (sel m2 m1) ix.
Proof.
  intros p q m1 m2 ix HF HS Hq H2. rewrite !marg_as_if.
  erewrite qsum_map_ext with (g := fun jx => qsum (map (fun kx =>
     if ix_eqb (sel m1 kx) jx then (if ix_eqb (sel m2 jx) ix then cell p kx else 0%Qc) else 0%Qc)
     (all_ix (dims p)))).
  - rewrite qsum_swap. apply qsum_map_ext. intros kx HK. apply all_ix_valid in HK.
    rewrite qsum_map_ext with (g := fun jx => if ix_eqb (sel m1 kx) jx then
       (if ix_eqb (sel (sel m2 m1) kx) ix then cell p kx else 0%Qc) else 0%Qc).
    + rewrite qsum_indicator; auto; [apply all_ix_NoDup|].
      apply all_ix_valid. rewrite <- HS. now apply sel_valid.
    + intros jx HJ. destruct (ix_eqb (sel m1 kx) jx) eqn:E; auto. apply ix_eqb_true in E. subst jx.
      now rewrite sel_sel.
  - intros jx HJ. apply all_ix_valid in HJ. rewrite Hq by auto. rewrite marg_as_if.
    destruct (ix_eqb (sel m2 jx) ix).
    + reflexivity.
    + symmetry. apply qsum_map_zero. intros; now destruct (ix_eqb _ _).
Qed.

(** ** total_marginalise *)
Lemma partial_inverse_ok : forall p k v index0, wf p -> k < length (data p) -> v < dimensionality p ->
  exists x fl, for_down (dimensionality p) v
     (fun j '(x, flat_index, index) =>
        let* c := rd (card_array p) j in
        let* x' := idiv x c in
        let* q := idiv flat_index x' in
        Ok (x', flat_index - q * x', q))
     (size_of_data p, k, index0) = Ok (x, fl, nth v (unflat (dims p) k) 0).
Proof.
  intros p k v index0 (HP & HL & HM) Hk Hv.
  match goal with |- context [for_down _ _ ?b _] => set (body := b) end.
  destruct (for_down_inv (nat * nat * nat)
    (fun i '(x, fl, ind) => x = prod (firstn i (dims p)) /\ fl = k mod prod (firstn i (dims p)) /\
        (i < dimensionality p -> ind = nth i (unflat (dims p) k) 0))
    body (dimensionality p) v (size_of_data p, k, index0)) as (((x, fl), ind) & E & H1 & H2 & H3).
  - lia.
  - unfold dimensionality, size_of_data. rewrite firstn_all. repeat split; auto.
    + rewrite Nat.mod_small; auto. lia.
    + intros; lia.
  - intros i ((x, fl), ind) Hi (H1 & H2 & H3). subst x fl. unfold body.
    assert (Hil : i < length (dims p)) by (unfold dimensionality in Hi; lia).
    pose proof (prod_firstn_S (dims p) i Hil) as HS.
    pose proof (prod_firstn_pos (dims p) i HP) as Hx.
    assert (Hd : 0 < nth i (dims p) 0) by (rewrite Forall_forall in HP; apply HP, nth_In; auto).
    rewrite card_array_rd by lia. cbn [bind].
    rewrite idiv_ok by lia. cbn [bind].
    assert (HX : prod (firstn (S i) (dims p)) / nth i (dims p) 0 = prod (firstn i (dims p)))
      by (rewrite HS; apply Nat.div_mul; lia).
    rewrite HX. rewrite idiv_ok by lia. cbn [bind].
    eexists; split; [reflexivity|]. rewrite HS. repeat split; auto.
    + apply divmod_rest; auto.
    + intros _. rewrite nth_unflat by auto. apply divmod_split; auto.
  - exists x, fl. rewrite E. now rewrite <- H3.
Qed.

Lemma total_marginalise_ok : forall src dest v, wf src -> v < dimensionality src ->
  nth v (dims src) 0 <= length dest ->
  exists dest', total_marginalise src dest (Z.of_nat v) = Ok (dest', NO_ERROR) /\
    length dest' = length dest /\
    (forall i, i < nth v (dims src) 0 -> nth i dest' 0%Qc = marg src [v] [i]) /\
    (forall i, nth v (dims src) 0 <= i -> nth i dest' 0%Qc = nth i dest 0%Qc).
Proof.
  intros src dest v HS Hv HL. unfold total_marginalise.
  destruct (Z.ltb_spec (Z.of_nat v) 0); [lia|].
  destruct (Z.leb_spec (Z.of_nat (dimensionality src)) (Z.of_nat v)); [lia|]. cbn [orb].
  rewrite Nat2Z.id. rewrite card_array_rd by auto. cbn [bind].
  set (cv := nth v (dims src) 0) in *.
  destruct (for_up_inv (list Qc) (fun i d => length d = length dest /\
     (forall j, j < i -> nth j d 0%Qc = 0%Qc) /\ (forall j, i <= j -> nth j d 0%Qc = nth j dest 0%Qc))
     (fun i d => wr d i 0%Qc) 0 cv dest) as (d0 & E0 & HL0 & H01 & H02).
  { lia. } { repeat split; auto; intros; lia. }
  { intros i d Hi (A & B & C). rewrite wr_ok by lia. eexists; split; [reflexivity|].
    rewrite set_nth_length. repeat split; auto; intros j Hj; rewrite nth_set_nth by lia;
      destruct (Nat.eqb_spec j i); auto; try lia; [apply B; lia|apply C; lia]. }
  rewrite E0. cbn [bind].
  assert (Hpos : Forall (fun d => 0 < d) (dims src)) by (destruct HS; auto).
  match goal with |- context [for_up 0 _ ?b _] => set (body := b) end.
  destruct (for_up_inv (list Qc * nat)
    (fun i '(d, _) => length d = length dest /\
      (forall j, j < cv -> nth j d 0%Qc = qsum (map (fun k => nth k (data src) 0%Qc)
          (filter (fun k => Nat.eqb (nth v (unflat (dims src) k) 0) j) (seq 0 i)))) /\
      (forall j, cv <= j -> nth j d 0%Qc = nth j dest 0%Qc))
    body 0 (size_of_data src) (d0, 0)) as ((d, ind) & E & HLd & H1 & H2).
  { lia. } { repeat split; auto. }
  { intros i (d, ind) Hi (A & B & C). unfold body, size_of_data in *.
    destruct (partial_inverse_ok src i v ind HS ltac:(lia) Hv) as (x & fl & Ei).
    unfold size_of_data in Ei. rewrite Ei. cbn [bind].
    set (w := nth v (unflat (dims src) i) 0).
    assert (Hw : w < cv).
    { unfold w, cv. apply valid_ix_nth; auto. now apply unflat_valid. }
    rewrite (rd_ok _ d w 0%Qc) by lia. cbn [bind].
    rewrite (rd_ok _ (data src) i 0%Qc) by lia. cbn [bind].
    rewrite wr_ok by lia. cbn [bind]. eexists; split; [reflexivity|].
    cbv beta iota; rewrite set_nth_length. repeat split; auto.
    - intros j Hj. rewrite seq_S, filter_app, map_app, qsum_app, <- B by auto. simpl. fold w.
      rewrite nth_set_nth by lia. rewrite (Nat.eqb_sym j w).
      destruct (Nat.eqb_spec w j); simpl; [subst|]; ring.
    - intros j Hj. rewrite nth_set_nth by lia. destruct (Nat.eqb_spec j w); [lia|auto]. }
  rewrite E. cbn [bind]. exists d. repeat split; auto.
  intros i Hi. rewrite H1 by auto. unfold marg. rewrite all_ix_unflat, <- (wf_data_length src HS).
  rewrite !qsum_filter, map_map. apply qsum_map_ext. intros k Hk. apply in_seq in Hk.
  unfold size_of_data in Hk. rewrite cell_unflat by (auto; rewrite <- (wf_data_length src HS); lia).
  assert (Eb : ix_eqb (sel [v] (unflat (dims src) k)) [i] = Nat.eqb (nth v (unflat (dims src) k) 0) i).
  { simpl. destruct (Nat.eqb_spec (nth v (unflat (dims src) k) 0) i) as [->|N].
    - apply ix_eqb_refl.
    - destruct (ix_eqb _ _) eqn:Z; auto. apply ix_eqb_true in Z. congruence. }
  now rewrite Eb.
Qed.

Lemma total_marginalise_rejects : forall src dest v,
  (v < 0 \/ Z.of_nat (dimensionality src) <= v)%Z ->
  total_marginalise src dest v = Ok (dest, EINVAL).
Proof.
  intros src dest v H. unfold total_marginalise.
  destruct (Z.ltb_spec v 0); cbn [orb]; auto.
  destruct (Z.leb_spec (Z.of_nat (dimensionality src)) v); auto. lia.
Qed.

(** ** Pointwise updates of a table *)
Lemma table_pointwise : forall p (g : list nat -> Qc -> Qc) body, wf p ->
  (forall k d, k < prod (dims p) -> length d = prod (dims p) ->
     nth k d 0%Qc = nth k (data p) 0%Qc ->
     body k d = Ok (set_nth d k (g (unflat (dims p) k) (nth k (data p) 0%Qc)))) ->
  exists d, for_up 0 (size_of_data p) body (data p) = Ok d /\ length d = length (data p) /\
    wf (mkPot (dims p) d) /\
    forall ix, valid_ix (dims p) ix -> cell (mkPot (dims p) d) ix = g ix (cell p ix).
Proof.
  intros p g body HW Hb. pose proof (wf_data_length p HW) as HL. unfold size_of_data.
  destruct (for_up_pointwise Qc 0%Qc (fun k => g (unflat (dims p) k)) body (data p) (length (data p)))
    as (d & E & HLd & H); auto.
  - intros i l' Hi HLl Hn. apply Hb; lia || auto.
  - exists d. repeat split; auto; simpl; try (destruct HW as (? & ? & ?); auto; fail); try congruence.
    intros ix Hix. unfold cell. simpl. pose proof (flat_lt _ _ Hix).
    rewrite H by lia. now rewrite unflat_flat.
Qed.

(** ** update_potential *)
Definition opt_cell (p : option potential) (ix : list nat) : Qc :=
  match p with Some q => cell q ix | None => 1%Qc end.

(** What one target cell [x] becomes, [y] and [z] being the matching numerator
    and denominator entries. *)
Definition absorb1 (num den : option Qc) (x : Qc) : Qc :=
  let x1 := match num with Some y => (x * y)%Qc | None => x end in
  match den with
  | Some z => if qzero z then 0%Qc else (x1 / z)%Qc
  | None => x1
  end.

Definition opt_wf (p : option potential) (m tdims : list nat) : Prop :=
  match p with
  | Some q => wf q /\ map_ok m tdims (dims q)
  | None => True
  end.

Lemma update_divide_ok : forall x y, update_divide x y = Ok (if qzero y then 0%Qc else (x / y)%Qc).
Proof.
  intros x y. unfold update_divide. destruct (qzero y) eqn:E; auto.
  apply qzero_false in E. now apply qdiv_ok.
Qed.

Lemma set_nth_twice : forall A (l : list A) i x y, set_nth (set_nth l i x) i y = set_nth l i y.
Proof. induction l as [|h t IH]; intros [|i] x y; simpl; auto. now rewrite IH. Qed.

Lemma update_potential_ok : forall num den target m,
  wf target -> (num <> None \/ den <> None) ->
  opt_wf num m (dims target) -> opt_wf den m (dims target) ->
  length m <= dimensionality target ->
  exists t', update_potential num den target m = Ok (t', NO_ERROR) /\
    dims t' = dims target /\ wf t' /\
    forall ix, valid_ix (dims target) ix ->
      cell t' ix = absorb1 (option_map (fun q => cell q (sel m ix)) num)
                           (option_map (fun q => cell q (sel m ix)) den) (cell target ix).
Proof.
  intros num den target m HT Hne HN HD Hdim.
  assert (Hlen : forall q, num = Some q \/ den = Some q -> wf q /\ map_ok m (dims target) (dims q) /\ dimensionality q = length m).
  { intros q [->| ->]; simpl in *; [destruct HN as (A & B & C)|destruct HD as (A & B & C)];
      (split; [auto|split; [split; auto|]]); unfold dimensionality; rewrite <- C; apply sel_length. }
  assert (Hpos : Forall (fun d => 0 < d) (dims target)) by (destruct HT; auto).
  unfold update_potential.
  set (bad := match num, den with
      | Some n, Some d => negb (Nat.eqb (dimensionality n) (dimensionality d))
          || Nat.ltb (dimensionality target) (dimensionality n)
      | _, _ => false end).
  assert (Hbad : bad = false).
  { unfold bad. destruct num as [n|]; destruct den as [d|]; auto.
    destruct (Hlen n) as (_ & _ & E1); auto. destruct (Hlen d) as (_ & _ & E2); auto.
    rewrite E1, E2, Nat.eqb_refl. simpl. apply Nat.ltb_ge. lia. }
  set (nvars := match num, den with
        | Some n, _ => dimensionality n
        | None, Some d => dimensionality d
        | None, None => 0 end).
  assert (Hnv : nvars = length m).
  { unfold nvars. destruct num as [n|]; [apply Hlen; auto|]. destruct den as [d|]; [apply Hlen; auto|].
    destruct Hne; congruence. }
  assert (Hgoal : forall (r : res (potential * code)),
    (r = if bad then Ok (target, EINVAL) else
      if Nat.eqb nvars 0 then
        let* d :=
          for_up 0 (size_of_data target)
            (fun i d =>
               let* d1 :=
                 match num with
                 | Some n => let* x := rd d i in let* y := rd (data n) 0 in wr d i (x * y)%Qc
                 | None => Ok d
                 end in
               match den with
               | Some dn => let* y := rd (data dn) 0 in let* x := rd d1 i in
                   let* z := update_divide x y in wr d1 i z
               | None => Ok d1
               end) (data target) in
        Ok (mkPot (dims target) d, NO_ERROR)
      else
        let* d :=
          for_up 0 (size_of_data target)
            (fun i d =>
               let* tix := inverse_mapping target i (temp_index target) in
               let* six := choose_potential_indices tix (repeat 0 (Nat.max 1 nvars)) m nvars in
               let* d1 :=
                 match num with
                 | Some n =>
                     let* k := get_potential_pointer n six in
                     let* y := rd (data n) k in
                     let* x := rd d i in
                     wr d i (x * y)%Qc
                 | None => Ok d
                 end in
               match den with
               | Some dn =>
                   let* k := get_potential_pointer dn six in
                   let* y := rd (data dn) k in
                   let* x := rd d1 i in
                   let* z := update_divide x y in
                   wr d1 i z
               | None => Ok d1
               end)
            (data target) in
        Ok (mkPot (dims target) d, NO_ERROR)) ->
    exists t', r = Ok (t', NO_ERROR) /\ dims t' = dims target /\ wf t' /\
    forall ix, valid_ix (dims target) ix ->
      cell t' ix = absorb1 (option_map (fun q => cell q (sel m ix)) num)
                           (option_map (fun q => cell q (sel m ix)) den) (cell target ix)).
  { intros r ->. rewrite Hbad.
    set (g := fun ix x => absorb1 (option_map (fun q => cell q (sel m ix)) num)
                           (option_map (fun q => cell q (sel m ix)) den) x).
    destruct (Nat.eqb_spec nvars 0) as [Hz|Hz].
    - assert (m = []) by (apply length_zero_iff_nil; lia). subst m.
      destruct (table_pointwise target g (fun i d =>
               let* d1 :=
                 match num with
                 | Some n => let* x := rd d i in let* y := rd (data n) 0 in wr d i (x * y)%Qc
                 | None => Ok d
                 end in
               match den with
               | Some dn => let* y := rd (data dn) 0 in let* x := rd d1 i in
                   let* z := update_divide x y in wr d1 i z
               | None => Ok d1
               end) HT) as (d & E & _ & HW & H).
      + intros k d Hk HL Hn.
        assert (R : forall q, num = Some q \/ den = Some q -> rd (data q) 0 = Ok (cell q [])).
        { intros q Hq. destruct (Hlen q Hq) as (A & (B1 & B2) & C). unfold cell.
          rewrite (rd_ok _ _ 0 0%Qc).
          - now destruct (dims q).
          - rewrite (wf_data_length q A). apply prod_pos. destruct A; auto. }
        unfold g, absorb1. destruct num as [n|]; cbn [bind option_map].
        * rewrite (rd_ok _ d k 0%Qc) by lia. cbn [bind]. rewrite (R n) by auto. cbn [bind].
          rewrite wr_ok by lia. cbn [bind]. rewrite Hn. destruct den as [dn|]; cbn [bind option_map]; auto.
          rewrite (R dn) by auto. cbn [bind]. rewrite (rd_ok _ _ k 0%Qc) by (rewrite set_nth_length; lia).
          cbn [bind]. rewrite nth_set_nth_eq by lia. rewrite update_divide_ok. cbn [bind].
          rewrite wr_ok by (rewrite set_nth_length; lia). now rewrite set_nth_twice.
        * destruct den as [dn|]; [|destruct Hne; congruence]. cbn [option_map].
          rewrite (R dn) by auto. cbn [bind]. rewrite (rd_ok _ _ k 0%Qc) by lia. cbn [bind].
          rewrite update_divide_ok. cbn [bind]. rewrite wr_ok by lia. now rewrite Hn.
      + rewrite E. cbn [bind]. eexists; split; [reflexivity|]. simpl. auto.
    - match goal with |- context [for_up 0 _ ?b _] => set (body := b) end.
      destruct (table_pointwise target g body HT) as (d & E & _ & HW & H).
      + intros k d Hk HL Hn. unfold body.
        rewrite inverse_mapping_ok; auto; [|unfold size_of_data; rewrite (wf_data_length target HT); auto
          |apply temp_index_length; lia].
        cbn [bind]. 
        assert (HMl : Forall (fun k0 => k0 < length (dims target)) m).
        { destruct num as [n|]; [destruct (Hlen n) as (_ & (A & _) & _); auto|].
          destruct den as [n|]; [destruct (Hlen n) as (_ & (A & _) & _); auto|]. destruct Hne; congruence. }
        rewrite choose_ok; [|rewrite repeat_length; lia|auto|now rewrite unflat_length]. cbn [bind].
        assert (R : forall q, num = Some q \/ den = Some q ->
           (let* k' := get_potential_pointer q (sel m (unflat (dims target) k)) in rd (data q) k')
             = Ok (cell q (sel m (unflat (dims target) k)))).
        { intros q Hq. destruct (Hlen q Hq) as (A & (B1 & B2) & C).
          apply (get_value_ok q); auto. rewrite <- B2. apply sel_valid; auto. now apply unflat_valid. }
        assert (R' : forall q (f : Qc -> res (list Qc)), num = Some q \/ den = Some q ->
           (let* k' := get_potential_pointer q (sel m (unflat (dims target) k)) in
            let* y := rd (data q) k' in f y) = f (cell q (sel m (unflat (dims target) k)))).
        { intros q f Hq. specialize (R q Hq).
          destruct (get_potential_pointer q _) as [k'| |]; cbn [bind] in *; try discriminate.
          now rewrite R. }
        unfold g, absorb1. destruct num as [n|]; cbn [bind option_map].
        * rewrite R' by auto.
          rewrite (rd_ok _ d k 0%Qc) by lia. cbn [bind].
          rewrite wr_ok by lia. cbn [bind]. rewrite Hn. destruct den as [dn|]; cbn [bind option_map]; auto.
          rewrite R' by auto. rewrite (rd_ok _ _ k 0%Qc) by (rewrite set_nth_length; lia).
          cbn [bind]. rewrite nth_set_nth_eq by lia. rewrite update_divide_ok. cbn [bind].
          rewrite wr_ok by (rewrite set_nth_length; lia). now rewrite set_nth_twice.
        * destruct den as [dn|]; [|destruct Hne; congruence]. cbn [option_map].
          rewrite R' by auto. rewrite (rd_ok _ _ k 0%Qc) by lia. cbn [bind].
          rewrite update_divide_ok. cbn [bind]. rewrite wr_ok by lia. now rewrite Hn.
      + rewrite E. cbn [bind]. eexists; split; [reflexivity|]. simpl. auto. }
  destruct num as [n|]; [|destruct den as [d|]].
  - apply Hgoal. reflexivity.
  - apply Hgoal. reflexivity.
  - destruct Hne; congruence.
Qed.

Lemma update_potential_rejects : forall num den target m,
  (num = None /\ den = None) \/
  (exists n d, num = Some n /\ den = Some d /\
     (dimensionality n <> dimensionality d \/ dimensionality target < dimensionality n)) ->
  update_potential num den target m = Ok (target, EINVAL).
Proof.
  intros num den target m [(-> & ->)|(n & d & -> & -> & H)]; [reflexivity|].
  unfold update_potential.
  destruct (Nat.eqb_spec (dimensionality n) (dimensionality d)); cbn [negb orb]; auto.
  destruct (Nat.ltb_spec (dimensionality target) (dimensionality n)); auto. lia.
Qed.

(** ** Absorption: the marginal of the updated table is the numerator *)
Lemma absorb_marginal : forall target t' num den m,
  Forall (fun k => k < length (dims target)) m -> dims num = sel m (dims target) ->
  dims t' = dims target ->
  (forall ix, valid_ix (dims num) ix -> cell den ix = marg target m ix) ->
  (forall ix, valid_ix (dims num) ix -> cell den ix = 0%Qc -> cell num ix = 0%Qc) ->
  (forall ix, valid_ix (dims target) ix ->
     cell t' ix = absorb1 (Some (cell num (sel m ix))) (Some (cell den (sel m ix))) (cell target ix)) ->
  forall ix, valid_ix (dims num) ix -> marg t' m ix = cell num ix.
Proof.
  intros target t' num den m HF HS HDt Hden Hzero Ht ix Hix.
  rewrite marg_as_if, HDt.
  rewrite qsum_map_ext with (g := fun jx =>
    ((if qzero (cell den ix) then 0 else cell num ix / cell den ix) *
      (if ix_eqb (sel m jx) ix then cell target jx else 0))%Qc).
  - rewrite qsum_map_scale, <- marg_as_if, <- Hden by auto.
    destruct (qzero (cell den ix)) eqn:Z.
    + apply qzero_true in Z. rewrite Hzero by auto. ring.
    + apply qzero_false in Z. field. auto.
  - intros jx HJ. apply all_ix_valid in HJ. destruct (ix_eqb (sel m jx) ix) eqn:E; [|ring].
    apply ix_eqb_true in E. rewrite Ht by auto. rewrite E. unfold absorb1.
    destruct (qzero (cell den ix)) eqn:Z; [ring|]. apply qzero_false in Z. field. auto.
Qed.
