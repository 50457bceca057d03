(** * Proofs about the model of nippotential.c *)
From Verif Require Import Base BaseProofs PotentialModel PotentialSpec.
From Coq Require Import Permutation Field.
Import ListNotations.

(** ** Multi-indices *)
Fixpoint unflat (ds : list nat) (k : nat) : list nat :=
  match ds with
  | [] => []
  | d :: ds' => (k mod d) :: unflat ds' (k / d)
  end.

Lemma unflat_length : forall ds k, length (unflat ds k) = length ds.
Proof. induction ds; simpl; auto. Qed.

Lemma valid_ix_length : forall ds ix, valid_ix ds ix -> length ix = length ds.
Proof. intros ds ix H. induction H; simpl; auto. Qed.

Lemma valid_ix_nth : forall ds ix i, valid_ix ds ix -> i < length ds -> nth i ix 0 < nth i ds 0.
Proof.
  intros ds ix i H. revert i. induction H; intros [|i] Hi; simpl in *; auto; try lia.
  apply IHForall2; lia.
Qed.

Lemma valid_ix_intro : forall ds ix, length ix = length ds ->
  (forall i, i < length ds -> nth i ix 0 < nth i ds 0) -> valid_ix ds ix.
Proof.
  induction ds as [|d ds IH]; intros [|i ix] HL H; simpl in *; try lia; constructor.
  - apply (H 0); lia.
  - apply IH; auto. intros j Hj. apply (H (S j)); lia.
Qed.

Lemma flat_lt : forall ds ix, valid_ix ds ix -> flat ds ix < prod ds.
Proof. intros ds ix H; induction H; simpl; [lia|nia]. Qed.

Lemma flat_unflat : forall ds k, Forall (fun d => 0 < d) ds -> k < prod ds -> flat ds (unflat ds k) = k.
Proof.
  induction ds as [|d ds IH]; intros k HF Hk; simpl in *; [lia|].
  inversion HF; subst. rewrite IH; auto.
  - pose proof (Nat.div_mod k d). lia.
  - apply Nat.div_lt_upper_bound; lia.
Qed.

Lemma unflat_valid : forall ds k, Forall (fun d => 0 < d) ds -> valid_ix ds (unflat ds k).
Proof.
  induction ds as [|d ds IH]; intros k HF; simpl; [constructor|].
  inversion HF; subst. constructor; [apply Nat.mod_upper_bound; lia|now apply IH].
Qed.

Lemma unflat_flat : forall ds ix, valid_ix ds ix -> unflat ds (flat ds ix) = ix.
Proof.
  intros ds ix H; induction H; simpl; auto.
  rewrite Nat.mul_comm. rewrite Nat.mod_add by lia. rewrite Nat.mod_small by auto.
  rewrite Nat.div_add by lia. rewrite Nat.div_small by auto. simpl. now rewrite IHForall2.
Qed.

Lemma flat_inj : forall ds a b, valid_ix ds a -> valid_ix ds b -> flat ds a = flat ds b -> a = b.
Proof.
  intros ds a b Ha Hb E. rewrite <- (unflat_flat ds a Ha), E. now apply unflat_flat.
Qed.

Lemma nth_unflat : forall ds k i, Forall (fun d => 0 < d) ds -> i < length ds ->
  nth i (unflat ds k) 0 = (k / prod (firstn i ds)) mod nth i ds 0.
Proof.
  induction ds as [|d ds IH]; intros k i HF Hi; simpl in Hi; [lia|].
  inversion HF; subst. destruct i as [|i]; cbn [unflat nth firstn prod].
  - now rewrite Nat.div_1_r.
  - rewrite IH by (auto; lia). rewrite Nat.div_div; auto; try lia.
    assert (0 < prod (firstn i ds)); [|lia].
    apply prod_pos. apply Forall_forall. intros x Hx.
    rewrite Forall_forall in H2. apply H2. rewrite <- (firstn_skipn i ds). apply in_or_app; auto.
Qed.

Lemma prod_firstn_pos : forall ds i, Forall (fun d => 0 < d) ds -> 0 < prod (firstn i ds).
Proof.
  intros ds i HF. apply prod_pos. rewrite Forall_forall in *. intros x Hx. apply HF.
  rewrite <- (firstn_skipn i ds). apply in_or_app; auto.
Qed.

Lemma firstn_S_nth : forall A (l : list A) i d, i < length l -> firstn (S i) l = firstn i l ++ [nth i l d].
Proof.
  induction l as [|h t IH]; intros [|i] d H; simpl in *; auto; try lia.
  f_equal. apply IH; lia.
Qed.

Lemma prod_firstn_S : forall ds i, i < length ds -> prod (firstn (S i) ds) = prod (firstn i ds) * nth i ds 0.
Proof.
  intros ds i H. rewrite (firstn_S_nth _ ds i 0 H), prod_app. simpl. lia.
Qed.

Lemma prod_firstn_le : forall ds i, Forall (fun d => 0 < d) ds -> prod (firstn i ds) <= prod ds.
Proof.
  intros ds i HF. rewrite <- (firstn_skipn i ds) at 2. rewrite prod_app.
  assert (0 < prod (skipn i ds)); [|nia]. apply prod_pos.
  rewrite Forall_forall in *. intros x Hx. apply HF.
  rewrite <- (firstn_skipn i ds). apply in_or_app; auto.
Qed.

Lemma flat_firstn_S : forall ds ix i, length ix = length ds -> i < length ds ->
  flat (firstn (S i) ds) (firstn (S i) ix) =
  flat (firstn i ds) (firstn i ix) + nth i ix 0 * prod (firstn i ds).
Proof.
  induction ds as [|d ds IH]; intros [|x ix] i HL Hi; simpl in HL, Hi; try lia.
  destruct i as [|i].
  - simpl. destruct ds; destruct ix; simpl; lia.
  - cbn [firstn flat nth prod].
    change (match ix with [] => [] | a :: l => a :: firstn i l end) with (firstn (S i) ix).
    change (match ds with [] => [] | a :: l => a :: firstn i l end) with (firstn (S i) ds).
    rewrite IH by lia. nia.
Qed.

Lemma valid_firstn : forall ds ix i, valid_ix ds ix -> valid_ix (firstn i ds) (firstn i ix).
Proof.
  intros ds ix i H. revert i. induction H; intros [|i]; simpl; constructor; auto. apply IHForall2.
Qed.

(** ** all_ix *)
Lemma map_flat_map : forall A B C (f : B -> C) (g : A -> list B) l,
  map f (flat_map g l) = flat_map (fun a => map f (g a)) l.
Proof. induction l; simpl; auto. now rewrite map_app, IHl. Qed.

Lemma flat_map_ext_in : forall A B (f g : A -> list B) l,
  (forall a, In a l -> f a = g a) -> flat_map f l = flat_map g l.
Proof.
  induction l; intros H; simpl; auto. rewrite H by (left; auto). rewrite IHl; auto.
  intros; apply H; right; auto.
Qed.

Lemma flat_map_map : forall A B C (f : A -> B) (g : B -> list C) l,
  flat_map g (map f l) = flat_map (fun a => g (f a)) l.
Proof. induction l; simpl; auto. now rewrite IHl. Qed.

Lemma map_add_seq : forall n s c, map (fun i => i + c) (seq s n) = seq (s + c) n.
Proof. induction n as [|n IH]; intros s c; simpl; auto. now rewrite IH. Qed.

Lemma seq_blocks : forall d n, flat_map (fun k => map (fun i => i + d * k) (seq 0 d)) (seq 0 n) = seq 0 (d * n).
Proof.
  intros d n. induction n as [|n IH].
  - simpl. now rewrite Nat.mul_0_r.
  - rewrite seq_S, flat_map_app, IH. simpl. rewrite app_nil_r.
    replace (d * S n) with (d * n + d) by lia. rewrite seq_app. f_equal. simpl.
    apply (map_add_seq d 0 (d * n)).
Qed.

Lemma map_flat_all_ix : forall ds, map (flat ds) (all_ix ds) = seq 0 (prod ds).
Proof.
  induction ds as [|d ds IH]; simpl; auto.
  rewrite map_flat_map. rewrite <- seq_blocks, <- IH, flat_map_map.
  apply flat_map_ext_in. intros t Ht. rewrite map_map. apply map_ext. intros i. simpl. lia.
Qed.

Lemma all_ix_valid : forall ds ix, In ix (all_ix ds) <-> valid_ix ds ix.
Proof.
  induction ds as [|d ds IH]; intros ix; simpl.
  - split; intros H.
    + destruct H as [<-|[]]. constructor.
    + inversion H; subst; auto.
  - rewrite in_flat_map. split.
    + intros (t & Ht & Hi). apply in_map_iff in Hi. destruct Hi as (i & <- & Hi).
      apply in_seq in Hi. constructor; [lia|now apply IH].
    + intros H. inversion H as [|i d' t ds' Hi Ht]; subst.
      exists t. split; [now apply IH|]. apply in_map_iff. exists i. split; auto. apply in_seq; lia.
Qed.

Lemma all_ix_NoDup : forall ds, NoDup (all_ix ds).
Proof.
  intros ds. apply (NoDup_map_inv (flat ds)). rewrite map_flat_all_ix. apply seq_NoDup.
Qed.

Lemma all_ix_length : forall ds, length (all_ix ds) = prod ds.
Proof. intros ds. rewrite <- (map_length (flat ds)), map_flat_all_ix. apply seq_length. Qed.

Lemma all_ix_unflat : forall ds, all_ix ds = map (unflat ds) (seq 0 (prod ds)).
Proof.
  intros ds. rewrite <- map_flat_all_ix, map_map. rewrite <- map_id at 1.
  apply map_ext_in. intros ix H. apply all_ix_valid in H. now rewrite unflat_flat.
Qed.

Lemma total_data : forall p, length (data p) = prod (dims p) -> total p = qsum (data p).
Proof.
  intros p H. unfold total, cell. f_equal.
  rewrite <- (map_map (flat (dims p)) (fun k => nth k (data p) 0%Qc)).
  rewrite map_flat_all_ix, <- H. clear H. induction (data p) as [|x l IH]; auto.
  simpl. f_equal. rewrite <- seq_shift, map_map. apply IH.
Qed.

(** ** Selection *)
Lemma sel_length : forall m ix, length (sel m ix) = length m.
Proof. intros; apply map_length. Qed.

Lemma sel_valid : forall m ds ix, Forall (fun k => k < length ds) m -> valid_ix ds ix ->
  valid_ix (sel m ds) (sel m ix).
Proof.
  intros m ds ix HF HV. induction HF as [|k m Hk HF IH]; simpl; constructor; auto.
  now apply valid_ix_nth.
Qed.

Lemma sel_pos : forall m ds, Forall (fun k => k < length ds) m -> Forall (fun d => 0 < d) ds ->
  Forall (fun d => 0 < d) (sel m ds).
Proof.
  intros m ds HF HP. induction HF as [|k m Hk HF IH]; simpl; constructor; auto.
  rewrite Forall_forall in HP. apply HP. now apply nth_In.
Qed.

Lemma ix_eqb_true : forall a b, ix_eqb a b = true <-> a = b.
Proof. intros a b. unfold ix_eqb. destruct (list_eq_dec Nat.eq_dec a b); split; congruence. Qed.

Lemma ix_eqb_refl : forall a, ix_eqb a a = true.
Proof. intros; now apply ix_eqb_true. Qed.

(** ** The C address computations *)
Definition shape_ok (ds : list nat) : Prop :=
  Forall (fun d => 0 < d) ds /\ (Z.of_nat (prod ds) <= INT_MAX)%Z.

Lemma wf_shape : forall p, wf p -> shape_ok (dims p).
Proof. intros p (H1 & H2 & H3); split; auto. Qed.

Lemma card_array_rd : forall p i, i < dimensionality p -> rd (card_array p) i = Ok (nth i (dims p) 0).
Proof.
  intros p i H. unfold card_array, dimensionality in *.
  destruct (dims p) as [|d ds] eqn:E; simpl in H; [lia|]. apply rd_ok. simpl; lia.
Qed.

Lemma get_pointer_ok : forall p ix, shape_ok (dims p) -> valid_ix (dims p) ix ->
  get_potential_pointer p ix = Ok (flat (dims p) ix).
Proof.
  intros p ix (HP & HM) HV. unfold get_potential_pointer.
  pose proof (valid_ix_length _ _ HV) as HL.
  destruct (for_up_inv (nat * nat)
    (fun i '(index, ct) => index = flat (firstn i (dims p)) (firstn i ix) /\ ct = prod (firstn i (dims p)))
    (fun i '(index, card_temp) =>
         let* ii := rd ix i in
         let* t := imul ii card_temp in
         let* index' := iadd index t in
         let* c := rd (card_array p) i in
         let* card_temp' := imul card_temp c in
         Ok (index', card_temp')) 0 (dimensionality p) (0, 1)) as ((index, ct) & E & H1 & H2).
  - lia.
  - simpl; auto.
  - intros i (index, ct) Hi (H1 & H2). subst index ct. unfold dimensionality in Hi.
    assert (Hlt : flat (firstn (S i) (dims p)) (firstn (S i) ix) < prod (firstn (S i) (dims p)))
      by (apply flat_lt, valid_firstn; auto).
    assert (Hle : prod (firstn (S i) (dims p)) <= prod (dims p)) by (apply prod_firstn_le; auto).
    rewrite flat_firstn_S in Hlt by lia. pose proof (prod_firstn_S (dims p) i ltac:(lia)) as HS.
    rewrite (rd_ok _ ix i 0) by lia. cbn [bind].
    rewrite imul_ok by lia. cbn [bind].
    rewrite iadd_ok by lia. cbn [bind].
    rewrite card_array_rd by (unfold dimensionality; lia). cbn [bind].
    rewrite imul_ok by (rewrite <- HS; lia). cbn [bind].
    eexists; split; [reflexivity|]. rewrite flat_firstn_S by lia. rewrite HS. auto.
  - rewrite E. cbn [bind]. unfold dimensionality in H1. rewrite firstn_all in H1.
    rewrite firstn_all2 in H1 by lia. now subst.
Qed.

Lemma divmod_split : forall k x d, 0 < x -> 0 < d -> (k mod (x * d)) / x = (k / x) mod d.
Proof.
  intros k x d Hx Hd. rewrite Nat.mod_mul_r by lia.
  rewrite Nat.mul_comm, Nat.div_add by lia. rewrite Nat.div_small; auto.
  apply Nat.mod_upper_bound; lia.
Qed.

Lemma divmod_rest : forall k x d, 0 < x -> 0 < d ->
  k mod (x * d) - (k mod (x * d)) / x * x = k mod x.
Proof.
  intros k x d Hx Hd. pose proof (Nat.div_mod (k mod (x*d)) x ltac:(lia)) as H.
  replace (k mod (x * d) - (k mod (x * d)) / x * x) with ((k mod (x*d)) mod x) by lia.
  rewrite Nat.mod_mul_r by lia. rewrite Nat.mul_comm, Nat.mod_add by lia.
  apply Nat.mod_mod; lia.
Qed.

Lemma inverse_mapping_ok : forall p k arr, wf p -> k < size_of_data p ->
  length arr = dimensionality p ->
  inverse_mapping p k arr = Ok (unflat (dims p) k).
Proof.
  intros p k arr (HP & HL & HM) Hk HA. unfold inverse_mapping. unfold size_of_data in *.
  match goal with |- bind (for_down _ _ ?b _) _ = _ => set (body := b) end.
  destruct (for_down_inv (nat * nat * list nat)
    (fun i '(x, fl, a) => x = prod (firstn i (dims p)) /\ fl = k mod prod (firstn i (dims p)) /\
       length a = dimensionality p /\
       forall j, i <= j < dimensionality p -> nth j a 0 = nth j (unflat (dims p) k) 0)
    body (dimensionality p) 0 (length (data p), k, arr)) as (((x, fl), a) & E & H1 & H2 & H3 & H4).
  - lia.
  - unfold dimensionality. rewrite firstn_all. repeat split; auto.
    + rewrite Nat.mod_small; auto. lia.
    + intros; lia.
  - intros i ((x, fl), a) Hi (H1 & H2 & H3 & H4). subst x fl. unfold body.
    assert (Hil : i < length (dims p)) by (unfold dimensionality in Hi; lia).
    pose proof (prod_firstn_S (dims p) i Hil) as HS.
    pose proof (prod_firstn_pos (dims p) i HP) as Hx.
    assert (Hd : 0 < nth i (dims p) 0) by (rewrite Forall_forall in HP; apply HP, nth_In; auto).
    rewrite card_array_rd by lia. cbn [bind].
    rewrite idiv_ok by lia. cbn [bind].
    assert (HX : prod (firstn (S i) (dims p)) / nth i (dims p) 0 = prod (firstn i (dims p)))
      by (rewrite HS; apply Nat.div_mul; lia).
    rewrite HX. rewrite idiv_ok by lia. cbn [bind].
    rewrite wr_ok by lia. cbn [bind].
    eexists; split; [reflexivity|]. rewrite HS. repeat split; auto.
    + apply divmod_rest; auto.
    + now rewrite set_nth_length.
    + intros j Hj. rewrite nth_set_nth by lia.
      destruct (Nat.eqb_spec j i) as [->|N].
      * rewrite nth_unflat by auto. apply divmod_split; auto.
      * apply H4; lia.
  - rewrite E. cbn [bind]. f_equal. apply (list_ext_nth _ 0).
    + now rewrite unflat_length.
    + intros j Hj. apply H4. lia.
Qed.

Lemma choose_ok : forall src dest m n, length dest = n -> length m = n ->
  Forall (fun k => k < length src) m ->
  choose_potential_indices src dest m n = Ok (sel m src).
Proof.
  intros src dest m n HD HM HF. unfold choose_potential_indices.
  destruct (for_up_pointwise nat 0 (fun i _ => nth (nth i m 0) src 0)
     (fun i dest => let* m0 := rd m i in let* s := rd src m0 in wr dest i s) dest n)
    as (l' & E & HL & H); auto.
  - intros i l' Hi HL _. rewrite (rd_ok _ m i 0) by lia. cbn [bind].
    rewrite Forall_forall in HF.
    rewrite (rd_ok _ src _ 0) by (apply HF, nth_In; lia). cbn [bind].
    now rewrite wr_ok by lia.
  - rewrite E. f_equal. apply (list_ext_nth _ 0).
    + rewrite sel_length; lia.
    + intros i Hi. rewrite H by lia. unfold sel.
      now rewrite (nth_map _ _ _ _ _ 0) by lia.
Qed.

Lemma temp_index_length : forall p, 0 < dimensionality p -> length (temp_index p) = dimensionality p.
Proof. intros p H. unfold temp_index. rewrite repeat_length. lia. Qed.

(** ** C01 *)
Lemma get_value_ok : forall p ix, wf p -> valid_ix (dims p) ix ->
  get_potential_value p ix = Ok (cell p ix).
Proof.
  intros p ix HW HV. unfold get_potential_value. rewrite get_pointer_ok by (auto using wf_shape).
  cbn [bind]. unfold cell. apply rd_ok. destruct HW as (_ & HL & _). rewrite HL. now apply flat_lt.
Qed.

Lemma set_value_ok : forall p ix v, wf p -> valid_ix (dims p) ix ->
  exists p', set_potential_value p ix v = Ok p' /\ dims p' = dims p /\ wf p' /\
    cell p' ix = v /\
    forall jx, valid_ix (dims p) jx -> jx <> ix -> cell p' jx = cell p jx.
Proof.
  intros p ix v HW HV. unfold set_potential_value. rewrite get_pointer_ok by (auto using wf_shape).
  cbn [bind]. destruct HW as (HP & HL & HM). pose proof (flat_lt _ _ HV) as Hlt.
  rewrite wr_ok by lia. cbn [bind]. eexists; split; [reflexivity|]. simpl.
  split; [reflexivity|]. split; [|split].
  - repeat split; simpl; auto. now rewrite set_nth_length.
  - unfold cell; simpl. apply nth_set_nth_eq; lia.
  - intros jx HJ N. unfold cell; simpl. apply nth_set_nth_neq. intros E. apply N.
    eapply flat_inj; eauto.
Qed.

(** ** Construction *)
Lemma for_up_fill : forall A (d : A) (f : nat -> A) body (l : list A) n,
  n = length l ->
  (forall i l', i < n -> length l' = n -> body i l' = Ok (set_nth l' i (f i))) ->
  exists l', for_up 0 n body l = Ok l' /\ length l' = n /\ forall i, i < n -> nth i l' d = f i.
Proof.
  intros A d f body l n Hn Hb.
  destruct (for_up_pointwise A d (fun i _ => f i) body l n Hn) as (l' & E & HL & H); eauto.
Qed.

Lemma map_nth_seq : forall A (d : A) l, map (fun i => nth i l d) (seq 0 (length l)) = l.
Proof.
  intros A d l. apply (list_ext_nth _ d).
  - now rewrite map_length, seq_length.
  - intros i Hi. rewrite map_length, seq_length in Hi.
    rewrite (nth_map _ _ _ _ _ 0) by (now rewrite seq_length). now rewrite seq_nth.
Qed.

Lemma fill_list : forall A (d : A) (l l' : list A), length l = length l' ->
  (forall i, i < length l -> nth i l' d = nth i l d) -> l' = l.
Proof. intros. apply (list_ext_nth _ d); auto. intros; apply H0; lia. Qed.

Lemma new_potential_ok : forall cs n init, shape_ok (firstn n cs) -> n <= length cs ->
  (match init with Some l => prod (firstn n cs) <= length l | None => True end) ->
  exists p, new_potential cs (Z.of_nat n) init = Ok (Some p) /\ wf p /\
    dims p = firstn n cs /\
    data p = match init with Some l => firstn (prod (firstn n cs)) l | None => repeat 1%Qc (prod (firstn n cs)) end.
Proof.
  intros cs n init (HP & HM) Hn Hinit. unfold new_potential.
  destruct (Z.ltb_spec (Z.of_nat n) 0); [lia|]. rewrite Nat2Z.id.
  match goal with |- context [for_up 0 n ?b ?s] => set (body := b); set (st := s) end.
  destruct (for_up_inv (nat * list nat)
    (fun i '(ds, a) => ds = prod (firstn i cs) /\ length a = n /\
        forall j, j < i -> nth j a 0 = nth j cs 0) body 0 n st) as ((ds, a) & E & H1 & H2 & H3).
  - lia.
  - simpl. rewrite repeat_length. repeat split; auto. intros; lia.
  - intros i (ds, a) Hi (H1 & H2 & H3). unfold body. subst ds.
    rewrite (rd_ok _ cs i 0) by lia. cbn [bind].
    pose proof (prod_firstn_S cs i ltac:(lia)) as HS.
    assert (prod (firstn (S i) cs) <= prod (firstn n cs)).
    { replace (firstn (S i) cs) with (firstn (S i) (firstn n cs))
        by (rewrite firstn_firstn; f_equal; lia).
      apply prod_firstn_le; auto. }
    rewrite imul_ok by lia. cbn [bind]. rewrite wr_ok by lia. cbn [bind].
    eexists; split; [reflexivity|]. repeat split; auto; [now rewrite set_nth_length|].
    intros j Hj. rewrite nth_set_nth by lia. destruct (Nat.eqb_spec j i); subst; auto. apply H3; lia.
  - rewrite E. cbn [bind]. subst ds.
    assert (Ha : a = firstn n cs).
    { apply (list_ext_nth _ 0). { rewrite firstn_length; lia. }
      intros i Hi. rewrite H3 by lia.
      rewrite <- (firstn_skipn n cs) at 1. rewrite app_nth1; auto. rewrite firstn_length; lia. }
    subst a. set (N := prod (firstn n cs)) in *.
    destruct init as [l|].
    + destruct (for_up_fill Qc 0%Qc (fun i => nth i l 0%Qc)
         (fun i d => let* x := rd l i in wr d i x) (repeat 0%Qc N) N) as (d & Ed & HdL & Hd).
      { now rewrite repeat_length. }
      { intros i l' Hi HL. rewrite (rd_ok _ l i 0%Qc) by lia. cbn [bind]. now rewrite wr_ok by lia. }
      rewrite Ed. cbn [bind]. eexists; split; [reflexivity|]. simpl.
      assert (d = firstn N l).
      { apply (list_ext_nth _ 0%Qc). { rewrite firstn_length; lia. }
        intros i Hi. rewrite Hd by lia. rewrite <- (firstn_skipn N l) at 1.
        rewrite app_nth1; auto. rewrite firstn_length; lia. }
      repeat split; simpl; auto.
    + destruct (for_up_fill Qc 0%Qc (fun i => 1%Qc)
         (fun i d => wr d i 1%Qc) (repeat 0%Qc N) N) as (d & Ed & HdL & Hd).
      { now rewrite repeat_length. }
      { intros i l' Hi HL. now rewrite wr_ok by lia. }
      rewrite Ed. cbn [bind]. eexists; split; [reflexivity|]. simpl.
      assert (d = repeat 1%Qc N).
      { apply (list_ext_nth _ 0%Qc). { rewrite repeat_length; lia. }
        intros i Hi. rewrite Hd by lia. now rewrite nth_repeat_lt by lia. }
      repeat split; simpl; auto.
Qed.

Lemma copy_ok : forall p, wf p -> copy_potential (Some p) = Ok (Some p).
Proof.
  intros p HW. pose proof HW as (HP & HL & HM). unfold copy_potential.
  assert (HF : firstn (dimensionality p) (card_array p) = dims p).
  { unfold dimensionality, card_array. destruct (dims p) eqn:E; auto.
    rewrite firstn_all2; auto. }
  destruct (new_potential_ok (card_array p) (dimensionality p) (Some (data p))) as (q & E & HWq & H1 & H2).
  - rewrite HF. split; auto.
  - unfold dimensionality, card_array. destruct (dims p); simpl; lia.
  - rewrite HF. lia.
  - rewrite E. do 2 f_equal. rewrite HF in *. rewrite <- HL, firstn_all in H2.
    destruct p, q; simpl in *; congruence.
Qed.

Lemma uniform_ok : forall p v, uniform_potential p v = Ok (mkPot (dims p) (repeat v (length (data p)))).
Proof.
  intros p v. unfold uniform_potential, size_of_data.
  destruct (for_up_fill Qc 0%Qc (fun _ => v) (fun i d => wr d i v) (data p) (length (data p)))
    as (d & E & HL & H); auto.
  - intros; now rewrite wr_ok by lia.
  - rewrite E. cbn [bind]. do 2 f_equal. apply (list_ext_nth _ 0%Qc).
    + now rewrite repeat_length.
    + intros i Hi. rewrite H by lia. now rewrite nth_repeat_lt by lia.
Qed.
