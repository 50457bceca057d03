(** * Proofs about HeapModel.v *)
From Coq Require Import Permutation Sorted.
From Verif Require Import Base BaseProofs HeapModel HeapSpec.
Import ListNotations.
Open Scope nat_scope.

(** ** exchanging two cells *)
Lemma swap_cells_perm_lt : forall A (d : A) s i j, i < j -> j < length s ->
  Permutation (set_nth (set_nth s j (nth i s d)) i (nth j s d)) s.
Proof.
  intros A d. induction s as [|h t IH]; intros i j Hij Hj; simpl in *; [lia|].
  destruct j as [|j]; [lia|]. destruct i as [|i]; simpl.
  - clear IH. revert h j Hj Hij. induction t as [|x t IH]; intros h j Hj Hij; simpl in *; [lia|].
    destruct j as [|j]; simpl; [apply perm_swap|].
    transitivity (x :: h :: t).
    + transitivity (x :: nth j t d :: set_nth t j h); [apply perm_swap|].
      apply perm_skip. apply (IH h j); lia.
    + apply perm_swap.
  - apply perm_skip. apply IH; lia.
Qed.

Lemma firstn_set_nth_comm : forall A (l : list A) n i v,
  firstn n (set_nth l i v) = set_nth (firstn n l) i v.
Proof.
  induction l as [|h t IH]; intros [|n] [|i] v; simpl; auto.
  now rewrite IH.
Qed.

Lemma nth_firstn : forall A (l : list A) n i d, i < n -> nth i (firstn n l) d = nth i l d.
Proof.
  induction l as [|h t IH]; intros [|n] [|i] d H; simpl; auto; try lia.
  apply IH; lia.
Qed.

(** ** order of cells *)
Definition cle {A} (x y : option (item A)) : Prop := heap_less_than y x = false.

Lemma cle_refl : forall A (x : option (item A)), cle x x.
Proof.
  intros A [x|]; unfold cle; simpl; auto.
  rewrite Z.ltb_irrefl, Z.eqb_refl, Z.ltb_irrefl. reflexivity.
Qed.

Lemma less_than_false : forall A (x y : item A),
  heap_less_than (Some x) (Some y) = false <->
  ~ ((pkey x < pkey y)%Z \/ (pkey x = pkey y /\ (skey x < skey y)%Z)).
Proof.
  intros A x y. simpl.
  destruct (Z.ltb_spec (pkey x) (pkey y)); destruct (Z.eqb_spec (pkey x) (pkey y));
  destruct (Z.ltb_spec (skey x) (skey y)); simpl; split; intros; auto; try discriminate; lia.
Qed.

Lemma cle_trans : forall A (x y z : option (item A)), cle x y -> cle y z -> cle x z.
Proof.
  unfold cle; intros A [x|] [y|] [z|]; try (simpl; auto; discriminate).
  rewrite !less_than_false. lia.
Qed.

Lemma lt_cle : forall A (x y : option (item A)), heap_less_than x y = true -> cle x y.
Proof.
  unfold cle; intros A [x|] [y|] H; try (simpl in *; auto; discriminate).
  apply less_than_false. intros G.
  assert (K : heap_less_than (Some x) (Some y) = false) by (apply less_than_false; lia).
  congruence.
Qed.

(** ** the tree of array indices *)
Inductive anc : nat -> nat -> Prop :=
| anc_l : forall a, anc a (2 * a + 1)
| anc_r : forall a, anc a (2 * (a + 1))
| anc_tl : forall a j, anc a j -> anc a (2 * j + 1)
| anc_tr : forall a j, anc a j -> anc a (2 * (j + 1)).

Lemma anc_lt : forall a j, anc a j -> a < j /\ 2 * a + 1 <= j.
Proof. induction 1; lia. Qed.

Lemma anc_head : forall i j, anc i j ->
  j = 2 * i + 1 \/ j = 2 * (i + 1) \/ anc (2 * i + 1) j \/ anc (2 * (i + 1)) j.
Proof.
  induction 1; auto.
  - destruct IHanc as [->|[->|[H1|H1]]]; auto using anc.
  - destruct IHanc as [->|[->|[H1|H1]]]; auto using anc.
Qed.

Lemma anc_child_inv : forall a m i, anc a m -> (m = 2 * i + 1 \/ m = 2 * (i + 1)) ->
  a = i \/ anc a i.
Proof.
  intros a m i H.
  inversion H; subst; intros [E|E]; try (exfalso; lia);
    first [left; lia | right; now replace i with j by lia].
Qed.

Lemma anc_trans : forall a b c, anc a b -> anc b c -> anc a c.
Proof. intros a b c Hab Hbc. induction Hbc; auto using anc. Qed.

Lemma anc_root : forall j, 0 < j -> anc 0 j.
Proof.
  intros j. induction j as [j IH] using (well_founded_induction lt_wf). intros Hj.
  destruct (Nat.Even_or_Odd j) as [[k Hk]|[k Hk]]; subst j.
  - destruct k as [|k]; [lia|]. replace (2 * S k) with (2 * (k + 1)) by lia.
    destruct k as [|k]; [apply anc_r|]. apply anc_tr. apply IH; lia.
  - destruct k as [|k]; [apply (anc_l 0)|]. apply anc_tl. apply IH; lia.
Qed.

(** ** nip_min_heapify *)
Section Heapify.
Context {A : Type}.
Notation cells_t := (list (option (item A))).
Notation at_ s i := (nth i s (@None (item A))).

(** All indices outside [I] are at most their descendants. *)
Definition ordered (I : nat -> Prop) (n : nat) (s : cells_t) : Prop :=
  forall a j, anc a j -> j < n -> ~ I a -> cle (at_ s a) (at_ s j).

Definition swap_cells (s : cells_t) i m := set_nth (set_nth s m (at_ s i)) i (at_ s m).

Lemma nth_swap : forall (s : cells_t) i m k, i < length s -> m < length s ->
  at_ (swap_cells s i m) k =
    if Nat.eqb k i then at_ s m else if Nat.eqb k m then at_ s i else at_ s k.
Proof.
  intros s i m k Hi Hm. unfold swap_cells.
  rewrite nth_set_nth by now rewrite set_nth_length.
  destruct (Nat.eqb k i); auto. now rewrite nth_set_nth.
Qed.

Lemma heapify_ordered_step : forall (I : nat -> Prop) n (s : cells_t) i m,
  n <= length s -> (m = 2 * i + 1 \/ m = 2 * (i + 1)) -> m < n ->
  (forall x, I x -> x < i) ->
  (forall c, (c = 2 * i + 1 \/ c = 2 * (i + 1)) -> c < n -> cle (at_ s m) (at_ s c)) ->
  cle (at_ s m) (at_ s i) ->
  ordered (fun x => I x \/ x = i) n s ->
  ordered (fun x => I x \/ x = m) n (swap_cells s i m).
Proof.
  intros I n s i m Hn Hm Hmn HI Hmin Hmi Ho a j Ha Hj HIa.
  assert (Him : i < m) by lia.
  pose proof (anc_lt _ _ Ha) as Hlt.
  rewrite !nth_swap by lia.
  destruct (Nat.eqb_spec a i) as [->|Nai].
  - destruct (Nat.eqb_spec j i); [lia|].
    destruct (Nat.eqb_spec j m) as [->|Njm]; auto.
    destruct (anc_head _ _ Ha) as [->|[->|[H|H]]].
    + apply Hmin; auto.
    + apply Hmin; auto.
    + apply cle_trans with (at_ s (2 * i + 1)).
      * apply Hmin; auto. apply anc_lt in H. lia.
      * apply Ho; auto. intros [G|G]; [apply HI in G; lia|lia].
    + apply cle_trans with (at_ s (2 * (i + 1))).
      * apply Hmin; auto. apply anc_lt in H. lia.
      * apply Ho; auto. intros [G|G]; [apply HI in G; lia|lia].
  - destruct (Nat.eqb_spec a m) as [->|Nam]; [exfalso; apply HIa; auto|].
    assert (HIa' : ~ (I a \/ a = i)) by (intros [G|G]; [apply HIa; auto|auto]).
    destruct (Nat.eqb_spec j i) as [->|Nji].
    + apply Ho; auto. destruct Hm as [->| ->]; auto using anc.
    + destruct (Nat.eqb_spec j m) as [->|Njm].
      * apply Ho; auto; [|lia]. destruct (anc_child_inv _ _ i Ha Hm); [contradiction|auto].
      * apply Ho; auto.
Qed.

Lemma heapify_loop_ok : forall fuel (I : nat -> Prop) n (s : cells_t) i,
  n - i < fuel -> n <= length s ->
  (forall x, I x -> x < i) ->
  ordered (fun x => I x \/ x = i) n s ->
  exists s', min_heapify_loop fuel n s i = Ok s' /\
    length s' = length s /\
    skipn n s' = skipn n s /\
    Permutation (firstn n s') (firstn n s) /\
    (forall k, k < i -> at_ s' k = at_ s k) /\
    ordered I n s'.
Proof.
  induction fuel as [|fuel IH]; intros I n s i Hf Hn HI Ho; [lia|].
  cbn [min_heapify_loop].
  set (l := 2 * i + 1). set (r := 2 * (i + 1)).
  set (m1 := if Nat.ltb l n then (if heap_less_than (at_ s l) (at_ s i) then l else i) else i).
  assert (E1 : (if Nat.ltb l n then bind (rd s l) (fun cl => bind (rd s i) (fun ci =>
                  Ok (if heap_less_than cl ci then l else i))) else Ok i) = Ok m1).
  { unfold m1. destruct (Nat.ltb_spec l n); auto.
    rewrite (rd_ok _ s l None) by lia. cbn [bind].
    rewrite (rd_ok _ s i None) by lia. reflexivity. }
  rewrite E1. cbn [bind].
  set (m := if Nat.ltb r n then (if heap_less_than (at_ s r) (at_ s m1) then r else m1) else m1).
  assert (Hm1 : m1 = i \/ (m1 = l /\ l < n)).
  { unfold m1. destruct (Nat.ltb_spec l n); auto.
    destruct (heap_less_than (at_ s l) (at_ s i)); auto. }
  assert (E2 : (if Nat.ltb r n then bind (rd s r) (fun cr => bind (rd s m1) (fun cm =>
                  Ok (if heap_less_than cr cm then r else m1))) else Ok m1) = Ok m).
  { unfold m. destruct (Nat.ltb_spec r n); auto.
    rewrite (rd_ok _ s r None) by lia. cbn [bind].
    rewrite (rd_ok _ s m1 None) by lia. reflexivity. }
  rewrite E2. cbn [bind].
  assert (Hm : m = i \/ ((m = l \/ m = r) /\ m < n)).
  { unfold m. destruct (Nat.ltb_spec r n).
    - destruct (heap_less_than (at_ s r) (at_ s m1)); [right; auto|]. destruct Hm1 as [G|[G G1]];
        [left; exact G|right; split; [left; exact G|rewrite G; exact G1]].
    - destruct Hm1 as [G|[G G1]];
        [left; exact G|right; split; [left; exact G|rewrite G; exact G1]]. }
  assert (Hm1i : cle (at_ s m1) (at_ s i) /\ (l < n -> cle (at_ s m1) (at_ s l))).
  { unfold m1. destruct (Nat.ltb_spec l n).
    - destruct (heap_less_than (at_ s l) (at_ s i)) eqn:E.
      + split; [now apply lt_cle|intros; apply cle_refl].
      + split; [apply cle_refl|intros; exact E].
    - split; [apply cle_refl|lia]. }
  assert (Hmin : cle (at_ s m) (at_ s i) /\ (l < n -> cle (at_ s m) (at_ s l))
                 /\ (r < n -> cle (at_ s m) (at_ s r))).
  { destruct Hm1i as [G1 G2]. unfold m. destruct (Nat.ltb_spec r n).
    - destruct (heap_less_than (at_ s r) (at_ s m1)) eqn:E.
      + apply lt_cle in E. split; [eapply cle_trans; eauto|].
        split; [intros; eapply cle_trans; eauto|intros; apply cle_refl].
      + split; auto.
    - split; auto. split; auto. lia. }
  destruct Hmin as (Hmi & Hml & Hmr).
  destruct (Nat.eqb_spec m i) as [Emi|Nmi].
  - exists s. do 5 (split; [auto|]).
    intros a j Ha Hj HIa. destruct (Nat.eq_dec a i) as [->|Na].
    + rewrite Emi in Hml, Hmr. destruct (anc_head _ _ Ha) as [->|[->|[H|H]]]; auto.
      * apply cle_trans with (at_ s l).
        -- apply Hml. apply anc_lt in H. unfold l; lia.
        -- apply Ho; auto. intros [G|G]; [apply HI in G; unfold l in *; lia|lia].
      * apply cle_trans with (at_ s r).
        -- apply Hmr. apply anc_lt in H. unfold r; lia.
        -- apply Ho; auto. intros [G|G]; [apply HI in G; unfold r in *; lia|lia].
    + apply Ho; auto. intros [G|G]; auto.
  - destruct Hm as [Hm|[Hm Hmn]]; [contradiction|].
    assert (Him : i < m) by (unfold l, r in Hm; lia).
    rewrite (rd_ok _ s m None) by lia. cbn [bind].
    rewrite (rd_ok _ s i None) by lia. cbn [bind].
    rewrite wr_ok by lia. cbn [bind]. rewrite wr_ok by (rewrite set_nth_length; lia).
    cbn [bind]. fold (swap_cells s i m).
    destruct (IH I n (swap_cells s i m) m) as (s' & E & Hl & Hsk & HP & Hlow & Hord).
    + lia.
    + unfold swap_cells. rewrite !set_nth_length. auto.
    + intros x Hx. apply HI in Hx. lia.
    + apply heapify_ordered_step; auto; try lia.
      intros c [->| ->] Hc; auto.
    + exists s'. split; auto.
      split; [rewrite Hl; unfold swap_cells; now rewrite !set_nth_length|].
      split.
      { rewrite Hsk. unfold swap_cells. 
        assert (G : forall (l : cells_t) n i v, i < n -> skipn n (set_nth l i v) = skipn n l).
        { clear. induction l as [|h t IHl]; intros [|n] [|i] v H; simpl; auto; try lia.
          apply IHl; lia. }
        rewrite !G by lia. reflexivity. }
      split.
      { rewrite HP. unfold swap_cells. rewrite !firstn_set_nth_comm.
        rewrite <- (nth_firstn _ s n i None), <- (nth_firstn _ s n m None) by lia.
        apply swap_cells_perm_lt; auto. rewrite firstn_length. lia. }
      split; auto. intros k Hk. rewrite Hlow by lia. rewrite nth_swap by lia.
      destruct (Nat.eqb_spec k i); [lia|]. destruct (Nat.eqb_spec k m); [lia|auto].
Qed.

End Heapify.

(** ** whole heaps *)
Section Heaps.
Context {A : Type} (k1 k2 : A -> Z).
Notation at_ s i := (nth i s (@None (item A))).

Definition cell_of (c : A) : option (item A) := Some (mkItem c (k1 c) (k2 c)).

(** [h] stores exactly the contents [M]. *)
Definition stores (h : heap A) (M : list A) : Prop :=
  h_size h = length M /\ h_size h <= h_alloc h /\ h_alloc h = length (h_cells h) /\
  firstn (h_size h) (h_cells h) = map cell_of M.

Definition is_heap (h : heap A) : Prop := ordered (fun _ => False) (h_size h) (h_cells h).

Lemma cle_key_le : forall x y, cle (cell_of x) (cell_of y) <-> key_le k1 k2 x y.
Proof.
  intros x y. unfold cle, key_le; simpl.
  destruct (Z.ltb_spec (k1 y) (k1 x)); simpl; [split; [discriminate|lia]|].
  destruct (Z.eqb_spec (k1 y) (k1 x)); simpl.
  - destruct (Z.ltb_spec (k2 y) (k2 x)); split; intros; try discriminate; auto; lia.
  - split; intros; auto. lia.
Qed.

Lemma stores_at : forall h M i d, stores h M -> i < length M ->
  at_ (h_cells h) i = cell_of (nth i M d).
Proof.
  intros h M i d (Hs & Hle & Hal & Hf) Hi.
  rewrite <- (nth_firstn _ (h_cells h) (h_size h) i None) by lia.
  rewrite Hf. now rewrite (nth_map _ _ cell_of M i d).
Qed.

Lemma map_cell_perm : forall (l : list (option (item A))) M,
  Permutation l (map cell_of M) -> exists M', l = map cell_of M' /\ Permutation M' M.
Proof.
  intros l M H. apply Permutation_sym in H.
  destruct (Permutation_map_inv _ _ (Permutation_sym H)) as (M' & E & HP).
  exists M'. split; auto. now symmetry.
Qed.

Lemma min_heapify_ok : forall h M (I : nat -> Prop) i,
  stores h M -> (forall x, I x -> x < i) ->
  ordered (fun x => I x \/ x = i) (h_size h) (h_cells h) ->
  exists h' M', min_heapify h i = Ok h' /\ stores h' M' /\ Permutation M' M /\
    h_size h' = h_size h /\ h_alloc h' = h_alloc h /\
    h_updated h' = h_updated h /\ h_heapified h' = h_heapified h /\
    (forall k, k < i -> at_ (h_cells h') k = at_ (h_cells h) k) /\
    ordered I (h_size h') (h_cells h').
Proof.
  intros h M I i (Hs & Hle & Hal & Hf) HI Ho. unfold min_heapify.
  destruct (heapify_loop_ok (S (h_size h)) I (h_size h) (h_cells h) i)
    as (s' & E & Hl & _ & HP & Hlow & Hord); auto; try lia.
  rewrite E. cbn [bind]. rewrite Hf in HP. destruct (map_cell_perm _ _ HP) as (M' & EM & HPM).
  eexists; exists M'. split; [reflexivity|]. simpl. split.
  - unfold stores; simpl. rewrite Hl, (Permutation_length HPM). auto.
  - do 5 (split; [auto|]). auto.
Qed.

Lemma build_ok : forall h M,
  stores h M -> h_heapified h = false ->
  exists h' M', build_min_heap h = Ok h' /\ stores h' M' /\ Permutation M' M /\
    is_heap h' /\ h_alloc h' = h_alloc h /\ h_heapified h' = true /\ h_updated h' = [].
Proof.
  intros h M Hst Hh. unfold build_min_heap. rewrite Hh. cbn [negb].
  destruct (Nat.eqb_spec (h_size h) 0) as [E0|N0].
  - cbn [bind]. eexists; exists M. split; [reflexivity|]. split; [exact Hst|].
    split; auto. split; [|auto]. intros a j Ha Hj. simpl in Hj. lia.
  - destruct (for_down_inv _ (fun i h' => exists M', stores h' M' /\ Permutation M' M /\
        h_alloc h' = h_alloc h /\ h_size h' = h_size h /\
        ordered (fun x => x < i) (h_size h') (h_cells h'))
      (fun i h' => min_heapify h' i) (S ((h_size h - 2) / 2)) 0 h)
      as (h' & E & M' & Hst' & HP & Hal & Hsz & Hord).
    + lia.
    + exists M. do 4 (split; [auto|]). intros a j Ha Hj HIa.
      exfalso. apply anc_lt in Ha. pose proof (Nat.div_mod (h_size h - 2) 2).
      pose proof (Nat.mod_upper_bound (h_size h - 2) 2). lia.
    + intros i g Hi (M1 & Hst1 & HP1 & Hal1 & Hsz1 & Hord1).
      destruct (min_heapify_ok g M1 (fun x => x < i) i) as
        (g' & M2 & E & Hst2 & HP2 & Hsz2 & Hal2 & _ & _ & _ & Hord2); auto.
      { intros a j Ha Hj HIa. apply Hord1; auto. intros G. apply HIa. lia. }
      exists g'. split; auto. exists M2. split; auto. split; [now rewrite HP2|].
      split; [lia|]. split; [lia|auto].
    + rewrite E. cbn [bind]. eexists; exists M'. split; [reflexivity|].
      split; [exact Hst'|]. split; auto. split; [|auto].
      intros a j Ha Hj _. simpl in *. apply Hord; auto. lia.
Qed.

Lemma skipn_cons_last : forall (l : list A) x, l ++ [x] <> [].
Proof. destruct l; discriminate. Qed.

Lemma firstn_map_app : forall (s : list (option (item A))) n M,
  firstn n s = map cell_of M -> length M <= n.
Proof.
  intros s n M H. apply (f_equal (@length _)) in H. rewrite map_length, firstn_length in H. lia.
Qed.

Lemma extract_ok : forall h x M,
  stores h (x :: M) -> is_heap h ->
  exists h' M', heap_extract_min h = Ok (Some x, h') /\ stores h' M' /\
    Permutation M' M /\ is_heap h' /\ h_alloc h' = h_alloc h /\
    h_heapified h' = h_heapified h /\ h_updated h' = h_updated h /\
    (forall y, In y M -> key_le k1 k2 x y).
Proof.
  intros h x M Hst Hh. pose proof Hst as (Hs & Hle & Hal & Hf). simpl in Hs.
  assert (Hmin : forall y, In y M -> key_le k1 k2 x y).
  { intros y Hy. apply (In_nth _ _ x) in Hy. destruct Hy as (i & Hi & Ey).
    assert (G : cle (at_ (h_cells h) 0) (at_ (h_cells h) (S i))).
    { apply Hh; auto; [apply anc_root; lia|rewrite Hs; lia]. }
    rewrite (stores_at h (x :: M) 0 x), (stores_at h (x :: M) (S i) x) in G by (auto; simpl; lia).
    simpl in G. rewrite Ey in G. now apply cle_key_le. }
  unfold heap_extract_min. destruct (Nat.ltb_spec (h_size h) 1); [lia|].
  rewrite (rd_ok _ (h_cells h) 0 None) by lia. cbn [bind].
  rewrite (stores_at h (x :: M) 0 x) by (auto; simpl; lia). simpl nth.
  set (last := h_size h - 1).
  rewrite (rd_ok _ (h_cells h) last None) by (unfold last; lia). cbn [bind].
  rewrite wr_ok by lia. cbn [bind]. rewrite wr_ok by (rewrite set_nth_length; unfold last; lia).
  cbn [bind]. set (cells := set_nth (set_nth _ _ _) _ _).
  set (g := mkHeap _ cells last _ _).
  (* contents after moving the last item to the top *)
  set (M1 := match M with [] => [] | _ => nth (length M - 1) M x :: removelast M end).
  assert (HP1 : Permutation M1 M).
  { unfold M1. destruct M as [|m0 M0]; auto.
    assert (Hne : m0 :: M0 <> []) by discriminate.
    assert (El : List.last (m0 :: M0) x = nth (length (m0 :: M0) - 1) (m0 :: M0) x).
    { clear. generalize (m0 :: M0). intros l. induction l as [|a l IH]; auto.
      destruct l as [|b l]; auto. change (List.last (a :: b :: l) x) with (List.last (b :: l) x).
      rewrite IH. simpl. now rewrite Nat.sub_0_r. }
    pose proof (app_removelast_last x Hne) as Er. rewrite El in Er.
    apply Permutation_trans with
      (removelast (m0 :: M0) ++ [nth (length (m0 :: M0) - 1) (m0 :: M0) x]).
    - apply Permutation_cons_append.
    - rewrite <- Er. apply Permutation_refl. }
  assert (Hcl : length cells = length (h_cells h)) by (unfold cells; now rewrite !set_nth_length).
  assert (Hst1 : stores g M1).
  { unfold stores; simpl. rewrite (Permutation_length HP1), Hcl. unfold last.
    split; [lia|]. split; [lia|]. split; auto.
    apply (list_ext_nth _ None).
    - rewrite firstn_length, map_length, (Permutation_length HP1). lia.
    - intros i Hi. rewrite firstn_length in Hi.
      rewrite nth_firstn by lia.
      assert (Hi1 : i < length M1) by (rewrite (Permutation_length HP1); lia).
      rewrite (nth_map _ _ cell_of M1 i x) by auto.
      unfold cells. rewrite nth_set_nth_neq by (unfold last; lia).
      rewrite nth_set_nth by lia.
      destruct M as [|m0 M0]; [simpl in *; lia|].
      destruct (Nat.eqb_spec i 0) as [->|Ni].
      + rewrite (stores_at h (x :: m0 :: M0) _ x) by (auto; simpl; unfold last; simpl in Hs; lia).
        unfold M1. simpl nth at 2. unfold last. rewrite Hs. simpl length.
        replace (S (S (length M0)) - 1) with (S (S (length M0) - 1)) by lia. reflexivity.
      + rewrite (stores_at h (x :: m0 :: M0) _ x) by (auto; simpl; simpl in Hs; lia).
        unfold M1. destruct i as [|i]; [lia|]. f_equal.
        assert (Hr : forall (l : list A) i, i < length l - 1 -> nth i (removelast l) x = nth i l x).
        { clear. intros l i Hi.
          destruct l as [|a l]; [simpl in Hi; lia|].
          assert (Hne : a :: l <> []) by discriminate.
          rewrite (app_removelast_last x Hne) at 2. rewrite app_nth1; auto.
          pose proof (app_removelast_last x Hne) as E. apply (f_equal (@length _)) in E.
          rewrite app_length in E. simpl in E, Hi |- *. lia. }
        change (nth (S i) (x :: m0 :: M0) x) with (nth i (m0 :: M0) x).
        change (nth i (m0 :: M0) x = nth i (removelast (m0 :: M0)) x).
        symmetry. apply Hr. simpl length in *. lia. }
  assert (Hord : ordered (fun y => False \/ y = 0) (h_size g) (h_cells g)).
  { simpl. intros a j Ha Hj HIa. pose proof (anc_lt _ _ Ha).
    unfold cells. rewrite !nth_set_nth_neq by (unfold last in *; lia).
    apply Hh; auto. unfold last in *; lia. }
  destruct (min_heapify_ok g M1 (fun _ => False) 0) as
    (g' & M2 & E & Hst2 & HP2 & Hsz & Hal2 & Hu & Hhp & _ & Hord2); auto.
  { intros y []. }
  rewrite E. cbn [bind]. exists g', M2. split; [reflexivity|]. split; auto.
  split; [now rewrite HP2|]. split; [exact Hord2|]. split; [exact Hal2|]. split; [exact Hhp|].
  split; [exact Hu|]. exact Hmin.
Qed.

Lemma extract_empty : forall (h : heap A), h_size h = 0 -> heap_extract_min h = Ok (None, h).
Proof. intros h H. unfold heap_extract_min. now rewrite H. Qed.

Lemma insert_ok : forall h M x b,
  stores h M -> length M < h_alloc h ->
  exists h', heap_insert k1 k2 true b h x = Ok (NO_ERROR, h') /\
    stores h' (M ++ [x]) /\ h_alloc h' = h_alloc h /\ h_heapified h' = false /\
    h_updated h' = h_updated h.
Proof.
  intros h M x b (Hs & Hle & Hal & Hf) Hlt. unfold heap_insert. cbn [negb].
  destruct (Nat.eqb_spec (h_size h) (h_alloc h)); [lia|]. cbn [bind].
  rewrite wr_ok by lia. cbn [bind]. eexists; split; [reflexivity|]. simpl.
  split; [|auto]. unfold stores; simpl. rewrite app_length, set_nth_length. simpl.
  split; [lia|]. split; [lia|]. split; auto.
  change (match set_nth (h_cells h) (h_size h) (Some {| content := x; pkey := k1 x; skey := k2 x |}) with
          [] => [] | x :: l => x :: firstn (h_size h) l end)
    with (firstn (S (h_size h)) (set_nth (h_cells h) (h_size h) (Some {| content := x; pkey := k1 x; skey := k2 x |}))).
  assert (G : forall B (l : list B) i v, i < length l -> firstn (S i) (set_nth l i v) = firstn i l ++ [v]).
  { clear. induction l as [|h t IH]; intros [|i] v H; simpl in *; try lia; auto.
    f_equal. apply IH; lia. }
  rewrite G by lia. rewrite Hf, map_app. reflexivity.
Qed.

Lemma new_heap_ok : forall n, 0 < n ->
  exists h : heap A, new_heap n = Some h /\ stores h [] /\ h_alloc h = n /\
    h_heapified h = false /\ h_updated h = [].
Proof.
  intros n Hn. unfold new_heap. destruct (Nat.eqb_spec n 0); [lia|].
  eexists; split; [reflexivity|]. simpl. split; [|auto].
  unfold stores; simpl. rewrite repeat_length. repeat split; auto. lia.
Qed.

Lemma insert_all_ok : forall xs h M,
  stores h M -> length M + length xs <= h_alloc h ->
  exists h', insert_all k1 k2 h xs = Ok h' /\ stores h' (M ++ xs) /\
    h_alloc h' = h_alloc h /\ (xs <> [] -> h_heapified h' = false) /\
    (xs = [] -> h' = h) /\
    h_updated h' = h_updated h.
Proof.
  induction xs as [|x xs IH]; intros h M Hst Hl; simpl.
  - exists h. rewrite app_nil_r. repeat split; auto; try apply Hst; congruence.
  - simpl in Hl. destruct (insert_ok h M x true Hst) as (h1 & E & Hst1 & Hal & Hh & Hu); [lia|].
    rewrite E. cbn [bind].
    destruct (IH h1 (M ++ [x]) Hst1) as (h2 & E2 & Hst2 & Hal2 & Hh2 & He2 & Hu2).
    { rewrite app_length, Hal; simpl; lia. }
    exists h2. split; auto. rewrite <- app_assoc in Hst2. simpl in Hst2.
    split; auto. split; [congruence|]. split; [|split; congruence].
    intros _. destruct xs as [|y ys]; [rewrite He2 by auto; auto|]. apply Hh2. discriminate.
Qed.

Lemma drain_ok : forall n h M,
  stores h M -> is_heap h -> length M = n ->
  exists ys h', drain n h = Ok (ys, h') /\ Permutation ys M /\
    StronglySorted (key_le k1 k2) ys /\ h_size h' = 0.
Proof.
  induction n as [|n IH]; intros h M Hst Hh Hl; simpl.
  - destruct M; [|discriminate]. exists [], h. split; auto. split; auto. split; [constructor|].
    destruct Hst as [Hs _]. exact Hs.
  - destruct M as [|x M]; [discriminate|].
    destruct (extract_ok h x M Hst Hh) as (h1 & M1 & E & Hst1 & HP1 & Hh1 & _ & _ & _ & Hmin).
    rewrite E. cbn [bind].
    destruct (IH h1 M1 Hst1 Hh1) as (ys & h2 & E2 & HP2 & Hss & H0).
    { rewrite (Permutation_length HP1). simpl in Hl. lia. }
    rewrite E2. cbn [bind]. exists (x :: ys), h2. split; auto.
    assert (HP : Permutation ys M) by now rewrite HP2.
    split; [now apply perm_skip|]. split; auto. constructor; auto.
    apply Forall_forall. intros y Hy. apply Hmin. eapply Permutation_in; eauto.
Qed.

(** ** changed keys *)
Lemma set_item_ok : forall h M i c d,
  stores h M -> i < length M ->
  exists h', set_heap_item k1 k2 h (Z.of_nat i) c true = Ok (NO_ERROR, h') /\
    stores h' (set_nth M i c) /\ h_alloc h' = h_alloc h /\
    h_heapified h' = h_heapified h /\ h_updated h' = h_updated h ++ [i] /\
    at_ (h_cells h) i = cell_of (nth i M d) /\
    h_cells h' = set_nth (h_cells h) i (cell_of c).
Proof.
  intros h M i c d Hst Hi. pose proof Hst as (Hs & Hle & Hal & Hf). unfold set_heap_item.
  destruct (Z.ltb_spec (Z.of_nat i) 0); [lia|].
  destruct (Z.leb_spec (Z.of_nat (h_size h)) (Z.of_nat i)); [lia|]. cbn [orb negb].
  rewrite Nat2Z.id. rewrite (rd_ok _ (h_cells h) i None) by lia. cbn [bind].
  rewrite (stores_at h M i c) by auto. simpl. rewrite wr_ok by lia. cbn [bind].
  eexists; split; [reflexivity|]. simpl. split.
  - unfold stores; simpl. rewrite !set_nth_length. do 3 (split; [auto|]).
    rewrite firstn_set_nth_comm, Hf.
    assert (G : forall l i, set_nth (map cell_of l) i (cell_of c) = map cell_of (set_nth l i c)).
    { clear. induction l as [|x l IH]; intros [|i]; simpl; auto. now rewrite IH. }
    apply (G M i).
  - do 3 (split; [auto|]). split; [|reflexivity].
    rewrite (nth_indep M c d) by auto. reflexivity.
Qed.

(** The loop of nip_build_min_heap over the updated indices. *)
Fixpoint rebuild (l : list nat) (h : heap A) : res (heap A) :=
  match l with
  | [] => Ok h
  | i :: l' => bind (min_heapify h i) (fun h => rebuild l' h)
  end.

Lemma rebuild_ok : forall l h M,
  stores h M -> StronglySorted gt l ->
  ordered (fun x => In x l) (h_size h) (h_cells h) ->
  exists h' M', rebuild l h = Ok h' /\ stores h' M' /\ Permutation M' M /\
    is_heap h' /\ h_alloc h' = h_alloc h.
Proof.
  induction l as [|i l IH]; intros h M Hst Hso Ho; simpl.
  - exists h, M. do 3 (split; [auto|]). split; auto.
  - inversion Hso; subst. rewrite Forall_forall in H2.
    destruct (min_heapify_ok h M (fun x => In x l) i) as
      (h1 & M1 & E & Hst1 & HP1 & Hsz & Hal & _ & _ & _ & Hord); auto.
    { intros a j Ha Hj HIa. apply Ho; auto. simpl. intros [G|G]; apply HIa; auto. }
    rewrite E. cbn [bind].
    destruct (IH h1 M1 Hst1 H1 Hord) as (h2 & M2 & E2 & Hst2 & HP2 & Hh2 & Hal2).
    exists h2, M2. split; auto. split; auto. split; [now rewrite HP2|]. split; auto. congruence.
Qed.

Lemma build_updated : forall h, h_heapified h = true ->
  build_min_heap h = bind (rebuild (h_updated h) h) (fun h =>
    Ok (mkHeap (h_alloc h) (h_cells h) (h_size h) true [])).
Proof. intros h H. unfold build_min_heap. rewrite H. reflexivity. Qed.

(** Changing items one after another: contents and the cells. *)
Fixpoint change (M : list A) (changes : list (nat * A)) : list A :=
  match changes with
  | [] => M
  | (i, c) :: l => change (set_nth M i c) l
  end.

Lemma change_length : forall l M, length (change M l) = length M.
Proof. induction l as [|[i c] l IH]; intros M; simpl; auto. rewrite IH. apply set_nth_length. Qed.

Lemma set_all_ok : forall l h M,
  stores h M -> (forall i c, In (i, c) l -> i < length M) ->
  exists h', set_all k1 k2 h l = Ok h' /\ stores h' (change M l) /\
    h_alloc h' = h_alloc h /\ h_heapified h' = h_heapified h /\
    h_updated h' = h_updated h ++ map fst l.
Proof.
  induction l as [|[i c] l IH]; intros h M Hst Hl; simpl.
  - exists h. rewrite app_nil_r. auto.
  - destruct (set_item_ok h M i c c Hst) as (h1 & E & Hst1 & Hal & Hh & Hu & _).
    { apply (Hl i c). simpl; auto. }
    rewrite E. cbn [bind].
    destruct (IH h1 _ Hst1) as (h2 & E2 & Hst2 & Hal2 & Hh2 & Hu2).
    { intros j d Hj. rewrite set_nth_length. apply (Hl j d). simpl; auto. }
    exists h2. split; auto. split; auto. split; [congruence|]. split; [congruence|].
    rewrite Hu2, Hu, <- app_assoc. reflexivity.
Qed.

Lemma nth_change_notin : forall l M i d, ~ In i (map fst l) -> nth i (change M l) d = nth i M d.
Proof.
  induction l as [|[j c] l IH]; intros M i d H; simpl; auto.
  rewrite IH by (intros G; apply H; simpl; auto).
  apply nth_set_nth_neq. intros G; apply H; simpl; auto.
Qed.

Lemma key_le_refl : forall x, key_le k1 k2 x x.
Proof. intros; right; lia. Qed.
Lemma key_le_trans : forall x y z, key_le k1 k2 x y -> key_le k1 k2 y z -> key_le k1 k2 x z.
Proof. unfold key_le; intros; lia. Qed.

Lemma change_raises : forall l M d,
  (forall i c, In (i, c) l -> i < length M /\ key_le k1 k2 (nth i M d) c) ->
  NoDup (map fst l) ->
  forall i, i < length M -> key_le k1 k2 (nth i M d) (nth i (change M l) d).
Proof.
  induction l as [|[j c] l IH]; intros M d H Hnd i Hi; simpl; [apply key_le_refl|].
  simpl in Hnd. inversion Hnd; subst.
  destruct (H j c) as [Hj Hk]; [simpl; auto|].
  destruct (Nat.eq_dec i j) as [->|Nij].
  - rewrite nth_change_notin by auto. rewrite nth_set_nth_eq by auto. auto.
  - eapply key_le_trans; [|apply IH].
    + rewrite nth_set_nth_neq by auto. apply key_le_refl.
    + intros i' c' Hin. destruct (H i' c') as [H1 H1']; [simpl; auto|].
      rewrite set_nth_length. split; auto. rewrite nth_set_nth_neq; auto.
      intros ->. apply H2. apply (in_map fst) in Hin. exact Hin.
    + auto.
    + rewrite set_nth_length. auto.
Qed.

Lemma sorted_gt_nodup : forall l, StronglySorted gt l -> NoDup l.
Proof.
  induction 1; constructor; auto. intros G. rewrite Forall_forall in H0. apply H0 in G. lia.
Qed.

Lemma changed_rebuild : forall h M l d,
  stores h M -> is_heap h -> h_heapified h = true -> h_updated h = [] ->
  (forall i c, In (i, c) l -> i < length M /\ key_le k1 k2 (nth i M d) c) ->
  StronglySorted gt (map fst l) ->
  exists h1 h2 M2, set_all k1 k2 h l = Ok h1 /\ build_min_heap h1 = Ok h2 /\
    stores h2 M2 /\ Permutation M2 (change M l) /\ is_heap h2.
Proof.
  intros h M l d Hst Hh Hhp Hu Hl Hso.
  destruct (set_all_ok l h M Hst) as (h1 & E1 & Hst1 & Hal1 & Hhp1 & Hu1).
  { intros i c Hin. apply (Hl i c Hin). }
  rewrite Hu in Hu1. simpl in Hu1.
  assert (Hsz : h_size h = length M) by apply Hst.
  assert (Hsz1 : h_size h1 = length M) by (destruct Hst1 as [G _]; now rewrite change_length in G).
  destruct (rebuild_ok (h_updated h1) h1 (change M l)) as (h2 & M2 & E2 & Hst2 & HP2 & Hh2 & _); auto.
  { now rewrite Hu1. }
  { rewrite Hu1. intros a j Ha Hj HIa. pose proof (anc_lt _ _ Ha).
    rewrite (stores_at h1 _ a d Hst1), (stores_at h1 _ j d Hst1) by (rewrite change_length; lia).
    apply cle_key_le. rewrite nth_change_notin by auto.
    apply key_le_trans with (nth j M d).
    - apply cle_key_le. rewrite <- (stores_at h M a d Hst), <- (stores_at h M j d Hst) by lia.
      apply Hh; auto. lia.
    - apply change_raises; auto; [now apply sorted_gt_nodup|lia]. }
  exists h1. eexists; exists M2. split; auto. split.
  - rewrite build_updated by congruence. rewrite E2. reflexivity.
  - split; [exact Hst2|]. split; auto.
Qed.


(** ** histories *)
Lemma build_any_ok : forall h M,
  stores h M -> h_updated h = [] ->
  (h_heapified h = true -> is_heap h) ->
  exists h' M', build_min_heap h = Ok h' /\ stores h' M' /\ Permutation M' M /\
    is_heap h' /\ h_alloc h' = h_alloc h /\ h_heapified h' = true /\ h_updated h' = [].
Proof.
  intros h M Hst Hu Hh. destruct (h_heapified h) eqn:E; [|now apply build_ok].
  rewrite build_updated by auto. rewrite Hu. simpl.
  eexists; exists M. split; [reflexivity|]. split; [exact Hst|]. split; auto.
Qed.

Lemma run_ok : forall cap ops h M Mb b,
  stores h M -> h_alloc h = cap -> h_updated h = [] -> h_heapified h = b ->
  (b = true -> is_heap h) -> Permutation Mb M ->
  pq_legal cap (length M) b ops ->
  exists rs h' s', heap_run k1 k2 h ops = Ok (rs, h') /\
    pq_trace k1 k2 cap (Mb, b) ops rs s'.
Proof.
  intros cap. induction ops as [|o ops IH]; intros h M Mb b Hst Hal Hu Hhp Hh HP Hleg; simpl.
  - do 3 eexists. split; reflexivity.
  - destruct o as [x| |]; simpl in Hleg |- *.
    + destruct Hleg as [Hlt Hleg].
      destruct (insert_ok h M x true Hst) as (h1 & E & Hst1 & Hal1 & Hhp1 & Hu1); [lia|].
      rewrite E. cbn [bind].
      destruct (IH h1 (M ++ [x]) (x :: Mb) false) as (rs & h' & s' & E' & T); auto; try congruence.
      * rewrite HP. apply Permutation_cons_append.
      * rewrite app_length, Nat.add_comm. exact Hleg.
      * rewrite E'. cbn [bind]. exists (None :: rs), h', s'. split; auto.
        simpl. eexists; split; [constructor|exact T]. rewrite (Permutation_length HP). auto.
    + destruct (build_any_ok h M Hst Hu) as (h1 & M1 & E & Hst1 & HP1 & Hh1 & Hal1 & Hhp1 & Hu1).
      { rewrite Hhp. auto. }
      rewrite E. cbn [bind].
      destruct (IH h1 M1 Mb true) as (rs & h' & s' & E' & T); auto; try congruence.
      * now rewrite HP1.
      * now rewrite (Permutation_length HP1).
      * rewrite E'. cbn [bind]. exists (None :: rs), h', s'. split; auto.
        simpl. eexists; split; [constructor|exact T].
    + destruct Hleg as [Hb Hleg]. destruct M as [|x M].
      * apply Permutation_sym, Permutation_nil in HP. subst Mb.
        rewrite extract_empty by apply Hst. cbn [bind].
        destruct (IH h [] [] b) as (rs & h' & s' & E' & T); auto.
        rewrite E'. cbn [bind]. exists (None :: rs), h', s'. split; auto.
        simpl. eexists; split; [constructor|exact T].
      * simpl in Hb, Hleg. rewrite Nat.sub_0_r in Hleg. destruct Hb as [Hb|Hb]; [discriminate|].
        subst b. rewrite Hb in Hh, Hleg. rewrite Hb.
        destruct (extract_ok h x M Hst (Hh eq_refl)) as
          (h1 & M1 & E & Hst1 & HP1 & Hh1 & Hal1 & Hhp1 & Hu1 & Hmin).
        rewrite E. cbn [bind].
        assert (Hin : In x Mb) by (eapply Permutation_in; [symmetry; exact HP|simpl; auto]).
        apply in_split in Hin. destruct Hin as (Ma & Mc & ->).
        apply Permutation_sym in HP. pose proof (Permutation_cons_app_inv _ _ HP) as HP2.
        destruct (IH h1 M1 (Ma ++ Mc) true) as (rs & h' & s' & E' & T); auto; try congruence.
        { rewrite <- HP2. now rewrite HP1. }
        { now rewrite (Permutation_length HP1). }
        rewrite E'. cbn [bind]. exists (Some x :: rs), h', s'. split; auto.
        simpl. eexists; split; [|exact T]. constructor.
        intros y Hy. apply Hmin. eapply Permutation_in; [symmetry; exact HP2|auto].
Qed.

(** Without any order, nip_min_heapify still terminates and stays inside. *)
Lemma heapify_loop_total : forall fuel n (s : list (option (item A))) i,
  n - i < fuel -> n <= length s ->
  exists s', min_heapify_loop fuel n s i = Ok s' /\ length s' = length s.
Proof.
  induction fuel as [|fuel IH]; intros n s i Hf Hn; [lia|].
  cbn [min_heapify_loop]. set (l := 2 * i + 1). set (r := 2 * (i + 1)).
  assert (E1 : exists m1, (if Nat.ltb l n then bind (rd s l) (fun cl => bind (rd s i) (fun ci =>
                  Ok (if heap_less_than cl ci then l else i))) else Ok i) = Ok m1
               /\ (m1 = i \/ (m1 = l /\ l < n))).
  { destruct (Nat.ltb_spec l n); [|eauto].
    rewrite (rd_ok _ s l None) by lia. cbn [bind].
    rewrite (rd_ok _ s i None) by lia. cbn [bind].
    eexists; split; [reflexivity|]. destruct (heap_less_than (at_ s l) (at_ s i)); auto. }
  destruct E1 as (m1 & E1 & Hm1). rewrite E1. cbn [bind].
  assert (E2 : exists m, (if Nat.ltb r n then bind (rd s r) (fun cr => bind (rd s m1) (fun cm =>
                  Ok (if heap_less_than cr cm then r else m1))) else Ok m1) = Ok m
               /\ (m = i \/ (i < m /\ m < n))).
  { destruct (Nat.ltb_spec r n).
    - rewrite (rd_ok _ s r None) by lia. cbn [bind].
      rewrite (rd_ok _ s m1 None) by lia. cbn [bind].
      eexists; split; [reflexivity|]. destruct (heap_less_than (at_ s r) (at_ s m1)); lia.
    - eexists; split; [reflexivity|]. lia. }
  destruct E2 as (m & E2 & Hm). rewrite E2. cbn [bind].
  destruct (Nat.eqb_spec m i); [eauto|].
  rewrite (rd_ok _ s m None) by lia. cbn [bind].
  rewrite (rd_ok _ s i None) by lia. cbn [bind].
  rewrite wr_ok by lia. cbn [bind]. rewrite wr_ok by (rewrite set_nth_length; lia). cbn [bind].
  destruct (IH n (set_nth (set_nth s m (at_ s i)) i (at_ s m)) m) as (s' & E & Hl).
  - lia.
  - now rewrite !set_nth_length.
  - exists s'. split; auto. now rewrite Hl, !set_nth_length.
Qed.

Lemma extract_root : forall h x M,
  stores h (x :: M) -> exists h', heap_extract_min h = Ok (Some x, h').
Proof.
  intros h x M Hst. pose proof Hst as (Hs & Hle & Hal & Hf). simpl in Hs.
  unfold heap_extract_min. destruct (Nat.ltb_spec (h_size h) 1); [lia|].
  rewrite (rd_ok _ (h_cells h) 0 None) by lia. cbn [bind].
  rewrite (stores_at h (x :: M) 0 x) by (auto; simpl; lia). simpl nth.
  rewrite (rd_ok _ (h_cells h) _ None) by lia. cbn [bind].
  rewrite wr_ok by lia. cbn [bind]. rewrite wr_ok by (rewrite set_nth_length; lia). cbn [bind].
  unfold min_heapify; simpl h_size; simpl h_cells.
  match goal with |- context [min_heapify_loop ?f ?n ?s ?i] =>
    destruct (heapify_loop_total f n s i) as (s' & E & _) end.
  - lia.
  - rewrite !set_nth_length. lia.
  - rewrite E. cbn [bind]. eexists; reflexivity.
Qed.

(** A decreased key of an item below the root is not noticed. *)
Lemma decreased_unnoticed : forall h M i c d,
  stores h M -> is_heap h -> h_heapified h = true -> h_updated h = [] ->
  0 < i < length M ->
  exists h1 h2 h3, set_heap_item k1 k2 h (Z.of_nat i) c true = Ok (NO_ERROR, h1) /\
    build_min_heap h1 = Ok h2 /\ heap_extract_min h2 = Ok (Some (nth 0 M d), h3).
Proof.
  intros h M i c d Hst Hh Hhp Hu Hi.
  destruct (set_item_ok h M i c d Hst) as (h1 & E1 & Hst1 & Hal1 & Hhp1 & Hu1 & _ & Hc1); [lia|].
  assert (Hsz : h_size h = length M) by apply Hst.
  assert (Hsz1 : h_size h1 = length M) by (destruct Hst1 as [G _]; now rewrite set_nth_length in G).
  assert (Hlen : h_alloc h = length (h_cells h)) by apply Hst.
  assert (Hle : h_size h <= h_alloc h) by apply Hst.
  destruct (min_heapify_ok h1 (set_nth M i c) (fun x => x < i) i) as
    (h2 & M2 & E2 & Hst2 & HP2 & Hsz2 & Hal2 & _ & _ & Hlow & _); auto.
  { intros a j Ha Hj HIa. pose proof (anc_lt _ _ Ha).
    rewrite Hc1, !nth_set_nth_neq by lia. apply Hh; auto. lia. }
  assert (E3 : build_min_heap h1 = Ok (mkHeap (h_alloc h2) (h_cells h2) (h_size h2) true [])).
  { rewrite build_updated by congruence. rewrite Hu1, Hu. simpl. rewrite E2. reflexivity. }
  destruct M2 as [|y M2].
  { apply Permutation_nil in HP2. apply (f_equal (@length _)) in HP2.
    rewrite set_nth_length in HP2. simpl in HP2. lia. }
  assert (Hy : y = nth 0 M d).
  { pose proof (stores_at h2 (y :: M2) 0 d Hst2) as G.
    rewrite Hlow in G by lia. rewrite Hc1, nth_set_nth_neq in G by lia.
    rewrite (stores_at h M 0 d Hst) in G by lia. simpl in G.
    assert (K : Some (mkItem (nth 0 M d) (k1 (nth 0 M d)) (k2 (nth 0 M d)))
                = Some (mkItem y (k1 y) (k2 y))) by (apply G; lia).
    injection K; auto. }
  subst y.
  destruct (extract_root (mkHeap (h_alloc h2) (h_cells h2) (h_size h2) true []) (nth 0 M d) M2)
    as (h3 & E4); [exact Hst2|].
  do 3 eexists. split; [exact E1|]. split; [exact E3|]. exact E4.
Qed.

(** ** growing *)
Lemma insert_overflow : forall h M x,
  stores h M -> length M = h_alloc h -> 0 < h_alloc h ->
  heap_insert k1 k2 true true h x = UB.
Proof.
  intros h M x (Hs & Hle & Hal & Hf) Hl Hp. unfold heap_insert. cbn [negb].
  destruct (Nat.eqb_spec (h_size h) (h_alloc h)); [|lia].
  unfold for_down.
  replace (2 * h_alloc h - h_size h) with (S (h_alloc h - 1)) by lia.
  cbn [loop_down bind]. unfold wr at 1.
  destruct (Nat.ltb_spec (h_size h + (h_alloc h - 1))
    (length (realloc_cells (h_cells h) (2 * h_alloc h)))) as [G|G]; [|reflexivity].
  unfold realloc_cells, POINTER_BYTES in G. rewrite firstn_length in G.
  pose proof (Nat.div_mod (2 * h_alloc h) 8). lia.
Qed.

(** ** the statements of PropertiesHeap.v *)
Lemma C19_history_lemma : forall cap ops (h : heap A),
  new_heap cap = Some h -> pq_legal cap 0 false ops ->
  exists rs h' s', heap_run k1 k2 h ops = Ok (rs, h') /\
    pq_trace k1 k2 cap ([], false) ops rs s'.
Proof.
  intros cap ops h Hn Hl.
  assert (Hc : 0 < cap) by (destruct cap; [discriminate|lia]).
  destruct (new_heap_ok cap Hc) as (h0 & E & Hst & Hal & Hhp & Hu).
  rewrite Hn in E; inversion E; subst h0.
  apply (run_ok cap ops h [] [] false); auto. discriminate.
Qed.

Lemma C19_sort_lemma : forall cap xs (h : heap A),
  new_heap cap = Some h -> length xs <= cap ->
  exists h1 h2 ys h3,
    insert_all k1 k2 h xs = Ok h1 /\ build_min_heap h1 = Ok h2 /\
    drain (length xs) h2 = Ok (ys, h3) /\
    Permutation ys xs /\ StronglySorted (key_le k1 k2) ys /\ h_size h3 = 0.
Proof.
  intros cap xs h Hn Hl.
  assert (Hc : 0 < cap) by (destruct cap; [discriminate|lia]).
  destruct (new_heap_ok cap Hc) as (h0 & E & Hst & Hal & Hhp & Hu).
  rewrite Hn in E; inversion E; subst h0.
  destruct (insert_all_ok xs h [] Hst) as (h1 & E1 & Hst1 & Hal1 & Hh1 & He1 & Hu1); [simpl; lia|].
  destruct (build_ok h1 xs) as (h2 & M2 & E2 & Hst2 & HP2 & Hh2 & _); auto.
  { destruct xs; [rewrite He1 by auto; auto|apply Hh1; discriminate]. }
  destruct (drain_ok (length xs) h2 M2 Hst2 Hh2) as (ys & h3 & E3 & HP3 & Hs & H0).
  { now apply Permutation_length. }
  exists h1, h2, ys, h3. do 3 (split; [auto|]). split; [now rewrite HP3|]. auto.
Qed.

(** A built heap: one obtained from insertions and nip_build_min_heap. *)
Lemma built_heap : forall cap xs (h h1 h2 : heap A),
  new_heap cap = Some h -> length xs <= cap ->
  insert_all k1 k2 h xs = Ok h1 -> build_min_heap h1 = Ok h2 ->
  exists M, stores h2 M /\ Permutation M xs /\ is_heap h2 /\
    h_heapified h2 = true /\ h_updated h2 = [] /\ heap_contents h2 = M.
Proof.
  intros cap xs h h1 h2 Hn Hl E1 E2.
  assert (Hc : 0 < cap) by (destruct cap; [discriminate|lia]).
  destruct (new_heap_ok cap Hc) as (h0 & E & Hst & Hal & Hhp & Hu).
  rewrite Hn in E; inversion E; subst h0.
  destruct (insert_all_ok xs h [] Hst) as (h1' & E1' & Hst1 & Hal1 & Hh1 & He1 & Hu1); [simpl; lia|].
  rewrite E1 in E1'. inversion E1'; subst h1'.
  destruct (build_ok h1 xs) as (h2' & M2 & E2' & Hst2 & HP2 & Hh2 & _ & Hhp2 & Hu2); auto.
  { destruct xs; [rewrite He1 by auto; auto|apply Hh1; discriminate]. }
  rewrite E2 in E2'. inversion E2'; subst h2'.
  exists M2. do 5 (split; [auto|]).
  unfold heap_contents. destruct Hst2 as (_ & _ & _ & ->).
  clear. induction M2; simpl; auto. now rewrite IHM2.
Qed.

Lemma C20_refuted_lemma : forall cap xs (h h1 h2 : heap A) i c d,
  new_heap cap = Some h -> length xs <= cap ->
  insert_all k1 k2 h xs = Ok h1 -> build_min_heap h1 = Ok h2 ->
  0 < i < length xs ->
  exists h3 h4 h5,
    set_heap_item k1 k2 h2 (Z.of_nat i) c true = Ok (NO_ERROR, h3) /\
    build_min_heap h3 = Ok h4 /\
    heap_extract_min h4 = Ok (Some (nth 0 (heap_contents h2) d), h5).
Proof.
  intros cap xs h h1 h2 i c d Hn Hl E1 E2 Hi.
  destruct (built_heap cap xs h h1 h2 Hn Hl E1 E2) as (M & Hst & HP & Hh & Hhp & Hu & ->).
  apply decreased_unnoticed; auto. now rewrite (Permutation_length HP).
Qed.

Lemma C20_partial_lemma : forall cap xs (h h1 h2 : heap A) changes d,
  new_heap cap = Some h -> length xs <= cap ->
  insert_all k1 k2 h xs = Ok h1 -> build_min_heap h1 = Ok h2 ->
  (forall i c, In (i, c) changes ->
     i < length xs /\ key_le k1 k2 (nth i (heap_contents h2) d) c) ->
  StronglySorted gt (map fst changes) ->
  exists h3 h4 ys h5,
    set_all k1 k2 h2 changes = Ok h3 /\ build_min_heap h3 = Ok h4 /\
    drain (length xs) h4 = Ok (ys, h5) /\
    Permutation ys (fold_left (fun M '(i, c) => set_nth M i c) changes (heap_contents h2)) /\
    StronglySorted (key_le k1 k2) ys.
Proof.
  intros cap xs h h1 h2 changes d Hn Hl E1 E2 Hc Hso.
  destruct (built_heap cap xs h h1 h2 Hn Hl E1 E2) as (M & Hst & HP & Hh & Hhp & Hu & HM).
  rewrite HM in *.
  destruct (changed_rebuild h2 M changes d) as (h3 & h4 & M4 & E3 & E4 & Hst4 & HP4 & Hh4); auto.
  { intros i c Hin. rewrite (Permutation_length HP). now apply Hc. }
  destruct (drain_ok (length xs) h4 M4 Hst4 Hh4) as (ys & h5 & E5 & HP5 & Hs & _).
  { rewrite (Permutation_length HP4), change_length. now apply Permutation_length. }
  exists h3, h4, ys, h5. do 3 (split; [auto|]). split; auto.
  rewrite HP5, HP4. clear. revert M. induction changes as [|[i c] l IH]; intros M; simpl; auto.
Qed.

Lemma C21_within_lemma : forall cap xs (h : heap A),
  new_heap cap = Some h -> length xs <= cap ->
  exists h', insert_all k1 k2 h xs = Ok h' /\ heap_contents h' = xs.
Proof.
  intros cap xs h Hn Hl.
  assert (Hc : 0 < cap) by (destruct cap; [discriminate|lia]).
  destruct (new_heap_ok cap Hc) as (h0 & E & Hst & Hal & Hhp & Hu).
  rewrite Hn in E; inversion E; subst h0.
  destruct (insert_all_ok xs h [] Hst) as (h1 & E1 & Hst1 & _); [simpl; lia|].
  exists h1. split; auto. unfold heap_contents. destruct Hst1 as (_ & _ & _ & ->).
  clear. simpl. induction xs; simpl; auto. now rewrite IHxs.
Qed.

Lemma C21_refuted_lemma : forall cap xs (h : heap A),
  new_heap cap = Some h -> cap < length xs -> insert_all k1 k2 h xs = UB.
Proof.
  intros cap xs h Hn Hl.
  assert (Hc : 0 < cap) by (destruct cap; [discriminate|lia]).
  destruct (new_heap_ok cap Hc) as (h0 & E & Hst & Hal & Hhp & Hu).
  rewrite Hn in E; inversion E; subst h0. clear E Hhp Hu Hn.
  assert (G : forall xs h M, stores h M -> h_alloc h = cap -> length M <= cap ->
     cap < length M + length xs -> insert_all k1 k2 h xs = UB).
  { clear -Hc. induction xs as [|x xs IH]; intros h M Hst Hal Hle Hlt; simpl in *; [lia|].
    destruct (Nat.eq_dec (length M) cap) as [E|N].
    - rewrite (insert_overflow h M x Hst) by lia. reflexivity.
    - destruct (insert_ok h M x true Hst) as (h1 & E & Hst1 & Hal1 & _); [lia|].
      rewrite E. cbn [bind]. apply (IH h1 (M ++ [x])); auto; try rewrite app_length; simpl; lia. }
  apply (G xs h []); auto; simpl; lia.
Qed.

End Heaps.
