(** * Heaps whose contents are renamed (for C91) *)
From Verif Require Import Base BaseProofs HeapModel HeapSpec HeapProofs.
Import ListNotations.
Open Scope nat_scope.
Local Open Scope res_scope.

Definition rmap {X Y} (f : X -> Y) (r : res X) : res Y :=
  match r with Ok x => Ok (f x) | UB => UB | NoFuel => NoFuel end.

Lemma rmap_bind : forall X Y Z (f : Y -> Z) (r : res X) (k : X -> res Y), rmap f (bind r k) = bind r (fun x => rmap f (k x)).
Proof. intros. destruct r; reflexivity. Qed.
Lemma bind_rmap : forall X Y Z (f : X -> Y) (r : res X) (k : Y -> res Z), bind (rmap f r) k = bind r (fun x => k (f x)).
Proof. intros. destruct r; reflexivity. Qed.
Lemma bind_ext : forall X Y (r : res X) (k k' : X -> res Y), (forall x, k x = k' x) -> bind r k = bind r k'.
Proof. intros X Y r k k' H. destruct r; cbn; auto. Qed.

Lemma rd_map : forall X Y (f : X -> Y) l i, rd (map f l) i = rmap f (rd l i).
Proof. intros. unfold rd. rewrite nth_error_map. destruct (nth_error l i); reflexivity. Qed.
Lemma map_set_nth : forall X Y (f : X -> Y) l i x, map f (set_nth l i x) = set_nth (map f l) i (f x).
Proof. induction l as [|y l IH]; intros [|i] x; cbn; try reflexivity. rewrite IH. reflexivity. Qed.
Lemma wr_map : forall X Y (f : X -> Y) l i x, wr (map f l) i (f x) = rmap (map f) (wr l i x).
Proof. intros. unfold wr. rewrite map_length. destruct (Nat.ltb i (length l)); cbn; [rewrite map_set_nth|]; reflexivity. Qed.

Section Rename.
Context {A B : Type} (f : A -> B).
Definition imap (x : item A) : item B := mkItem (f (content x)) (pkey x) (skey x).
Definition cmap : option (item A) -> option (item B) := option_map imap.
Definition hmap (h : heap A) : heap B :=
  mkHeap (h_alloc h) (map cmap (h_cells h)) (h_size h) (h_heapified h) (h_updated h).

Lemma less_map : forall a b, heap_less_than (cmap a) (cmap b) = heap_less_than a b.
Proof. intros [a|] [b|]; reflexivity. Qed.

Lemma loop_map : forall fuel size s i, min_heapify_loop fuel size (map cmap s) i = rmap (map cmap) (min_heapify_loop fuel size s i).
Proof.
  induction fuel as [|fuel IH]; intros size s i; [reflexivity|]. cbn [min_heapify_loop]. rewrite rmap_bind.
  set (l := 2 * i + 1). set (r := 2 * (i + 1)).
  assert (E1 : (if Nat.ltb l size then bind (rd (map cmap s) l) (fun cl => bind (rd (map cmap s) i) (fun ci =>
      Ok (if heap_less_than cl ci then l else i))) else Ok i) =
    (if Nat.ltb l size then bind (rd s l) (fun cl => bind (rd s i) (fun ci => Ok (if heap_less_than cl ci then l else i))) else Ok i)).
  { destruct (Nat.ltb l size); [|reflexivity]. rewrite !rd_map, !bind_rmap. apply bind_ext. intros a. rewrite !bind_rmap. apply bind_ext. intros b. rewrite less_map. reflexivity. }
  rewrite E1. apply bind_ext. intros mn. rewrite rmap_bind.
  assert (E2 : (if Nat.ltb r size then bind (rd (map cmap s) r) (fun cr => bind (rd (map cmap s) mn) (fun cm =>
      Ok (if heap_less_than cr cm then r else mn))) else Ok mn) =
    (if Nat.ltb r size then bind (rd s r) (fun cr => bind (rd s mn) (fun cm => Ok (if heap_less_than cr cm then r else mn))) else Ok mn)).
  { destruct (Nat.ltb r size); [|reflexivity]. rewrite !rd_map, !bind_rmap. apply bind_ext. intros a. rewrite !bind_rmap. apply bind_ext. intros b. rewrite less_map. reflexivity. }
  rewrite E2. apply bind_ext. intros m2. destruct (Nat.eqb m2 i); [reflexivity|].
  rewrite rd_map, bind_rmap, rmap_bind. apply bind_ext. intros t. rewrite rd_map, bind_rmap, rmap_bind. apply bind_ext. intros c.
  rewrite wr_map, bind_rmap, rmap_bind. apply bind_ext. intros s1. rewrite wr_map, bind_rmap, rmap_bind. apply bind_ext. intros s2. apply IH.
Qed.

Lemma heapify_map : forall h i, min_heapify (hmap h) i = rmap hmap (min_heapify h i).
Proof. intros h i. unfold min_heapify. cbn [hmap h_size h_cells]. rewrite loop_map, bind_rmap, rmap_bind. reflexivity. Qed.

Lemma down_map : forall n lo h, loop_down n lo (fun i h => min_heapify h i) (hmap h) = rmap hmap (loop_down n lo (fun i h => min_heapify h i) h).
Proof.
  induction n as [|n IH]; intros lo h; [reflexivity|]. cbn [loop_down]. rewrite heapify_map, bind_rmap, rmap_bind. apply bind_ext. intros x. apply IH.
Qed.

Lemma build_map : forall h, build_min_heap (hmap h) = rmap hmap (build_min_heap h).
Proof.
  intros h. unfold build_min_heap. rewrite rmap_bind. cbn [hmap h_heapified h_size h_updated].
  match goal with |- bind ?x ?k = bind ?y ?k' => assert (E : x = rmap hmap y) end.
  { destruct (h_heapified h); cbn [negb].
    - generalize (h_updated h). intros l. generalize h. induction l as [|i l IH]; intros h0; [reflexivity|]. cbn.
      rewrite heapify_map, bind_rmap, rmap_bind. apply bind_ext. intros x. apply IH.
    - destruct (Nat.eqb (h_size h) 0); [reflexivity|]. unfold for_down. apply down_map. }
  rewrite E, bind_rmap. reflexivity.
Qed.

Lemma extract_map : forall h, heap_extract_min (hmap h) = rmap (fun x => (option_map f (fst x), hmap (snd x))) (heap_extract_min h).
Proof.
  intros h. unfold heap_extract_min. cbn [hmap h_size h_cells h_alloc h_heapified h_updated]. destruct (Nat.ltb (h_size h) 1); [reflexivity|].
  rewrite rd_map, bind_rmap, rmap_bind. apply bind_ext. intros x. rewrite rd_map, bind_rmap, rmap_bind. apply bind_ext. intros y.
  rewrite wr_map, bind_rmap, rmap_bind. apply bind_ext. intros s1. change (@None (item B)) with (cmap None).
  rewrite wr_map, bind_rmap, rmap_bind. apply bind_ext. intros s2.
  match goal with |- bind (min_heapify ?g 0) _ = _ =>
    change g with (hmap (mkHeap (h_alloc h) s2 (h_size h - 1) (h_heapified h) (h_updated h))) end.
  rewrite heapify_map, bind_rmap, rmap_bind. apply bind_ext. intros g. destruct x; reflexivity.
Qed.

Lemma search_map : forall h p, search_heap_item (hmap h) p = search_heap_item h (fun x => p (f x)).
Proof.
  intros h p. unfold search_heap_item. cbn [hmap h_size h_cells]. unfold find_up. rewrite !Nat.sub_0_r. generalize 0. generalize (h_size h).
  induction n as [|n IH]; intros lo; [reflexivity|]. cbn [find_loop]. rewrite rd_map, bind_rmap.
  destruct (rd (h_cells h) lo) as [[x|]| |]; cbn [bind cmap option_map imap content]; try reflexivity. destruct (p (f (content x))); [reflexivity|apply IH].
Qed.

Lemma get_map : forall h i, get_heap_item (hmap h) i = rmap (option_map f) (get_heap_item h i).
Proof.
  intros h i. unfold get_heap_item. cbn [hmap h_size h_cells]. destruct ((i <? 0) || (Z.of_nat (h_size h) <=? i))%Z%bool; [reflexivity|].
  rewrite rd_map, bind_rmap, rmap_bind. apply bind_ext. intros [x|]; reflexivity.
Qed.

Variables k1 k2 : B -> Z.
Lemma set_map : forall h i c ok, set_heap_item k1 k2 (hmap h) i (f c) ok =
  rmap (fun x => (fst x, hmap (snd x))) (set_heap_item (fun x => k1 (f x)) (fun x => k2 (f x)) h i c ok).
Proof.
  intros h i c ok. unfold set_heap_item. cbn [hmap h_size h_cells h_alloc h_heapified h_updated].
  destruct ((i <? 0) || (Z.of_nat (h_size h) <=? i))%Z%bool; [reflexivity|]. destruct (negb ok); [reflexivity|].
  rewrite rd_map, bind_rmap, rmap_bind. apply bind_ext. intros [x|]; [|reflexivity]. cbn [cmap option_map].
  assert (E := wr_map _ _ cmap (h_cells h) (Z.to_nat i) (Some (mkItem c (k1 (f c)) (k2 (f c))))).
  cbn [cmap option_map] in E. change (Some (imap (mkItem c (k1 (f c)) (k2 (f c))))) with (Some (mkItem (f c) (k1 (f c)) (k2 (f c)))) in E. rewrite E, bind_rmap, rmap_bind. reflexivity.
Qed.

Lemma insert_map : forall h c, h_size h < h_alloc h -> heap_insert k1 k2 true true (hmap h) (f c) =
  rmap (fun x => (fst x, hmap (snd x))) (heap_insert (fun x => k1 (f x)) (fun x => k2 (f x)) true true h c).
Proof.
  intros h c L. unfold heap_insert. cbn [hmap h_size h_cells h_alloc h_heapified h_updated negb].
  destruct (Nat.eqb_spec (h_size h) (h_alloc h)); [lia|]. cbn [bind h_size h_cells h_alloc h_heapified h_updated].
  cbn [hmap h_size h_cells h_alloc h_heapified h_updated].
  assert (E := wr_map _ _ cmap (h_cells h) (h_size h) (Some (mkItem c (k1 (f c)) (k2 (f c))))).
  cbn [cmap option_map] in E. change (Some (imap (mkItem c (k1 (f c)) (k2 (f c))))) with (Some (mkItem (f c) (k1 (f c)) (k2 (f c)))) in E. rewrite E, bind_rmap, rmap_bind. reflexivity.
Qed.

Lemma new_map : forall n, new_heap n = option_map hmap (new_heap n).
Proof.
  intros n. unfold new_heap. destruct (Nat.eqb n 0); [reflexivity|]. cbn. unfold hmap. cbn. f_equal. f_equal. induction n as [|k IH]; [reflexivity|]. cbn. f_equal. exact IH.
Qed.
End Rename.
