(** * Properties C19-C21: the heap (src/nipheap.c)

    [key_le k1 k2] orders contents by primary key [k1], then secondary key
    [k2].  [insert_all], [drain], [set_all], [heap_run] and the abstract
    priority queue [pq_step] are in HeapSpec.v. *)
From Coq Require Import Permutation Sorted.
From Verif Require Import Base HeapModel HeapSpec HeapProofs.
Import ListNotations.
Open Scope nat_scope.

(** C19.  Inserting any items, building and extracting as often gives all the
    items, each once, in non-descending order.  (As many items as the heap was
    created for; see C21 for more.) *)
Theorem C19_heap_sorts : forall A (k1 k2 : A -> Z) cap xs (h : heap A),
  new_heap cap = Some h -> length xs <= cap ->
  exists h1 h2 ys h3,
    insert_all k1 k2 h xs = Ok h1 /\ build_min_heap h1 = Ok h2 /\
    drain (length xs) h2 = Ok (ys, h3) /\
    Permutation ys xs /\ StronglySorted (key_le k1 k2) ys /\ h_size h3 = 0.
Proof. exact @C19_sort_lemma. Qed.
Print Assumptions C19_heap_sorts.

(** C19 over histories.  Any interleaving of insertions, builds and extractions
    (extractions only after a build that follows the last insertion) behaves
    like a bag from which the least item is taken. *)
Theorem C19_heap_history : forall A (k1 k2 : A -> Z) cap ops (h : heap A),
  new_heap cap = Some h -> pq_legal cap 0 false ops ->
  exists rs h' s', heap_run k1 k2 h ops = Ok (rs, h') /\
    pq_trace k1 k2 cap ([], false) ops rs s'.
Proof. exact @C19_history_lemma. Qed.
Print Assumptions C19_heap_history.

Definition fst_key (x : Z * Z) := fst x.
Definition snd_key (x : Z * Z) := snd x.
Definition ex_heap : heap (Z * Z) := mkHeap 6 (repeat None 6) 0 false [].
Definition ex_ops : list (heap_op (Z * Z)) :=
  [OpInsert (5, 1); OpInsert (2, 9); OpInsert (2, 3); OpBuild; OpExtract;
   OpInsert (1, 1); OpBuild; OpExtract; OpExtract; OpExtract; OpExtract]%Z.

Example C19_case :
  new_heap 6 = Some ex_heap /\ pq_legal 6 0 false ex_ops /\
  exists h, heap_run fst_key snd_key ex_heap ex_ops =
    Ok ([None; None; None; None; Some (2, 3); None; None; Some (1, 1);
         Some (2, 9); Some (5, 1); None], h)%Z.
Proof.
  split; [reflexivity|]. split; [simpl; intuition lia|]. eexists. vm_compute. reflexivity.
Qed.

(** C20 is false: whatever new content is given to an item below the root,
    the item at the root is extracted next, also when the new key is smaller. *)
Theorem C20_decreased_key_refuted : forall A (k1 k2 : A -> Z) cap xs (h h1 h2 : heap A) i c d,
  new_heap cap = Some h -> length xs <= cap ->
  insert_all k1 k2 h xs = Ok h1 -> build_min_heap h1 = Ok h2 ->
  0 < i < length xs ->
  exists h3 h4 h5,
    set_heap_item k1 k2 h2 (Z.of_nat i) c true = Ok (NO_ERROR, h3) /\
    build_min_heap h3 = Ok h4 /\
    heap_extract_min h4 = Ok (Some (nth 0 (heap_contents h2) d), h5).
Proof. exact @C20_refuted_lemma. Qed.
Print Assumptions C20_decreased_key_refuted.

Definition built (xs : list Z) : res (heap Z) :=
  let* h := insert_all (fun x => x) (fun x => x) (mkHeap 9 (repeat None 9) 0 false []) xs in
  build_min_heap h.

Example C20_decreased_case :
  (let* h := built [4; 7]%Z in
   let* (_, h) := set_heap_item (fun x => x) (fun x => x) h 1 1%Z true in
   let* h := build_min_heap h in
   let* (o, _) := heap_extract_min h in Ok (heap_contents h, o))
  = Ok ([4; 1], Some 4)%Z.
Proof. reflexivity. Qed.

(** Also when keys only grow, several changes made from the root downwards can
    leave the heap out of order. *)
Theorem C20_increased_keys_refuted :
  exists h h1 h2 h3, new_heap 9 = Some h /\
    insert_all (fun x : Z => x) (fun x => x) h [1; 2; 5; 3; 4]%Z = Ok h1 /\
    build_min_heap h1 = Ok h2 /\ heap_contents h2 = [1; 2; 5; 3; 4]%Z /\
    (let* h := set_all (fun x => x) (fun x => x) h2 [(0, 10%Z); (1, 9%Z)] in
     let* h := build_min_heap h in
     heap_extract_min h) = Ok (Some 5%Z, h3).
Proof.
  do 4 eexists. split; [reflexivity|]. split; [vm_compute; reflexivity|].
  split; [vm_compute; reflexivity|]. split; [vm_compute; reflexivity|]. vm_compute. reflexivity.
Qed.
Print Assumptions C20_increased_keys_refuted.

(** What remains true: if every changed key grew and the items were changed
    from higher to lower index, everything is extracted in order.  In
    particular a single growing key is handled.  Missing: all other changes. *)
Theorem C20_increased_keys_partial : forall A (k1 k2 : A -> Z) cap xs (h h1 h2 : heap A) changes d,
  new_heap cap = Some h -> length xs <= cap ->
  insert_all k1 k2 h xs = Ok h1 -> build_min_heap h1 = Ok h2 ->
  (forall i c, In (i, c) changes ->
     i < length xs /\ key_le k1 k2 (nth i (heap_contents h2) d) c) ->
  StronglySorted gt (map fst changes) ->
  exists h3 h4 ys h5,
    set_all k1 k2 h2 changes = Ok h3 /\ build_min_heap h3 = Ok h4 /\
    drain (length xs) h4 = Ok (ys, h5) /\
    Permutation ys (fold_left (fun M '(i, c) => set_nth M i c) changes (heap_contents h2)) /\
    StronglySorted (key_le k1 k2) ys.
Proof. exact @C20_partial_lemma. Qed.
Print Assumptions C20_increased_keys_partial.

Example C20_increased_case :
  (let* h := built [1; 2; 5; 3; 4]%Z in
   let* h := set_all (fun x => x) (fun x => x) h [(1, 9%Z); (0, 10%Z)] in
   let* h := build_min_heap h in
   let* (l, _) := drain 5 h in Ok l) = Ok [3; 4; 5; 9; 10]%Z /\
  StronglySorted gt (map fst [(1, 9%Z); (0, 10%Z)]).
Proof. split; [reflexivity|]. repeat constructor. Qed.

(** C21.  Up to the initial size insertions stay inside the memory of the heap
    and keep every item ... *)
Theorem C21_insert_within_initial_size : forall A (k1 k2 : A -> Z) cap xs (h : heap A),
  new_heap cap = Some h -> length xs <= cap ->
  exists h', insert_all k1 k2 h xs = Ok h' /\ heap_contents h' = xs.
Proof. exact @C21_within_lemma. Qed.
Print Assumptions C21_insert_within_initial_size.

(** ... and every insertion beyond it writes outside: the block is resized to
    2 * allocated_size bytes instead of pointers. *)
Theorem C21_insert_beyond_refuted : forall A (k1 k2 : A -> Z) cap xs (h : heap A),
  new_heap cap = Some h -> cap < length xs -> insert_all k1 k2 h xs = UB.
Proof. exact @C21_refuted_lemma. Qed.
Print Assumptions C21_insert_beyond_refuted.

Example C21_case :
  new_heap 6 = Some ex_heap /\
  insert_all fst_key snd_key ex_heap (repeat (1, 1)%Z 7) = UB.
Proof. split; reflexivity. Qed.
