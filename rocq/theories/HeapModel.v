(** * Model of src/nipheap.c

    The content of an item (a void pointer with a size) is an abstract type
    [A]; the key functions of the heap are parameters [k1 k2 : A -> Z]. *)
From Verif Require Import Base.
Import ListNotations.
Open Scope nat_scope.
Local Open Scope res_scope.

(** nip_heap_item_struct, nipheap.h 33-38. *)
Record item (A : Type) := mkItem { content : A; pkey : Z; skey : Z }.
Arguments mkItem {A}. Arguments content {A}. Arguments pkey {A}. Arguments skey {A}.

(** nip_heap_struct, nipheap.h 44-53.  [h_cells] is the memory block behind
    heap_items, counted in whole pointers; [h_alloc] is what the field
    allocated_size claims. *)
Record heap (A : Type) := mkHeap {
  h_alloc : nat;
  h_cells : list (option (item A));
  h_size : nat;
  h_heapified : bool;
  h_updated : list nat
}.
Arguments mkHeap {A}. Arguments h_alloc {A}. Arguments h_cells {A}.
Arguments h_size {A}. Arguments h_heapified {A}. Arguments h_updated {A}.

(** sizeof(nip_heap_item), a pointer, on the 64-bit targets. *)
Definition POINTER_BYTES : nat := 8.

(** nip_new_heap, nipheap.c 42-79; [None] is NULL.  Allocations succeed. *)
Definition new_heap {A} (initial_size : nat) : option (heap A) :=
  if Nat.eqb initial_size 0 then None
  else Some (mkHeap initial_size (repeat None initial_size) 0 false []).

(** realloc(block, bytes): the cells that fit are kept.  New cells have no
    specified value; the model puts None there, the caller assigns them. *)
Definition realloc_cells {A} (cells : list (option A)) (bytes : nat)
  : list (option A) :=
  let n := bytes / POINTER_BYTES in
  firstn n (cells ++ repeat None n).

(** nip_heap_insert, nipheap.c 82-116.  [ok1], [ok2]: malloc and realloc
    succeed.  Overflow of 2 * allocated_size is not modelled. *)
Definition heap_insert {A} (k1 k2 : A -> Z) (ok1 ok2 : bool) (h : heap A) (c : A)
  : res (code * heap A) :=
  if negb ok1 then Ok (ENOMEM, h)
  else
    let hi := mkItem c (k1 c) (k2 c) in
    let* grown :=
      if Nat.eqb (h_size h) (h_alloc h) then
        let i := 2 * h_alloc h in
        if negb ok2 then Ok None
        else
          let bigger := realloc_cells (h_cells h) i in
          let* cells :=
            for_down i (h_size h) (fun j cells => wr cells j None) bigger in
          Ok (Some (mkHeap i cells (h_size h) (h_heapified h) (h_updated h)))
      else Ok (Some h) in
    match grown with
    | None => Ok (ENOMEM, h)
    | Some h =>
        let* cells := wr (h_cells h) (h_size h) (Some hi) in
        Ok (NO_ERROR, mkHeap (h_alloc h) cells (S (h_size h)) false (h_updated h))
    end.

(** nip_heap_less_than, nipheap.c 259-269. *)
Definition heap_less_than {A} (h1 h2 : option (item A)) : bool :=
  match h1, h2 with
  | Some a, Some b =>
      ((pkey a <? pkey b)%Z || ((pkey a =? pkey b)%Z && (skey a <? skey b)%Z))%bool
  | Some _, None => true
  | None, _ => false
  end.

(** nip_min_heapify, nipheap.c 272-298: the do-while loop, one iteration per
    unit of fuel. *)
Fixpoint min_heapify_loop {A} (fuel : nat) (size : nat)
    (cells : list (option (item A))) (i : nat) : res (list (option (item A))) :=
  match fuel with
  | O => NoFuel
  | S fuel' =>
      let l := 2 * i + 1 in
      let r := 2 * (i + 1) in
      let* min :=
        if Nat.ltb l size then
          let* cl := rd cells l in
          let* ci := rd cells i in
          Ok (if heap_less_than cl ci then l else i)
        else Ok i in
      let* min :=
        if Nat.ltb r size then
          let* cr := rd cells r in
          let* cm := rd cells min in
          Ok (if heap_less_than cr cm then r else min)
        else Ok min in
      if Nat.eqb min i then Ok cells
      else
        let* temp := rd cells min in
        let* ci := rd cells i in
        let* cells := wr cells min ci in
        let* cells := wr cells i temp in
        min_heapify_loop fuel' size cells min
  end.

(** The loop follows a path down the tree, so [S size] iterations are enough
    (proved in HeapProofs.v). *)
Definition min_heapify {A} (h : heap A) (i : nat) : res (heap A) :=
  let* cells := min_heapify_loop (S (h_size h)) (h_size h) (h_cells h) i in
  Ok (mkHeap (h_alloc h) cells (h_size h) (h_heapified h) (h_updated h)).

(** nip_search_heap_item, nipheap.c 119-136; [None] is -1. *)
Definition search_heap_item {A} (h : heap A) (comparison : A -> bool)
  : res (option nat) :=
  find_up 0 (h_size h)
    (fun n => let* hi := rd (h_cells h) n in
              match hi with
              | None => UB
              | Some hi => Ok (comparison (content hi))
              end).

(** nip_get_heap_item, nipheap.c 139-151; [None] is NULL. *)
Definition get_heap_item {A} (h : heap A) (index : Z) : res (option A) :=
  if ((index <? 0) || (Z.of_nat (h_size h) <=? index))%Z%bool then Ok None
  else
    let* hi := rd (h_cells h) (Z.to_nat index) in
    match hi with
    | None => UB
    | Some hi => Ok (Some (content hi))
    end.

(** nip_set_heap_item, nipheap.c 154-170.  [size_ok] is [size > 0]. *)
Definition set_heap_item {A} (k1 k2 : A -> Z) (h : heap A) (index : Z) (c : A)
    (size_ok : bool) : res (code * heap A) :=
  if ((index <? 0) || (Z.of_nat (h_size h) <=? index))%Z%bool then Ok (EINVAL, h)
  else if negb size_ok then Ok (EINVAL, h)
  else
    let i := Z.to_nat index in
    let* hi := rd (h_cells h) i in
    match hi with
    | None => UB
    | Some _ =>
        let* cells := wr (h_cells h) i (Some (mkItem c (k1 c) (k2 c))) in
        Ok (NO_ERROR, mkHeap (h_alloc h) cells (h_size h) (h_heapified h)
                        (h_updated h ++ [i]))
    end.

(** nip_build_min_heap, nipheap.c 173-194.  The first index of the full pass is
    NIP_HEAP_PARENT(heap_size-1) = (heap_size-2)/2 in C, which is negative (no
    iteration) only for an empty heap. *)
Definition build_min_heap {A} (h : heap A) : res (heap A) :=
  let* h :=
    if negb (h_heapified h) then
      if Nat.eqb (h_size h) 0 then Ok h
      else for_down (S ((h_size h - 2) / 2)) 0 (fun i h => min_heapify h i) h
    else
      (fix go (l : list nat) (h : heap A) :=
         match l with
         | [] => Ok h
         | i :: l' => let* h := min_heapify h i in go l' h
         end) (h_updated h) h in
  Ok (mkHeap (h_alloc h) (h_cells h) (h_size h) true []).

(** nip_heap_extract_min, nipheap.c 197-227; [None] is NULL. *)
Definition heap_extract_min {A} (h : heap A) : res (option A * heap A) :=
  if Nat.ltb (h_size h) 1 then Ok (None, h)
  else
    let* min := rd (h_cells h) 0 in
    let last := h_size h - 1 in
    let* x := rd (h_cells h) last in
    let* cells := wr (h_cells h) 0 x in
    let* cells := wr cells last None in
    let* h := min_heapify (mkHeap (h_alloc h) cells last (h_heapified h) (h_updated h)) 0 in
    match min with
    | None => UB
    | Some m => Ok (Some (content m), h)
    end.
