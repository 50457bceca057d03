(** * Vocabulary for the statements about nipheap.c *)
From Verif Require Import Base HeapModel.
Import ListNotations.
Open Scope nat_scope.
Local Open Scope res_scope.

(** The order of items: primary key, ties broken by the secondary key. *)
Definition key_le {A} (k1 k2 : A -> Z) (x y : A) : Prop :=
  (k1 x < k1 y)%Z \/ (k1 x = k1 y /\ (k2 x <= k2 y)%Z).

(** Inserting a list of contents one after another (enough memory). *)
Fixpoint insert_all {A} (k1 k2 : A -> Z) (h : heap A) (xs : list A) : res (heap A) :=
  match xs with
  | [] => Ok h
  | x :: xs' =>
      let* (_, h) := heap_insert k1 k2 true true h x in
      insert_all k1 k2 h xs'
  end.

(** [n] calls of nip_heap_extract_min: the contents returned (NULL skipped). *)
Fixpoint drain {A} (n : nat) (h : heap A) : res (list A * heap A) :=
  match n with
  | O => Ok ([], h)
  | S n' =>
      let* (o, h) := heap_extract_min h in
      let* (l, h) := drain n' h in
      Ok (match o with Some c => c :: l | None => l end, h)
  end.

(** Changing the content of several items, one after another. *)
Fixpoint set_all {A} (k1 k2 : A -> Z) (h : heap A) (changes : list (nat * A))
  : res (heap A) :=
  match changes with
  | [] => Ok h
  | (i, c) :: l =>
      let* (_, h) := set_heap_item k1 k2 h (Z.of_nat i) c true in
      set_all k1 k2 h l
  end.

(** The contents of a heap as the user sees them, in array order. *)
Definition heap_contents {A} (h : heap A) : list A :=
  flat_map (fun o => match o with Some hi => [content hi] | None => [] end)
    (firstn (h_size h) (h_cells h)).

(** Histories of the operations that do not change keys in place. *)
Inductive heap_op (A : Type) := OpInsert (x : A) | OpBuild | OpExtract.
Arguments OpInsert {A}. Arguments OpBuild {A}. Arguments OpExtract {A}.

Definition heap_step {A} (k1 k2 : A -> Z) (h : heap A) (o : heap_op A)
  : res (option A * heap A) :=
  match o with
  | OpInsert x => let* (_, h) := heap_insert k1 k2 true true h x in Ok (None, h)
  | OpBuild => let* h := build_min_heap h in Ok (None, h)
  | OpExtract => heap_extract_min h
  end.

Fixpoint heap_run {A} (k1 k2 : A -> Z) (h : heap A) (ops : list (heap_op A))
  : res (list (option A) * heap A) :=
  match ops with
  | [] => Ok ([], h)
  | o :: ops' =>
      let* (r, h) := heap_step k1 k2 h o in
      let* (rs, h) := heap_run k1 k2 h ops' in
      Ok (r :: rs, h)
  end.

(** A priority queue as a user imagines it: a bag of contents; extraction
    returns some least element and removes it, once nip_build_min_heap has
    been called after the last insertion.  [None] on an empty bag. *)
Inductive pq_step {A} (k1 k2 : A -> Z) (cap : nat)
  : list A * bool -> heap_op A -> option A -> list A * bool -> Prop :=
| PqInsert : forall M b x, length M < cap ->
    pq_step k1 k2 cap (M, b) (OpInsert x) None (x :: M, false)
| PqBuild : forall M b, pq_step k1 k2 cap (M, b) OpBuild None (M, true)
| PqExtractEmpty : forall b, pq_step k1 k2 cap ([], b) OpExtract None ([], b)
| PqExtract : forall M1 x M2,
    (forall y, In y (M1 ++ M2) -> key_le k1 k2 x y) ->
    pq_step k1 k2 cap (M1 ++ x :: M2, true) OpExtract (Some x) (M1 ++ M2, true).

(** The history is legal: no insertion beyond the initial size, no extraction
    from a non-empty heap that was not built after the last insertion. *)
Fixpoint pq_legal {A} (cap n : nat) (built : bool) (ops : list (heap_op A)) : Prop :=
  match ops with
  | [] => True
  | OpInsert _ :: l => n < cap /\ pq_legal cap (S n) false l
  | OpBuild :: l => pq_legal cap n true l
  | OpExtract :: l => (n = 0 \/ built = true) /\ pq_legal cap (n - 1) built l
  end.

Fixpoint pq_trace {A} (k1 k2 : A -> Z) (cap : nat) (s : list A * bool)
    (ops : list (heap_op A)) (rs : list (option A)) (s' : list A * bool) : Prop :=
  match ops, rs with
  | [], [] => s' = s
  | o :: ops', r :: rs' =>
      exists s1, pq_step k1 k2 cap s o r s1 /\ pq_trace k1 k2 cap s1 ops' rs' s'
  | _, _ => False
  end.
