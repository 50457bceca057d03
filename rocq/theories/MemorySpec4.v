(** * Specification of the memory of parsing a network (for C92) *)
From Coq Require Import String.
From Verif Require Import Base JoinTreeModel ParseModel ParseSpec NetGrammarModel NetSpec MemoryModel4.
Import ListNotations.
Open Scope nat_scope.

(** What the file says: the first label and the first NIP_next of a node count,
    and the last list of states (C69). *)
Definition net_of (s : source) : net :=
  mkNet (map (fun x => mkNode (fst x) (hd_error (NetSpec.labels (snd x))) (last_of (state_lists (snd x)))
                         (hd_error (nexts (snd x)))) (s_nodes s))
        (s_pots s).

(** A proper file.  A list of states is never empty, also where it does not
    count. *)
Definition source_ok (s : source) : Prop :=
  net_ok (net_of s) /\
  forall x l, In x (s_nodes s) -> In l (state_lists (snd x)) -> l <> [].

(** The number of blocks in declarations that do not count: one for every text,
    one more for the array of a list of states. *)
Definition ignored_in (l : list field) : nat :=
  (length (NetSpec.labels l) - 1) + (length (nexts l) - 1) +
  list_sum (map (fun x => S (length x)) (removelast (state_lists l))).
Definition ignored (s : source) : nat := list_sum (map (fun x => ignored_in (snd x)) (s_nodes s)).

(** No node says anything twice. *)
Definition said_once (s : source) : Prop := forall x, In x (s_nodes s) ->
  length (NetSpec.labels (snd x)) <= 1 /\ length (nexts (snd x)) <= 1 /\ length (state_lists (snd x)) <= 1.
