(** * Specification for Property C100: the memory of joint probabilities

    The course of a call of nip_gather_joint_probability (nipjointree.c 1164-1366),
    as far as it decides about memory. *)
From Coq Require Import List.
Import ListNotations.
Open Scope nat_scope.

(** A call for no variables, or one that visits a clique: the cardinalities of the
    product of the clique and the variables asked for, the size of the first
    mapping ([None]: NULL), whether the first multiplication fails, the neighbours
    that are not marked, the cardinalities of the result and whether the sum over the
    others fails.

    For a neighbour: sizes of arrays used for a while before the division, whether it
    fails, the size of the intersection of the sepset with the variables asked for
    ([None]: it is empty, NULL), the recursive call, the number of variables of the
    message, the size of its mapping ([None]: NULL) and whether the multiplication
    with the message fails. *)
Inductive visit :=
| No_variables
| Visit (product : list nat) (mapping : option nat) (first_fails : bool) (neighbours : branches)
    (result : list nat) (sum_fails : bool)
with branches :=
| Done
| Branch (sizes : list nat) (division_fails : bool) (common : option nat) (call : visit)
    (message : nat) (mapping : option nat) (product_fails : bool) (others : branches).

(** Does it answer with a table? *)
Fixpoint goes_on (b : branches) : bool :=
  match b with
  | Done => true
  | Branch _ division_fails common _ _ _ product_fails others =>
      (negb division_fails && match common with Some _ => true | None => false end && negb product_fails && goes_on others)%bool
  end.
Definition answers (v : visit) : bool :=
  match v with
  | No_variables => true
  | Visit product mapping first_fails neighbours result sum_fails =>
      (match mapping with Some _ => true | None => false end && negb first_fails && goes_on neighbours &&
       (Nat.eqb (length product) (length result) || negb sum_fails))%bool
  end.

(** The messages that are asked for, and the calls that end because the
    multiplication with a message fails. *)
Fixpoint messages (v : visit) : nat :=
  match v with
  | No_variables => 0
  | Visit _ None _ _ _ _ | Visit _ _ true _ _ _ => 0
  | Visit _ _ _ neighbours _ _ => messages_from neighbours
  end
with messages_from (b : branches) : nat :=
  match b with
  | Done => 0
  | Branch _ true _ _ _ _ _ _ | Branch _ _ None _ _ _ _ _ => 0
  | Branch _ _ _ call _ _ product_fails others =>
      1 + messages call + (if product_fails then 0 else messages_from others)
  end.
Fixpoint failures (v : visit) : nat :=
  match v with
  | No_variables => 0
  | Visit _ None _ _ _ _ | Visit _ _ true _ _ _ => 0
  | Visit _ _ _ neighbours _ _ => failures_from neighbours
  end
with failures_from (b : branches) : nat :=
  match b with
  | Done => 0
  | Branch _ true _ _ _ _ _ _ | Branch _ _ None _ _ _ _ _ => 0
  | Branch _ _ _ call _ _ product_fails others =>
      failures call + (if product_fails then 1 else failures_from others)
  end.

(** A network of one clique: there are no neighbours. *)
Definition single (v : visit) : Prop :=
  exists product n result, v = Visit product (Some n) false Done result false.
