(** * Specification vocabulary: assignments and tables over variables

    An assignment gives every variable a state; a table over a list of
    variables is read at an assignment.  Probabilistic notions (joint,
    marginal) are stated with these, independently of addresses, mappings and
    the order of the dimensions. *)
From Verif Require Import Base PotentialModel PotentialSpec.
Import ListNotations.
Open Scope nat_scope.

Section Assignments.
Variable card : nat -> nat.

(** Every variable is in one of its states. *)
Definition valid (a : nat -> nat) : Prop := forall v, a v < card v.

(** [a] with variable [v] put into state [x]. *)
Definition upd (a : nat -> nat) (v x : nat) : nat -> nat :=
  fun w => if Nat.eqb w v then x else a w.

(** Sum of [f] over all states of the variables [vs], the other variables
    being as in [a]. *)
Fixpoint sumv (vs : list nat) (f : (nat -> nat) -> Qc) (a : nat -> nat) : Qc :=
  match vs with
  | [] => f a
  | v :: vs' => qsum (map (fun x => sumv vs' f (upd a v x)) (seq 0 (card v)))
  end.

(** The entry that table [p], whose dimensions are the variables [vs], has for
    assignment [a]. *)
Definition den (vs : list nat) (p : potential) (a : nat -> nat) : Qc :=
  cell p (map a vs).

(** [p] is a table over the distinct variables [vs]. *)
Definition table (vs : list nat) (p : potential) : Prop :=
  NoDup vs /\ wf p /\ dims p = map card vs.

End Assignments.

(** The elements of [a] that are not in [b]. *)
Definition minus (a b : list nat) : list nat :=
  filter (fun x => negb (existsb (Nat.eqb x) b)) a.

(** Product of a list of numbers. *)
Fixpoint qprod (l : list Qc) : Qc :=
  match l with
  | [] => 1%Qc
  | x :: t => (x * qprod t)%Qc
  end.
