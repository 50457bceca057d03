(** * Specification vocabulary for potentials

    Multi-dimensional tables as functions of multi-indices, independent of how
    the code computes addresses. *)
From Verif Require Import Base PotentialModel.
Import ListNotations.

(** A multi-index is in range if it has one coordinate per dimension, each
    below the cardinality. *)
Definition valid_ix (ds ix : list nat) : Prop := Forall2 (fun i d => i < d) ix ds.

(** Mixed radix position, first coordinate least significant. *)
Fixpoint flat (ds ix : list nat) : nat :=
  match ds, ix with
  | d :: ds', i :: ix' => i + d * flat ds' ix'
  | _, _ => 0
  end.

(** All in-range multi-indices, each once. *)
Fixpoint all_ix (ds : list nat) : list (list nat) :=
  match ds with
  | [] => [[]]
  | d :: ds' => flat_map (fun t => map (fun i => i :: t) (seq 0 d)) (all_ix ds')
  end.

(** A potential as the library builds them: positive cardinalities, one cell
    per multi-index, and a size that fits an int. *)
Definition wf (p : potential) : Prop :=
  Forall (fun d => 0 < d) (dims p) /\
  length (data p) = prod (dims p) /\
  (Z.of_nat (prod (dims p)) <= INT_MAX)%Z.

(** The table entry for a multi-index. *)
Definition cell (p : potential) (ix : list nat) : Qc :=
  nth (flat (dims p) ix) (data p) 0%Qc.

(** Total of all entries. *)
Definition total (p : potential) : Qc := qsum (map (cell p) (all_ix (dims p))).

(** The coordinates of [ix] selected by a mapping. *)
Definition sel (m ix : list nat) : list nat := map (fun k => nth k ix 0) m.

(** [m] maps each dimension of the smaller table to the dimension of the
    bigger table with the same cardinality. *)
Definition map_ok (m big small : list nat) : Prop :=
  Forall (fun k => k < length big) m /\ sel m big = small.

(** Boolean equality of multi-indices. *)
Definition ix_eqb (a b : list nat) : bool :=
  if list_eq_dec Nat.eq_dec a b then true else false.

(** Mathematical marginal: sum of the entries of [p] whose coordinates
    selected by [m] are [ix]. *)
Definition marg (p : potential) (m ix : list nat) : Qc :=
  qsum (map (cell p) (filter (fun jx => ix_eqb (sel m jx) ix) (all_ix (dims p)))).

(** All entries are non-negative. *)
Definition nonneg (p : potential) : Prop := Forall (fun x => (0 <= x)%Qc) (data p).

(** Sum along the first dimension for the remaining coordinates [t]. *)
Definition colsum (p : potential) (t : list nat) : Qc :=
  qsum (map (fun j => cell p (j :: t)) (seq 0 (hd 1 (dims p)))).
