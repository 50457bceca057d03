(** * Specification of rounded inference over time *)
From Coq Require Import List.
From Verif Require Import Base VariableModel JoinTreeModel NipModel.
Import ListNotations.
Open Scope nat_scope.

(** The number of roundings that one time step adds to a number: for each
    variable (reset), each prior and each observation that enters the slice,
    for each of the messages in its join tree, for the sum over a clique of at
    most [N] table entries, and for the messages between the slices. *)
Definition slice_error (m : model) (ts : time_series) (N : nat) : nat :=
  length (m_vars m) + length (m_indep m) + 2 * length (ts_observed ts) +
  4 * length (sps (m_jt m)) + length (sps (m_jt m)) * (N + 2) + N + 5.

(** The same for one time step of learning: the code propagates twice. *)
Definition learn_error (m : model) (ts : time_series) (N : nat) : nat :=
  slice_error m ts N + 4 * length (sps (m_jt m)).

(** The number of roundings in an expected count: twice those of all time steps,
    the division by the total of a table of at most [N] entries, and one addition
    per time step. *)
Definition count_error (m : model) (ts : time_series) (N : nat) : nat :=
  2 * (length (ts_data ts) * learn_error m ts N) + N + 1 + length (ts_data ts).
