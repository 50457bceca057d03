(** * What learning never lowers (Property C84) *)
From Verif Require Import Base PotentialModel PotentialSpec AssignSpec SeriesFileModel ParseModel ParseSpec ToolSpec3.
Import ListNotations.
Open Scope nat_scope.

(** The product of all entries of all tables. *)
Definition weight (t : net) : Qc :=
  qprod (map (fun d => qprod (map (cell (table_of t d)) (all_ix (dims (table_of t d))))) (n_potentials t)).
(** The probability of the series, weighted: up to a constant factor this is the
    probability of the tables given the series, if before the series all tables
    had a Dirichlet distribution in which every entry counts for one observation. *)
Definition posterior (ss : list series) (t : net) : Qc := (probability t ss * weight t)%Qc.
