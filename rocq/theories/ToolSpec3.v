(** * Specification of niptrain (Property C81)

    Learning by expectation maximisation in terms of declarations and records
    only. *)
From Coq Require Import String Ascii.
From Verif Require Import Base PotentialModel PotentialSpec VariableModel AssignSpec JoinTreeSpec NipSpec SliceSpec SeriesFileModel
  SeriesFileSpec ParseModel ParseSpec NetSpec WriteSpec ToolSpec.
Import ListNotations.
Open Scope nat_scope.
Local Notation len := List.length.

(** The same nodes and parents with other numbers. *)
Definition same_network (t u : net) : Prop :=
  n_nodes u = n_nodes t /\ map pd_child (n_potentials u) = map pd_child (n_potentials t) /\
  map pd_parents (n_potentials u) = map pd_parents (n_potentials t).
(** No entry of a table is zero. *)
Definition positive_tables (t : net) : Prop :=
  forall v a, v < ParseSpec.size t -> valid (card_in t) a -> (0 < WriteSpec.entry t v a)%Qc.

(** Probability of all series. *)
Definition probability (t : net) (ss : list series) : Qc :=
  qprod (map (fun ts => evidence t ts (s_length ts) (s_length ts)) ss).

(** Probability, given the series, that at step [s] the variable [v] and its
    parents are in the states that [x] gives them. *)
Definition family_chance (t : net) (ts : series) (s v : nat) (x : nat -> nat) : Qc :=
  (ToolSpec.total t (s_length ts)
     (fun a => given (forallb (fun w => Nat.eqb (at_step t a s w) (x w)) (family_of t (decl_of t v)))
                 (course t ts (s_length ts) (s_length ts) a)) /
   evidence t ts (s_length ts) (s_length ts))%Qc.
(** How often that is expected in all series.  What comes from the step before is
    counted at the first step only. *)
Definition expected_count (t : net) (ss : list series) (v : nat) (x : nat -> nat) : Qc :=
  qsum (map (fun ts => qsum (map (fun s => given (Nat.eqb s 0 || negb (from_before t v)) (family_chance t ts s v x))
                              (seq 0 (s_length ts)))) ss).
(** The next estimate: one plus the expected counts, as conditional
    distributions. *)
Definition next_estimate (ss : list series) (t u : net) : Prop :=
  same_network t u /\
  forall v x, v < ParseSpec.size t -> valid (card_in t) x ->
    WriteSpec.entry u v x = ((1 + expected_count t ss v x) / sumv (card_in t) [v] (fun y => 1 + expected_count t ss v y) x)%Qc.
(** Estimates from [t] to [u], and the probabilities of the data by each of them. *)
Inductive estimates (ss : list series) : net -> list Qc -> net -> Prop :=
| est_last : forall t, estimates ss t [probability t ss] t
| est_next : forall t u l w, next_estimate ss t u -> estimates ss u l w -> estimates ss t (probability t ss :: l) w.

(** Random tables: the entry number [i] of the table of [v] is proportional to
    [rnd v i]. *)
Definition random_tables (rnd : nat -> nat -> Qc) (t u : net) : Prop :=
  same_network t u /\
  forall v x, v < ParseSpec.size t -> valid (card_in t) x ->
    let f := fun y => rnd v (flat (map (card_in t) (family_of t (decl_of t v))) (map y (family_of t (decl_of t v)))) in
    WriteSpec.entry u v x = (f x / sumv (card_in t) [v] f x)%Qc.
(** The tables of variables with parents are those of [t], the others uniform. *)
Definition without_priors (t u : net) : Prop :=
  same_network t u /\
  forall v x, v < ParseSpec.size t -> valid (card_in t) x ->
    WriteSpec.entry u v x = match parents_of t (decl_of t v) with
                            | [] => (1 / Q2Qc (QArith_base.inject_Z (Z.of_nat (card_in t v))))%Qc
                            | _ => WriteSpec.entry t v x
                            end.

(** What can be learned from the series: the tables of the file ([from_file]),
    and whatever estimates lead to from random tables (those of batch [k] in run
    [n] are [rnd n k]) or from learned tables without their priors. *)
Inductive learned (rnd : nat -> nat -> nat -> nat -> Qc) (ss : list series) (t : net) (from_file : bool) : net -> Prop :=
| learned_file : forall u, from_file = true -> same_network t u ->
    (forall v x, v < ParseSpec.size t -> valid (card_in t) x -> WriteSpec.entry u v x = WriteSpec.entry t v x) ->
    learned rnd ss t from_file u
| learned_batch : forall u1 l u, started rnd ss t from_file u1 -> estimates ss u1 l u -> learned rnd ss t from_file u
with started (rnd : nat -> nat -> nat -> nat -> Qc) (ss : list series) (t : net) (from_file : bool) : net -> Prop :=
| started_random : forall n k u1, random_tables (rnd n k) t u1 -> started rnd ss t from_file u1
| started_again : forall w u1, learned rnd ss t from_file w -> without_priors w u1 -> started rnd ss t from_file u1.
