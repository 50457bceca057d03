(** * Specification of niplikelihood and nipsample (Properties C79 and C80) *)
From Coq Require Import String Ascii.
From Verif Require Import Base PotentialModel PotentialSpec VariableModel AssignSpec JoinTreeSpec NipSpec SliceSpec LearnSpec SeriesFileModel
  SeriesFileSpec ParseModel ParseSpec NetSpec WriteSpec ToolSpec.
Import ListNotations.
Open Scope nat_scope.
Local Notation len := List.length.

(** ** niplikelihood *)

(** The variables of [which] are as the record of step [s] says. *)
Definition fits_on (t : net) (ts : series) (s : nat) (which : nat -> bool) (a : nat -> nat) : bool :=
  forallb (fun v => match said ts v s with
                    | Some x => (negb (which v) || Nat.eqb (a v) x)%bool
                    | None => true
                    end) (seq 0 (ParseSpec.size t)).
(** The weight of what the record of step [s] says about the variables of [which],
    by the tables of the file for this one step. *)
Definition step_mass (t : net) (ts : series) (s : nat) (which : nat -> bool) : Qc :=
  sumv (card_in t) (seq 0 (ParseSpec.size t))
    (fun a => given (fits_on t ts s which a) (slice t (Nat.eqb s 0) a)) (fun _ => 0).
(** The variable was asked for. *)
Definition asked (t : net) (asked_for : list string) (v : nat) : bool :=
  existsb (String.eqb (nth v (symbols t) EmptyString)) asked_for.

(** ** nipsample *)

(** The series as it is known when the [i]-th variable of step [s] is drawn. *)
Definition drawn_so_far (ts : series) (s i : nat) : series :=
  mkSeries (s_hidden ts) (s_observed ts) (S s)
    (firstn s (s_data ts) ++ [firstn i (nth s (s_data ts) []) ++ repeat (-1)%Z (len (s_observed ts) - i)]).
(** The series is a sample of the process: the variables are drawn parents first,
    each from its distribution given everything that was drawn before, with the
    random number [rnd s i]. *)
Definition sampled (t : net) (rnd : nat -> nat -> Qc) (ts : series) : Prop :=
  Permutation.Permutation (s_observed ts) (seq 0 (ParseSpec.size t)) /\
  (forall l1 v l2, s_observed ts = l1 ++ v :: l2 -> forall u, parent t u v -> In u l1) /\
  forall s i, s < s_length ts -> i < ParseSpec.size t ->
    let v := nth i (s_observed ts) 0 in
    exists x, said ts v s = Some x /\
      picks (map (chance t (drawn_so_far ts s i) (S s) (S s) s v) (seq 0 (card_in t v))) (rnd s i) x.
