(** * Specification of learning with rounded arithmetic *)
From Coq Require Import List ZArith Qcanon.
From Verif Require Import Base PotentialModel PotentialSpec VariableModel JoinTreeModel AssignSpec JoinTreeSpec
  NipModel NipSpec SliceModel SliceSpec LearnModel LearnSpec RoundModel3 RoundSpec RoundSpec2.
Import ListNotations.
Open Scope nat_scope.

(** The parameters [ps'] are [ps] up to [k] roundings. *)
Definition params_near (u : Qc) (k : nat) (card : nat -> nat) (m : model) (ps ps' : list potential) : Prop :=
  forall v ix, v < length (m_vars m) -> valid_ix (map card (family m v)) ix ->
    near u k (cell (param ps v) ix) (cell (param ps' v) ix).

(** The model [m'] is [m], with tables that differ by at most [k] roundings: the
    original joint, every original clique table and every prior. *)
Definition model_near (u : Qc) (k : nat) (card : nat -> nat) (m m' : model) : Prop :=
  same_structure m m' /\
  (forall a, valid card a -> near u k (original m a) (original m' a)) /\
  (forall i a, i < length (cls (m_jt m)) -> valid card a ->
     near u k (den (c_vars (clq (m_jt m) i)) (c_orig (clq (m_jt m) i)) a)
              (den (c_vars (clq (m_jt m) i)) (c_orig (clq (m_jt m') i)) a)) /\
  (forall v, In v (m_indep m) -> exists l l', v_prior (var m v) = Some l /\ v_prior (var m' v) = Some l' /\
     near_list u k l l').

(** ** The number of roundings

    No clique table has more than [N] entries. *)

(** One conditional distribution, installed from parameters with an error of [k]
    roundings: numerator and denominator, the sum over a column, the division, the
    multiplication into the clique (or the sum that copies a prior). *)
Definition install_error (N k : nat) : nat := 2 * k + 2 * N + 2.
(** All distributions of a slice. *)
Definition model_error (m : model) (N k : nat) : nat := length (m_vars m) * install_error N k.
(** The length of the longest series. *)
Definition longest (ts : list time_series) : nat := list_max (map (fun s => length (ts_data s)) ts).
(** The parameters after one more round: those of the E-steps, and twice those of
    the installed model, once for each time step. *)
Definition round_error (m : model) (ts : list time_series) (N k : nat) : nat :=
  list_sum (map (fun s => count_error m s N) ts) + 2 * (longest ts * model_error m N k).
(** The parameters after [r] rounds that start from parameters with an error of
    [k] roundings. *)
Fixpoint rounds_error (m : model) (ts : list time_series) (N k r : nat) : nat :=
  match r with 0 => k | S r' => rounds_error m ts N (round_error m ts N k) r' end.

(** The error of the first parameters: none for random ones, one sum over a clique
    table for those of the model. *)
Definition start_error (random : option (nat -> nat -> Qc)) (N : nat) : nat :=
  match random with Some _ => 0 | None => N end.

(** ** When learning stops

    [lr] are the log-likelihoods of the rounds and [first] the one they are compared
    with at first.  No round but the last is worse than the one before, and each of
    them from the third on improves the likelihood and is below the limit. *)
Definition goes_on {L} (J : judge L) (max_iterations : Z) (first : L) (lr : list L) : Prop :=
  forall j, S j < length lr ->
    j_bad J (nth j (first :: lr) first) (nth j lr first) = false /\
    (S j < 3 \/ (j_better J (nth j (first :: lr) first) (nth j lr first) = true /\ (Z.of_nat (S j) < max_iterations)%Z)).
(** The last of them is worse than the one before: an error.  Otherwise there are at
    least three of them, and the last one does not improve the likelihood, or it is
    the last one allowed. *)
Definition stopped {L} (J : judge L) (max_iterations : Z) (first : L) (lr : list L) (d : option convergence) (e : code) : Prop :=
  let j := length lr - 1 in
  (e = BAD_LUCK /\ d = None /\ j_bad J (nth j (first :: lr) first) (nth j lr first) = true) \/
  (e = NO_ERROR /\ 3 <= length lr /\ j_bad J (nth j (first :: lr) first) (nth j lr first) = false /\
   ((d = Some DELTA /\ j_better J (nth j (first :: lr) first) (nth j lr first) = false) \/
    (d = Some ITERATIONS /\ j_better J (nth j (first :: lr) first) (nth j lr first) = true /\
     (max_iterations <= Z.of_nat (length lr))%Z))).

(** Learning ended without an error because the likelihood did not improve any more,
    and all likelihoods are one. *)
Definition learnt (r : res (model * outcome)) : bool :=
  match r with
  | Ok (_, o) => match o_code o, o_criterion o with NO_ERROR, Some DELTA => forallb (fun l => Qc_eq_bool l 1) (o_curve o) | _, _ => false end
  | _ => false
  end.
