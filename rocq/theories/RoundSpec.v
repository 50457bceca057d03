(** * Specification of rounded arithmetic *)
From Coq Require Import ZArith QArith Qcanon.
From Coq Require Import String.
From Verif Require Import Base PotentialModel PotentialSpec VariableModel JoinTreeModel AssignSpec JoinTreeSpec
  NipModel NipSpec RoundModel.
Import ListNotations.
Open Scope nat_scope.

(** The relative error of one rounding of a non-negative number is at most
    [u]. *)
Definition rounding (u : Qc) (rnd : Qc -> res Qc) : Prop :=
  forall x y, (0 <= x)%Qc -> rnd x = Ok y -> (x - u * x <= y <= x + u * x)%Qc.

(** The computed number is the exact one up to [k] factors between [1 - u] and
    [1 / (1 - u)]. *)
Definition near (u : Qc) (k : nat) (exact computed : Qc) : Prop :=
  (0 <= exact /\ (1 - u) ^ k * exact <= computed /\ (1 - u) ^ k * computed <= exact)%Qc.

(** The same for two lists of numbers, entry by entry. *)
Definition near_list (u : Qc) (k : nat) : list Qc -> list Qc -> Prop := Forall2 (near u k).

(** ** The format double of IEEE 754 (round to nearest, ties to even)

    A positive number [n / d] is represented by [m * 2 ^ e] where [m] is an
    integer of 53 bits.  Numbers whose exponent does not fit (overflow or
    subnormal numbers) have no representation here. *)
Definition binade (n d : Z) : Z :=
  let l := (Z.log2 n - Z.log2 d)%Z in
  if (d * 2 ^ Z.max 0 l <=? n * 2 ^ Z.max 0 (- l))%Z then l else (l - 1)%Z.

(** The integer nearest to [a / b]; of two equally near ones, the even one. *)
Definition nearest (a b : Z) : Z :=
  let q := (a / b)%Z in
  let r := (a mod b)%Z in
  if (2 * r <? b)%Z then q
  else if (b <? 2 * r)%Z then (q + 1)%Z
  else if Z.even q then q else (q + 1)%Z.

(** [m * 2 ^ e] as a rational number. *)
Definition scaled (m e : Z) : Qc :=
  Q2Qc (Qmake (m * 2 ^ Z.max 0 e) (Z.to_pos (2 ^ Z.max 0 (- e)))).

Definition double (x : Qc) : res Qc :=
  if qzero x then Ok 0%Qc
  else
    let n := Z.abs (Qnum (this x)) in
    let d := Zpos (Qden (this x)) in
    let e := (binade n d - 52)%Z in
    let m := nearest (n * 2 ^ Z.max 0 (- e)) (d * 2 ^ Z.max 0 e) in
    if ((e <? -1074) || (971 <? e) || ((e =? 971) && (m =? 2 ^ 53)))%Z%bool then UB
    else Ok (scaled (if (Qnum (this x) <? 0)%Z then (- m)%Z else m) e).

(** The unit roundoff of the format double. *)
Definition unit_roundoff : Qc := Q2Qc (Qmake 1 (2 ^ 53)).

(** ** Sizes *)

(** No clique of the tree has more than [N] table entries. *)
Definition cliques_within (card : nat -> nat) (jt : jtree) (N : nat) : Prop :=
  forall i, i < length (cls jt) -> prod (map card (c_vars (clq jt i))) <= N.

(** ** Histories of calls with rounded arithmetic *)
Definition r_insert1 (rnd : Qc -> res Qc) (names : list named_variable) (m : model) (x : insertion)
  : res (model * code) :=
  match x with
  | Hard varname state => r_insert_hard_evidence rnd names m varname state
  | Soft varname l => r_insert_soft_evidence rnd names m varname (Some l)
  end.
(** The mass is a difference of rounded sums and is not looked at. *)
Definition r_run1 (rnd : Qc -> res Qc) (names : list named_variable) (m : model) (o : op) : res model :=
  match o with
  | Insert x => bind (r_insert1 rnd names m x) (fun '(m', _) => Ok m')
  | Priors h => r_use_priors rnd m h
  | Reset => r_reset_model rnd m
  | Consistent => r_make_consistent_model rnd m
  | Ask v => bind (r_get_probability rnd m v) (fun '(m', _) => Ok m')
  | Mass => UB
  end.
Fixpoint r_run (rnd : Qc -> res Qc) (names : list named_variable) (m : model) (os : list op) : res model :=
  match os with
  | [] => Ok m
  | o :: os' => bind (r_run1 rnd names m o) (fun m' => r_run rnd names m' os')
  end.

(** The number of roundings that a call adds to the error of the joint that the
    tree represents: propagation sends two messages along each sepset, and each
    message rounds twice. *)
Definition cost (m : model) (o : op) : nat :=
  match o with
  | Insert _ => 2 + 4 * length (sps (m_jt m))
  | Priors _ => length (m_indep m)
  | Consistent => 4 * length (sps (m_jt m))
  | _ => 0
  end.
(** After a reset (which multiplies in one likelihood per variable) and the
    calls [os]. *)
Definition history_error (m : model) (os : list op) : nat :=
  length (m_vars m) + list_sum (map (cost m) os).
(** The error of the probabilities of a variable with [n] states, read after a
    propagation; no clique has more than [N] entries. *)
Definition posterior_error (m : model) (N : nat) (os : list op) (n : nat) : nat :=
  2 * (history_error m os + 4 * length (sps (m_jt m)) + length (sps (m_jt m)) * (N + 2) + N) + n + 1.

(** The function that the tree should represent after a reset and the calls
    [os]: the original joint times the latest evidence times the priors in
    use (C34). *)
Definition believed (card : nat -> nat) (names : list named_variable) (m : model) (os : list op)
    (a : nat -> nat) : Qc :=
  (original m a * weight (length (m_vars m)) (b_lik (learn card names m (no_belief card) os)) a *
   priors m (b_active (learn card names m (no_belief card) os)) a)%Qc.
