(** * Base: outcomes, loops and arrays of the modelled C code

    This file fixes the vocabulary of all models.  It models no function of
    /repo itself; the constructs it offers are those of the C language. *)
From Coq Require Export List Bool ZArith Lia QArith.Qcanon.
Import ListNotations.
Open Scope Z_scope.
Open Scope nat_scope.

(** Outcome of running a piece of C code.
    [UB]     : undefined behaviour (access outside an array, NULL dereference,
               division by zero, signed overflow, use of uninitialised data).
    [NoFuel] : the recursion or loop needed more steps than allowed. *)
Inductive res (A : Type) : Type :=
| Ok (a : A)
| UB
| NoFuel.
Arguments Ok {A} a.
Arguments UB {A}.
Arguments NoFuel {A}.

Definition bind {A B} (x : res A) (f : A -> res B) : res B :=
  match x with
  | Ok a => f a
  | UB => UB
  | NoFuel => NoFuel
  end.

Declare Scope res_scope.
Delimit Scope res_scope with res.
Notation "'let*' x ':=' e 'in' f" := (bind e (fun x => f))
  (at level 200, x pattern, e at level 100, f at level 200, right associativity)
  : res_scope.
Open Scope res_scope.

(** Error codes returned by the library: /repo/src/niperrorhandler.h
    (NIP_NO_ERROR, EFAULT, EINVAL, ENOMEM, EIO, NIP_ERROR_GENERAL, ENOENT,
    NIP_ERROR_BAD_LUCK). *)
Inductive code :=
| NO_ERROR | EFAULT | EINVAL | ENOMEM | EIO | GENERAL | ENOENT | BAD_LUCK.

(** [for(i = lo; i < lo + n; i++) body] *)
Fixpoint loop_up {S : Type} (n lo : nat) (body : nat -> S -> res S) (s : S)
  : res S :=
  match n with
  | O => Ok s
  | Datatypes.S n' => let* s' := body lo s in loop_up n' (Datatypes.S lo) body s'
  end.

(** [for(i = lo; i < hi; i++) body] *)
Definition for_up {S : Type} (lo hi : nat) (body : nat -> S -> res S) (s : S)
  : res S := loop_up (hi - lo) lo body s.

(** [for(i = lo + n - 1; i >= lo; i--) body] *)
Fixpoint loop_down {S : Type} (n lo : nat) (body : nat -> S -> res S) (s : S)
  : res S :=
  match n with
  | O => Ok s
  | Datatypes.S n' => let* s' := body (lo + n') s in loop_down n' lo body s'
  end.

(** [for(i = hi - 1; i >= lo; i--) body] *)
Definition for_down {S : Type} (hi lo : nat) (body : nat -> S -> res S) (s : S)
  : res S := loop_down (hi - lo) lo body s.

(** Checked array read [a[i]]. *)
Definition rd {A} (a : list A) (i : nat) : res A :=
  match nth_error a i with
  | Some x => Ok x
  | None => UB
  end.

(** Unchecked functional update, used by [wr] after the bounds check. *)
Fixpoint set_nth {A} (l : list A) (i : nat) (v : A) : list A :=
  match l, i with
  | [], _ => []
  | _ :: t, O => v :: t
  | h :: t, S i' => h :: set_nth t i' v
  end.

(** Checked array write [a[i] = v]. *)
Definition wr {A} (a : list A) (i : nat) (v : A) : res (list A) :=
  if Nat.ltb i (length a) then Ok (set_nth a i v) else UB.

(** Largest value of a C [int] (32 bit two's complement assumed). *)
Definition INT_MAX : Z := 2147483647.

(** [int] product and sum of two non-negative numbers; overflow is UB. *)
Definition imul (a b : nat) : res nat :=
  if (Z.of_nat a * Z.of_nat b <=? INT_MAX)%Z then Ok (a * b) else UB.
Definition iadd (a b : nat) : res nat :=
  if (Z.of_nat a + Z.of_nat b <=? INT_MAX)%Z then Ok (a + b) else UB.

(** [int] division of two non-negative numbers; division by zero is UB. *)
Definition idiv (a b : nat) : res nat :=
  match b with
  | O => UB
  | _ => Ok (Nat.div a b)
  end.

(** [double] division: division by zero would leave the numbers that are
    modelled, so it is treated as UB. *)
Definition qdiv (a b : Qc) : res Qc :=
  if Qc_eq_dec b 0%Qc then UB else Ok (Qcdiv a b).

(** Decidable test [x == 0] on doubles. *)
Definition qzero (x : Qc) : bool := if Qc_eq_dec x 0%Qc then true else false.
(** [x > 0] on doubles. *)
Definition qpos (x : Qc) : bool :=
  match Qccompare x 0%Qc with Gt => true | _ => false end.

(** Mathematical sum of a list of numbers, used in specifications. *)
Fixpoint qsum (l : list Qc) : Qc :=
  match l with
  | [] => 0%Qc
  | x :: t => (x + qsum t)%Qc
  end.

(** Product of natural numbers, used in specifications. *)
Fixpoint prod (l : list nat) : nat :=
  match l with
  | [] => 1
  | x :: t => x * prod t
  end.

(** Linear search with [break]: the first [i] in [lo, hi) whose test succeeds. *)
Fixpoint find_loop (n lo : nat) (test : nat -> res bool) : res (option nat) :=
  match n with
  | O => Ok None
  | S n' =>
      let* b := test lo in
      if b then Ok (Some lo) else find_loop n' (S lo) test
  end.
Definition find_up (lo hi : nat) (test : nat -> res bool) : res (option nat) :=
  find_loop (hi - lo) lo test.
