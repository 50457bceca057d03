(** * Model of the seeds of random numbers (src/nip.c, util/nipsample.c, niptrain.c
    and nipbenchmark.c)

    The state of the generator is the argument of srand.  int has 32 bits, long 64;
    the clock and the number of the process are arguments. *)
From Coq Require Import String Ascii.
From Verif Require Import Base VariableModel StringModel NetLexModel WriteModel SeedSpec CostModel.
Import ListNotations.
Open Scope nat_scope.
Local Open Scope res_scope.

(** [a << n] for values of type int that are not negative: undefined if the result is
    no int. *)
Definition int_shift (a n : Z) : res Z := if (a <? 0)%Z then UB else int_of (a * 2 ^ n).

(** random_seed, nip.c 2504-2527: what it returns, and the argument of srand, to which
    the conversion to unsigned int applies.  [seed]: what the pointer points to.
    localtime does not fail. *)
Definition random_seed (seed : option Z) (pid : Z) (now : time_of_day) : res (Z * Z) :=
  let* value :=
    match seed with
    | None =>
        let* m := int_of (60 * t_min now) in
        let* s := int_of (t_sec now + m) in
        let* h := int_of (3600 * t_hour now) in
        let* s := int_of (s + h) in
        let* p := int_shift pid 15 in
        let* p := int_of (pid + p) in
        Ok (Z.lxor s p)
    | Some s => Ok s
    end in
  Ok (value, Z.modulo value (2 ^ 32)).

(** strtol of <stdlib.h>, base 10.  [None]: no conversion. *)
Definition strtol (s : list ascii) : option Z :=
  let '(neg, s) := read_sign (skip_space s) in
  let '(v, n, _) := read_digits 10 s 0 0 in
  if Nat.eqb n 0 then None else Some (nearest_long (if neg then - v else v)).

(** nipsample.c 80-89: the number that is printed ([%ld]) and the generator. [None]:
    rejected. *)
Definition nipsample_seed (argument : list ascii) (pid : Z) (now : time_of_day) : res (option (list ascii * Z)) :=
  match strtol argument with
  | None => Ok None
  | Some seed => let* (seed, u) := random_seed (Some seed) pid now in Ok (Some (print_d seed, u))
  end.

(** niptrain.c 143-155, with have_random_init. *)
Definition niptrain_seed (argument : list ascii) (pid : Z) (now : time_of_day) : res (list ascii * Z * bool) :=
  match strtol argument with
  | None => let* (seed, u) := random_seed None pid now in Ok (print_d seed, u, false)
  | Some seed => let* (seed, u) := random_seed (Some seed) pid now in Ok (print_d seed, u, true)
  end.

(** nipbenchmark.c 165-166. *)
Definition nipbenchmark_seed (pid : Z) (now : time_of_day) : res (list ascii * Z) :=
  let* (seed, u) := random_seed None pid now in Ok (print_d seed, u).
