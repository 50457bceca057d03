(** * Specification of numbers given as arguments of programs *)
From Coq Require Import String Ascii QArith_base.
From Verif Require Import Base VariableModel NetSpec SeedSpec.
Import ListNotations.
Open Scope nat_scope.
Local Open Scope list_scope.
Local Notation chars := list_ascii_of_string.

(** A value of type double: a number, an infinity (a negative one if [true]) or not a
    number. *)
Inductive double := D_number (q : Qc) | D_infinite (neg : bool) | D_nan.

(** Text that is a double: after spaces, a numeral, or the name of an infinity or of
    what is not a number in small or capital letters. *)
Inductive double_text : list ascii -> double -> Prop :=
| text_number : forall ws s q, Forall blank ws -> numeral s q -> double_text (ws ++ s) (D_number q)
| text_infinite : forall ws neg sg s, Forall blank ws -> sign_text neg sg ->
    map lower s = chars "inf" \/ map lower s = chars "infinity" ->
    double_text (ws ++ sg ++ s) (D_infinite neg)
| text_nan : forall ws neg sg s, Forall blank ws -> sign_text neg sg -> map lower s = chars "nan" ->
    double_text (ws ++ sg ++ s) D_nan.

(** Text that does not begin like a double, after spaces. *)
Inductive no_double_text : list ascii -> Prop :=
| text_nothing : forall ws, Forall blank ws -> no_double_text ws
| text_other : forall ws c s, Forall blank ws -> ~ blank c -> like_number (c :: s) = false ->
    no_double_text (ws ++ c :: s).

(** [z] is [q] without its fraction. *)
Definition without_fraction (q : Qc) (z : Z) : Prop :=
  if (0 <=? Qnum q)%Z then (inject_Z z <= q)%Q /\ (q < inject_Z (z + 1))%Q
  else (q <= inject_Z z)%Q /\ (inject_Z (z - 1) < q)%Q.

(** Numbers of time series, and of steps, that nipsample takes: above 0, at most a
    million. *)
Definition million : Q := inject_Z 1000000.
Definition amount (q : Qc) : Prop := (0 < q)%Q /\ (q <= million)%Q.
(** Those that an int holds without their fraction. *)
Definition int_range (q : Qc) : Prop := (inject_Z (- 2147483649) < q)%Q /\ (q < inject_Z 2147483648)%Q.

(** Arguments that say how many: good ones, ones to be rejected, and numbers that no int
    holds. *)
Definition good_amount (s : list ascii) : Prop := exists q, double_text s (D_number q) /\ amount q.
Definition bad_amount (s : list ascii) : Prop :=
  no_double_text s \/ exists q, double_text s (D_number q) /\ int_range q /\ ~ amount q.
Definition wild_amount (s : list ascii) : Prop :=
  exists d, double_text s d /\ forall q, d = D_number q -> ~ int_range q.
