(** * Specification of seeds given as text *)
From Coq Require Import String Ascii.
From Verif Require Import Base VariableModel NetSpec.
Import ListNotations.
Open Scope nat_scope.
Local Open Scope list_scope.

(** A blank or another space of <ctype.h>. *)
Definition blank (c : ascii) : Prop := nat_of_ascii c = 32 \/ 9 <= nat_of_ascii c <= 13.
Definition is_digit (c : ascii) : Prop := exists d, d < 10 /\ c = digit d.

(** Text that begins with an integer: spaces, a sign, digits, and something that does
    not go on with a digit. *)
Inductive integer_text : list ascii -> Z -> Prop :=
| an_integer : forall ws neg sg ds rest, Forall blank ws -> sign_text neg sg -> ds <> [] ->
    Forall (fun d => d < 10) ds -> (forall c r, rest = c :: r -> ~ is_digit c) ->
    integer_text (ws ++ sg ++ digits ds ++ rest) (signed neg (decimal ds)).

(** The value of type long (64 bits) that is nearest. *)
Definition LONG_MIN : Z := (- LONG_MAX - 1)%Z.
Definition nearest_long (z : Z) : Z := Z.max LONG_MIN (Z.min LONG_MAX z).

(** A time of day, by localtime: 60 is a leap second. *)
Record time_of_day := mkTime { t_sec : Z; t_min : Z; t_hour : Z }.
Definition valid_time (t : time_of_day) : Prop :=
  (0 <= t_sec t <= 60 /\ 0 <= t_min t <= 59 /\ 0 <= t_hour t <= 23)%Z.
Definition seconds (t : time_of_day) : Z := (t_sec t + 60 * t_min t + 3600 * t_hour t)%Z.
