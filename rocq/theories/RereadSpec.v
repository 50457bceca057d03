(** * Specification of what is left of a line (for Property C102) *)
From Coq Require Import String Ascii.
From Verif Require Import Base StringSpec NetLexModel NetSpec.
Import ListNotations.
Open Scope nat_scope.
Local Open Scope list_scope.
Local Notation len := List.length.

(** [left_on_line text k l]: the [k]-th token of the text is followed, on its line, by
    the tokens [l]. *)
Inductive left_on_line : list ascii -> nat -> list (list ascii) -> Prop :=
| left_last : forall line before l, line <> [] -> line_ok line (before ++ l) -> before <> [] ->
    left_on_line line (len before) l
| left_here : forall line before l rest, line_ok line (before ++ l) -> before <> [] ->
    left_on_line (line ++ end_of_line :: rest) (len before) l
| left_later : forall line toks rest k l, line_ok line toks -> left_on_line rest k l ->
    left_on_line (line ++ end_of_line :: rest) (len toks + k) l.
