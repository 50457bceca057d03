(** * Specification of files rejected at a node (for Property C104) *)
From Coq Require Import String Ascii.
From Verif Require Import Base ParseModel NetLexModel NetSpec.
Import ListNotations.
Open Scope nat_scope.
Local Open Scope list_scope.

(** [wrong_header ts j]: a node declaration is begun, but its [j]-th terminal is not what
    must be there: the second one no symbol (as if the name is a keyword), or the third one
    no brace. *)
Inductive wrong_header : list terminal -> nat -> Prop :=
| wrong_symbol : forall x r, (forall s, x <> T_unquoted s) -> wrong_header (T_key K_node :: x :: r) 2
| wrong_brace : forall s x r, x <> T_char "{"%char -> wrong_header (T_key K_node :: T_unquoted s :: x :: r) 3.

(** [rejected_text ds t k]: the node declarations [ds], then a wrong one; the [k]-th
    terminal is the wrong one. *)
Inductive rejected_text : list node_decl -> list terminal -> nat -> Prop :=
| rejected_at : forall ds ks t w j, nodes_in_text ds ks t -> wrong_header w j ->
    rejected_text ds (t ++ w) (List.length t + j).

(** Nodes that can be declared: each with states, and with a label if one before has a
    label. *)
Definition nodes_fine (ds : list node_decl) : Prop :=
  Forall (fun d => nd_states d <> None /\ nd_states d <> Some []) ds /\
  forall l1 d1 l2 d2 l3, ds = l1 ++ d1 :: l2 ++ d2 :: l3 -> nd_label d1 <> None -> nd_label d2 <> None.
