(** * Specification of the size of nodes (for Property C107) *)
From Coq Require Import String Ascii.
From Verif Require Import Base ParseModel NetLexModel NetGrammarModel NetSpec.
Import ListNotations.
Open Scope nat_scope.
Local Open Scope list_scope.

(** [ends_early ps r]: a declaration that goes on as [ps] requires is cut short in [r], or
    goes on in another way. *)
Fixpoint ends_early (ps : list (terminal -> bool)) (r : list terminal) : Prop :=
  match ps, r with
  | [], _ => False
  | _ :: _, [] => True
  | p :: ps, x :: r => if p x then ends_early ps r else True
  end.
Definition is_mark (c : ascii) (x : terminal) : bool := match x with T_char d => Ascii.eqb c d | _ => false end.
Definition is_number (x : terminal) : bool := match x with T_number _ => true | _ => false end.

(** What can stand behind the declarations of a net block: anything that does not begin
    another one, or one with an error in it (for those with an unknown name, at the equals
    sign). *)
Definition no_more (r : list terminal) : Prop :=
  match r with
  | T_unquoted _ :: r => ends_early [is_mark "="] r
  | T_key K_node_size :: r => ends_early [is_mark "="; is_mark "("; is_number; is_number; is_mark ")"; is_mark ";"] r
  | _ => True
  end.

(** [head ts l]: the file starts with the declarations [l] in a net block or a class, or
    with something else and [l] is empty.  What follows need not be right. *)
Inductive head : list terminal -> list field -> Prop :=
| head_net : forall l t r, fields_text (fun x => is_size x || is_other x)%bool l t -> no_more r ->
    head ([T_key K_net] ++ marks "{" ++ t ++ r) l
| head_class : forall s l t r, fields_text (fun x => is_size x || is_other x)%bool l t -> no_more r ->
    head ([T_key K_class] ++ names [s] ++ marks "{" ++ t ++ r) l
| head_other : forall ts, hd_error ts <> Some (T_key K_net) -> hd_error ts <> Some (T_key K_class) -> head ts [].

(** A text that starts so. *)
Definition starts_with (contents : list ascii) (l : list field) : Prop :=
  exists tokens ts, text_tokens contents tokens /\ Forall2 reads_as tokens ts /\ head ts l.
