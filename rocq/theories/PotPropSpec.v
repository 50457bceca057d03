(** * Specification for Property C97: properties of potentials *)
From Verif Require Import Base.
Import ListNotations.
Open Scope nat_scope.

(** What a program does with a potential.  Strings are lists of the codes of their
    characters. *)
Inductive request := Set_property (key value : list nat) | Get_property (key : list nat).

(** A string has no character 0. *)
Definition is_text (s : list nat) : Prop := Forall (fun x => x <> 0) s.
Definition proper (r : request) : Prop :=
  match r with Set_property k v => is_text k /\ is_text v | Get_property k => is_text k end.

(** The value that was set first for a key. *)
Fixpoint first_set (k : list nat) (past : list (list nat * list nat)) : option (list nat) :=
  match past with
  | [] => None
  | (k', v) :: past => if list_eq_dec Nat.eq_dec k' k then Some v else first_set k past
  end.
(** The answers if what was set first counts; [past]: what was set so far. *)
Fixpoint answers_first (past : list (list nat * list nat)) (l : list request) : list (option (list nat)) :=
  match l with
  | [] => []
  | Set_property k v :: l => answers_first (past ++ [(k, v)]) l
  | Get_property k :: l => first_set k past :: answers_first past l
  end.

(** The answers if what was set last counts, as the name of the function says. *)
Fixpoint answers_last (past : list (list nat * list nat)) (l : list request) : list (option (list nat)) :=
  match l with
  | [] => []
  | Set_property k v :: l => answers_last (past ++ [(k, v)]) l
  | Get_property k :: l => first_set k (rev past) :: answers_last past l
  end.
(** The keys that are set. *)
Definition keys_set (l : list request) : list (list nat) :=
  flat_map (fun r => match r with Set_property k _ => [k] | Get_property _ => [] end) l.
