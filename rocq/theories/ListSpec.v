(** * Specification of the linked lists (for Property C51)

    What the calls mean for sequences, and what memory has to look like to be
    read as a sequence forwards and backwards. *)
From Verif Require Import Base ListModel.
Import ListNotations.
Open Scope nat_scope.

Section Spec.
Context {A : Type}.

(** The sequences of a program; [None]: freed.  A call on a list that does not
    exist has no meaning. *)
Definition change (ss : list (option (list A))) (k : nat)
    (f : list A -> option (list A)) : option (list (option (list A))) :=
  match nth_error ss k with
  | Some (Some xs) => Some (set_nth ss k (f xs))
  | _ => None
  end.

Definition meaning (ss : list (option (list A))) (c : call A)
  : option (list (option (list A))) :=
  match c with
  | New => Some (ss ++ [Some []])
  | Append k x => change ss k (fun xs => Some (xs ++ [x]))
  | Prepend k x => change ss k (fun xs => Some (x :: xs))
  | Empty k => change ss k (fun _ => Some [])
  | Free k => change ss k (fun _ => None)
  end.

Fixpoint meanings (ss : list (option (list A))) (cs : list (call A))
  : option (list (option (list A))) :=
  match cs with
  | [] => Some ss
  | c :: r => match meaning ss c with Some ss' => meanings ss' r | None => None end
  end.

(** From [p], following the forward (backward) links up to NULL, one meets the
    contents [xs]. *)
Inductive forward (m : memory A) : option nat -> list A -> Prop :=
| forward_end : forward m None []
| forward_link : forall a x f b xs,
    nth_error m a = Some (Some (mkLink x f b)) -> forward m f xs ->
    forward m (Some a) (x :: xs).
Inductive backward (m : memory A) : option nat -> list A -> Prop :=
| backward_end : backward m None []
| backward_link : forall a x f b xs,
    nth_error m a = Some (Some (mkLink x f b)) -> backward m b xs ->
    backward m (Some a) (x :: xs).

(** The list is the sequence [xs]. *)
Definition holds_sequence (m : memory A) (l : header) (xs : list A) : Prop :=
  h_length l = length xs /\ forward m (h_first l) xs /\ backward m (h_last l) (rev xs).
End Spec.
