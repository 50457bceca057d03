(** * Specification of the memory of files that are not accepted (for Property C105) *)
From Coq Require Import String.
From Verif Require Import Base ParseModel NetLexModel NetGrammarModel NetSpec MemorySpec4 KeptSpec LostModel.
Import ListNotations.
Open Scope nat_scope.
Local Open Scope list_scope.

(** The nodes that an attempt declares, in the terms of C69. *)
Definition nodes_of (a : attempt) : list (string * list field) :=
  match a with Missing => [] | Wrong nodes _ => nodes end.
Definition all_nodes (l : list attempt) : list (string * list field) := flat_map nodes_of l.
Definition decls_of (l : list attempt) : list node_decl :=
  map (fun x => mkNode (fst x) (hd_error (NetSpec.labels (snd x))) (last_of (state_lists (snd x))) (hd_error (nexts (snd x))))
    (all_nodes l).

(** Each attempt fails because the file is missing or because of a wrong header (C104)
    that ends with the wrong terminal; all nodes before can be declared. *)
Definition attempts_ok (l : list attempt) : Prop :=
  (forall nodes h, In (Wrong nodes h) l -> exists r, wrong_header (h ++ r) (List.length h)) /\
  nodes_fine (decls_of l) /\
  (forall x y, In x (all_nodes l) -> In y (state_lists (snd x)) -> y <> []).

(** The strings among the terminals. *)
Definition strings_in (h : list terminal) : nat :=
  List.length (filter (fun x => match x with T_unquoted _ | T_quoted _ => true | _ => false end) h).

(** The blocks that an attempt loses: the struct of the model, the strings of the wrong
    declaration, and what declarations of nodes lose that do not count (C92). *)
Definition lost_by (a : attempt) : nat :=
  match a with
  | Missing => 1
  | Wrong nodes h => 1 + strings_in h + list_sum (map (fun x => ignored_in (snd x)) nodes)
  end.
