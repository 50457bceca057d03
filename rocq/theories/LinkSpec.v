(** * Specification of a directed graph that is built and asked step by step (Property C103)

    Nothing of the model is used here.  A variable is its identifier. *)
From Coq Require Import List Arith Bool.
Import ListNotations.

(** What a caller may do with a graph. *)
Inductive action :=
| Node (v : nat)          (* add a variable *)
| Child (u v : nat)       (* make v a child of u *)
| Linked (u v : nat).     (* ask whether v is a child of u *)

(** What the caller gets. *)
Inductive answer := Done | Refused | Yes | No.

Definition is_node (nodes : list nat) (v : nat) : bool := existsb (Nat.eqb v) nodes.
Definition is_arc (arcs : list (nat * nat)) (u v : nat) : bool :=
  existsb (fun p => Nat.eqb u (fst p) && Nat.eqb v (snd p)) arcs.

(** The answers, for a graph with room for [n] variables: [nodes] have been added and
    [arcs] go from parents to children.  Variables that do not fit and arcs of unknown
    variables are refused. *)
Fixpoint expected (n : nat) (nodes : list nat) (arcs : list (nat * nat)) (l : list action) : list answer :=
  match l with
  | [] => []
  | Node v :: l =>
      if Nat.ltb (length nodes) n then Done :: expected n (nodes ++ [v]) arcs l
      else Refused :: expected n nodes arcs l
  | Child u v :: l =>
      if is_node nodes u && is_node nodes v then Done :: expected n nodes ((u, v) :: arcs) l
      else Refused :: expected n nodes arcs l
  | Linked u v :: l =>
      (if is_arc arcs u v then Yes else No) :: expected n nodes arcs l
  end.

(** The variables that are in the graph after the actions. *)
Fixpoint nodes_after (n : nat) (nodes : list nat) (l : list action) : list nat :=
  match l with
  | [] => nodes
  | Node v :: l => nodes_after n (if Nat.ltb (length nodes) n then nodes ++ [v] else nodes) l
  | _ :: l => nodes_after n nodes l
  end.

(** The identifier is between those of two variables of the graph. *)
Definition between (nodes : list nat) (v : nat) : Prop :=
  exists a b, In a nodes /\ In b nodes /\ a <= v <= b.

(** No variable is added twice, and the others that are spoken of are between those of
    the graph. *)
Fixpoint proper (n : nat) (nodes : list nat) (l : list action) : Prop :=
  match l with
  | [] => True
  | Node v :: l =>
      if Nat.ltb (length nodes) n then ~ In v nodes /\ proper n (nodes ++ [v]) l else proper n nodes l
  | Child u v :: l => between nodes u /\ between nodes v /\ proper n nodes l
  | Linked u v :: l => between nodes u /\ between nodes v /\ proper n nodes l
  end.

(** ** Variables that are added again

    What the graph does then: it forgets all arcs of that variable (and has room for one
    variable less). *)
Definition without_arcs (v : nat) (arcs : list (nat * nat)) : list (nat * nat) :=
  filter (fun p => negb (Nat.eqb (fst p) v) && negb (Nat.eqb (snd p) v)) arcs.
Fixpoint forgetful (n : nat) (nodes : list nat) (arcs : list (nat * nat)) (l : list action) : list answer :=
  match l with
  | [] => []
  | Node v :: l =>
      if Nat.ltb (length nodes) n then Done :: forgetful n (nodes ++ [v]) (without_arcs v arcs) l
      else Refused :: forgetful n nodes arcs l
  | Child u v :: l =>
      if is_node nodes u && is_node nodes v then Done :: forgetful n nodes ((u, v) :: arcs) l
      else Refused :: forgetful n nodes arcs l
  | Linked u v :: l =>
      (if is_arc arcs u v then Yes else No) :: forgetful n nodes arcs l
  end.
(** Only variables between those of the graph are spoken of. *)
Fixpoint inside (n : nat) (nodes : list nat) (l : list action) : Prop :=
  match l with
  | [] => True
  | Node v :: l => inside n (if Nat.ltb (length nodes) n then nodes ++ [v] else nodes) l
  | Child u v :: l => between nodes u /\ between nodes v /\ inside n nodes l
  | Linked u v :: l => between nodes u /\ between nodes v /\ inside n nodes l
  end.
