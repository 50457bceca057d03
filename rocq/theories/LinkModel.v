(** * Model of building and asking a graph step by step: nipgraph.c 219-270 *)
From Verif Require Import Base VariableModel JoinTreeModel GraphModel LinkSpec.
Import ListNotations.
Open Scope nat_scope.
Local Open Scope res_scope.

(** nip_graph_linked, nipgraph.c 219-226.  The graph may have got an index. *)
Definition graph_linked (g : graph) (parent child : nat) : res (bool * graph) :=
  let* (pi, g) := graph_index g parent in
  let* (ci, g) := graph_index g child in
  match pi, ci with
  | Some i, Some j => let* b := adjm g i j in Ok (b, g)
  | _, _ => Ok (false, g)
  end.

(** A caller of nip_graph_add_node, nip_graph_add_child (nipgraph.c 230-270, GraphModel.v)
    and nip_graph_linked; error codes are told apart from 0 only. *)
Definition act (g : graph) (a : action) : res (answer * graph) :=
  match a with
  | Node v => let* (g, e) := graph_add_node g v in Ok (if is_err e then Refused else Done, g)
  | Child u v => let* (g, e) := graph_add_child g u v in Ok (if is_err e then Refused else Done, g)
  | Linked u v => let* (b, g) := graph_linked g u v in Ok (if (b : bool) then Yes else No, g)
  end.
Fixpoint acts (g : graph) (l : list action) : res (list answer * graph) :=
  match l with
  | [] => Ok ([], g)
  | a :: l =>
      let* (x, g) := act g a in
      let* (xs, g) := acts g l in
      Ok (x :: xs, g)
  end.
