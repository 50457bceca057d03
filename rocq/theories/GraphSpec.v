(** * Specification of graphs and their triangulation *)
From Coq Require Import Relations Permutation.
From Verif Require Import Base PotentialModel HeapModel JoinTreeModel JoinTreeSpec GraphModel.
Import ListNotations.
Open Scope nat_scope.
Local Open Scope res_scope.

(** [g] is a graph all of whose nodes are in place, in the order [vs]: no
    variable twice, matrix of the right size, the bounds of identifiers and
    the index (if there is one) fit to the nodes. *)
Record graph_ok (g : graph) (vs : list nat) : Prop := mkGraphOk {
  gk_size : g_size g = length vs;
  gk_top : g_top g = length vs;
  gk_vars : g_vars g = map Some vs;
  gk_nodup : NoDup vs;
  gk_adj : length (g_adj g) = length vs * length vs;
  gk_ids : forall v, In v vs ->
    exists a b, g_min g = Some a /\ g_max g = Some b /\ a <= v <= b;
  gk_ind : forall ind, g_ind g = Some ind ->
    forall i v a, nth_error vs i = Some v -> g_min g = Some a ->
    nth_error ind (v - a) = Some i
}.

(** There is an arc from variable [u] to variable [v]: the cell of the matrix
    in the row of [u] and the column of [v] is set. *)
Definition arc (g : graph) (u v : nat) : Prop :=
  exists i j, nth_error (g_vars g) i = Some (Some u) /\
    nth_error (g_vars g) j = Some (Some v) /\
    nth_error (g_adj g) (i * g_size g + j) = Some true.

(** A graph as the callers make it: all nodes first, then the arcs. *)
Fixpoint add_nodes (g : graph) (vs : list nat) : res (graph * code) :=
  match vs with
  | [] => Ok (g, NO_ERROR)
  | v :: l =>
      let* (g, e) := graph_add_node g v in
      if is_err e then Ok (g, e) else add_nodes g l
  end.
Fixpoint add_arcs (g : graph) (arcs : list (nat * nat)) : res (graph * code) :=
  match arcs with
  | [] => Ok (g, NO_ERROR)
  | (u, v) :: l =>
      let* (g, e) := graph_add_child g u v in
      if is_err e then Ok (g, e) else add_arcs g l
  end.
Definition graph_from (vs : list nat) (arcs : list (nat * nat)) : res (graph * code) :=
  let* (g, e) := add_nodes (new_graph (length vs)) vs in
  if is_err e then Ok (g, e) else add_arcs g arcs.

(** All pairs of different members are joined. *)
Definition complete (g : graph) (c : list nat) : Prop :=
  forall u v, In u c -> In v c -> u <> v -> arc g u v.

(** The flags of interface_status that nipvariable.h 33-34 gives the values 2
    and 4: member of the outgoing interface, and of that of the previous slice. *)
Definition flag_outgoing (s : nat) : bool := Nat.odd (s / 2).
Definition flag_old_outgoing (s : nat) : bool := Nat.odd (s / 4).

(** Joined after moralisation, addition of the interface edges and dropping
    of the directions, in terms of the arcs of [g]. *)
Definition joined (iface : nat -> nat) (g : graph) (u v : nat) : Prop :=
  arc g u v \/ arc g v u \/ (exists w, arc g u w /\ arc g v w) \/
  (flag_old_outgoing (iface u) = true /\ flag_old_outgoing (iface v) = true) \/
  (flag_outgoing (iface u) = true /\ flag_outgoing (iface v) = true).

(** The graph at the end of the triangulation inside nip_graph_to_cliques: the
    same calls, without the construction of cliques. *)
Definition triangulated (k1 k2 : list nat -> Z) (iface : nat -> nat) (g : graph)
  : res graph :=
  let* gm := moralise_graph g in
  let* gi := add_interface_edges iface gm in
  let* gu := make_graph_undirected gi in
  let* (h, gu) := build_cluster_heap k1 k2 gu in
  match h with
  | None => UB
  | Some h => let* (_, gt) := eliminate k1 k2 (g_size gu) h gu in Ok gt
  end.

(** A table over the variables [c] can be addressed with an int. *)
Definition fits (card : nat -> nat) (c : list nat) : Prop :=
  (Z.of_nat (prod (map card c)) <= INT_MAX)%Z.

(** Cliques made one after another from sets of variables. *)
Fixpoint make_cliques (card : nat -> nat) (Ks : list (list nat)) : res (list clique) :=
  match Ks with
  | [] => Ok []
  | K :: l =>
      let* c := new_clique card K (length K) in
      match c with
      | None => UB
      | Some c => let* cs := make_cliques card l in Ok (c :: cs)
      end
  end.

(** Every entry of a table is one. *)
Definition all_ones (p : potential) : Prop := Forall (fun x => x = 1%Qc) (data p).

(** A way from clique [i] to clique [j]: the sepsets on it, each with the
    clique behind it. *)
Inductive way (jt : jtree) : nat -> list (nat * nat) -> nat -> Prop :=
| way_nil : forall i, way jt i [] i
| way_cons : forall i s k l j, s < length (sps jt) -> joins jt s i k -> way jt k l j ->
    way jt i ((s, k) :: l) j.
(** The path between two cliques: a way that is nowhere twice. *)
Definition path (jt : jtree) (i : nat) (l : list (nat * nat)) (j : nat) : Prop :=
  way jt i l j /\ NoDup (i :: map snd l).
