(** * Specification of the memory of building a join tree (for C91) *)
From Verif Require Import Base VariableModel JoinTreeModel GraphModel MemoryModel MemorySpec MemoryModel3.
Import ListNotations.
Open Scope nat_scope.
Local Open Scope res_scope.

(** The number of allocated blocks. *)
Definition live (m : memory) : nat := length (filter (fun b => match b with Some _ => true | None => false end) m).

(** Building a join tree as the callers do it: a new graph, its nodes and arcs,
    the join tree, and the graph is freed.  What is left are the cliques with
    their sepsets and the array of the cliques.  The cliques are numbered in the
    order in which they are created, and the array is filled from its end. *)
Fixpoint put_nodes (m : memory) (G : mgraph) (nodes : list nat) : res (memory * mgraph) :=
  match nodes with
  | [] => Ok (m, G)
  | v :: nodes => let* (m, G, e) := m_graph_add_node m G v in if is_err e then UB else put_nodes m G nodes
  end.
Fixpoint put_arcs (m : memory) (G : mgraph) (arcs : list (nat * nat)) : res (memory * mgraph) :=
  match arcs with
  | [] => Ok (m, G)
  | (u, v) :: arcs => let* (m, G, e) := m_graph_add_child m G u v in if is_err e then UB else put_arcs m G arcs
  end.
Fixpoint all_addresses (ptrs : list (option nat)) : res (list nat) :=
  match ptrs with
  | [] => Ok []
  | p :: ptrs => let* a := address p in let* l := all_addresses ptrs in Ok (a :: l)
  end.
Definition join_tree (k1 k2 : list nat -> Z) (card iface : nat -> nat) (st : state) (nodes : list nat) (arcs : list (nat * nat))
  : res (state * nat * jtree * code) :=
  let '(m, vs, cs) := st in
  let '(m, G) := m_new_graph m (new_graph (length nodes)) in
  let* (m, G) := put_nodes m G nodes in
  let* (m, G) := put_arcs m G arcs in
  let* (m, array, ptrs, jt, e) := m_graph_to_cliques k1 k2 card iface (nth_error vs) m G in
  let* m := m_free_graph m G in
  let* new := all_addresses ptrs in
  Ok (m, vs, cs ++ rev new, array, jt, e).

(** The calls that make the same tree, if there are [base] cliques already. *)
Definition tree_calls (base : nat) (jt : jtree) : list call :=
  let number k := base + (length (cls jt) - 1 - k) in
  map (fun c => NewClique (c_vars c)) (rev (cls jt)) ++
  map (fun s => Connect (number (s_first s)) (number (s_second s))) (sps jt).

(** The number of variables that two cliques share. *)
Definition shared (jt : jtree) (a b : nat) : nat :=
  match nth_error (cls jt) a, nth_error (cls jt) b with
  | Some a, Some b => length (filter (fun v => existsb (Nat.eqb v) (c_vars b)) (c_vars a))
  | _, _ => 0
  end.
Definition neighbouring (jt : jtree) (a b : nat) : Prop :=
  exists s, In s (sps jt) /\ s_first s = a /\ s_second s = b.

(** Nothing exists any more. *)
Definition nothing_left (w : world) : Prop := (forall v, exists_var w v = false) /\ (forall a, clique_of w a = None).

(** The pairs of cliques whose sepsets are lost.  They are no neighbours, and
    share at least as many variables as some sepset has.  All that share more
    are among them. *)
Definition leaked (jt : jtree) (leak : list (nat * nat)) : Prop :=
  NoDup leak /\
  (forall a b, In (a, b) leak -> a < b < length (cls jt) /\ ~ neighbouring jt a b /\
     exists s, In s (sps jt) /\ length (s_vars s) <= shared jt a b) /\
  (forall a b, a < b < length (cls jt) -> ~ neighbouring jt a b ->
     (exists s, In s (sps jt) /\ length (s_vars s) < shared jt a b) -> In (a, b) leak).
