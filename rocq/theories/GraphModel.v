(** * Model of src/nipgraph.c: from a directed graph to a join tree

    A variable is its identifier.  In C identifiers start from
    NIP_VAR_MIN_ID = 1 and NIP_VAR_INVALID_ID = 0 stands for "none"
    (nipvariable.h 27-28); here identifiers start from 0 and "none" is [None].
    [card v] is the cardinality of variable [v], [iface v] its
    interface_status.  All allocations are assumed to succeed. *)
From Verif Require Import Base PotentialModel VariableModel HeapModel JoinTreeModel.
Import ListNotations.
Open Scope nat_scope.
Local Open Scope res_scope.

(** nip_graph_struct, nipgraph.h 33-41.  Entries of the adjacency matrix are
    0 or 1 in C: every assignment stores 1, a logical or, or the bitwise or of
    two entries; here they are booleans.  Products of sizes are not checked
    against the range of unsigned int. *)
Record graph := mkGraph {
  g_size : nat;
  g_top : nat;
  g_adj : list bool;
  g_ind : option (list nat);
  g_min : option nat;
  g_max : option nat;
  g_vars : list (option nat)
}.

Definition set_adj (g : graph) (a : list bool) : graph :=
  mkGraph (g_size g) (g_top g) a (g_ind g) (g_min g) (g_max g) (g_vars g).
Definition set_ind (g : graph) (d : option (list nat)) : graph :=
  mkGraph (g_size g) (g_top g) (g_adj g) d (g_min g) (g_max g) (g_vars g).

(** NIP_ADJM as a value, nipgraph.h 29. *)
Definition adjm (g : graph) (i j : nat) : res bool := rd (g_adj g) (i * g_size g + j).
(** NIP_ADJM assigned to. *)
Definition set_adjm (g : graph) (i j : nat) (b : bool) : res graph :=
  let* a := wr (g_adj g) (i * g_size g + j) b in Ok (set_adj g a).

(** nip_new_graph, nipgraph.c 70-100. *)
Definition new_graph (n : nat) : graph :=
  mkGraph n 0 (repeat false (n * n)) None None None (repeat None n).

(** nip_copy_graph, nipgraph.c 102-122. *)
Definition copy_graph (g : graph) : graph := set_ind g None.

(** Difference of two identifiers, used as an address: negative ones wrap to
    huge numbers in C, an access there is outside the array. *)
Definition id_offset (id : nat) (base : option nat) : res nat :=
  match base with
  | None => Ok (S id)
  | Some m => if Nat.ltb id m then UB else Ok (id - m)
  end.

(** nip_build_graph_index, nipgraph.c 278-297. *)
Definition build_graph_index (g : graph) : res graph :=
  let len := match g_min g, g_max g with
             | Some a, Some b => b - a + 1
             | _, _ => 1
             end in
  let* ind :=
    for_up 0 (g_top g)
      (fun i ind =>
         let* o := rd (g_vars g) i in
         match o with
         | None => UB
         | Some v => let* k := id_offset v (g_min g) in wr ind k i
         end)
      (repeat 0 len) in
  Ok (set_ind g (Some ind)).

(** nip_graph_index, nipgraph.c 147-175.  [None] is -1.  The index is built at
    the first use.  (The linear search of lines 165-169 is reached only when
    memory runs out.) *)
Definition graph_index (g : graph) (v : nat) : res (option nat * graph) :=
  let* g := match g_ind g with
            | None => build_graph_index g
            | Some _ => Ok g
            end in
  match g_ind g with
  | None => UB
  | Some ind =>
      let* k := id_offset v (g_min g) in
      let* i := rd ind k in
      let* o := rd (g_vars g) i in
      match o with
      | Some w => Ok (if equal_variables w v then (Some i, g) else (None, g))
      | None => Ok (None, g)
      end
  end.

(** nip_graph_add_node, nipgraph.c 230-256.  ERANGE is reported as GENERAL. *)
Definition graph_add_node (g : graph) (v : nat) : res (graph * code) :=
  if Nat.eqb (g_top g) (g_size g) then Ok (g, GENERAL)
  else
    let* vs := wr (g_vars g) (g_top g) (Some v) in
    let mn := match g_min g with
              | None => Some v
              | Some m => if Nat.ltb v m then Some v else Some m
              end in
    let mx := match g_max g with
              | None => Some v
              | Some m => if Nat.ltb m v then Some v else Some m
              end in
    let g := mkGraph (g_size g) (S (g_top g)) (g_adj g) None mn mx vs in
    if Nat.eqb (g_top g) (g_size g) then
      let* g := build_graph_index g in Ok (g, NO_ERROR)
    else Ok (g, NO_ERROR).

(** nip_graph_add_child, nipgraph.c 258-270. *)
Definition graph_add_child (g : graph) (parent child : nat) : res (graph * code) :=
  let* (pi, g) := graph_index g parent in
  let* (ci, g) := graph_index g child in
  match pi, ci with
  | Some i, Some j => let* g := set_adjm g i j true in Ok (g, NO_ERROR)
  | _, _ => Ok (g, EINVAL)
  end.

(** nip_graph_cluster, nipgraph.c 178-216.  [None] is -1.  The array has one
    cell more than the neighbours counted first. *)
Definition graph_cluster (g : graph) (v : nat) : res (option (list nat) * graph) :=
  let n := g_top g in
  let* (vi, g) := graph_index g v in
  match vi with
  | None => Ok (None, g)
  | Some vi =>
      let* count :=
        for_up 0 n (fun i j => let* b := adjm g vi i in
                               Ok (if (b : bool) then S j else j)) 0 in
      let* cluster := wr (repeat 0 (S count)) 0 v in
      let* (cluster, _) :=
        for_up 0 n
          (fun i '(cl, j) =>
             let* b := adjm g vi i in
             if (b : bool) then
               let* o := rd (g_vars g) i in
               match o with
               | None => UB
               | Some w => let* cl := wr cl j w in Ok (cl, S j)
               end
             else Ok (cl, j))
          (cluster, 1) in
      Ok (Some cluster, g)
  end.

(** nip_make_graph_undirected, nipgraph.c 300-322. *)
Definition make_graph_undirected (g : graph) : res graph :=
  let n := g_size g in
  for_up 0 n
    (fun i gu =>
       for_up 0 n
         (fun j gu =>
            let* a := adjm g i j in
            let* b := adjm g j i in
            set_adjm gu i j (a || b))
         gu)
    (copy_graph g).

(** nip_moralise_graph, nipgraph.c 325-351. *)
Definition moralise_graph (g : graph) : res graph :=
  let n := g_size g in
  for_up 0 n
    (fun v gm =>
       for_up 0 n
         (fun i gm =>
            let* a := adjm g i v in
            if (a : bool) then
              for_up (S i) n
                (fun j gm =>
                   let* b := adjm g j v in
                   let* x := adjm gm i j in
                   let* gm := set_adjm gm i j (x || b) in
                   let* y := adjm gm j i in
                   set_adjm gm j i (y || b))
                gm
            else Ok gm)
         gm)
    (copy_graph g).

(** NIP_INTERFACE_OUTGOING and NIP_INTERFACE_OLD_OUTGOING, nipvariable.h
    33-34: bits 1 and 2 of interface_status. *)
Definition if_outgoing (s : nat) : bool := Nat.testbit s 1.
Definition if_old_outgoing (s : nat) : bool := Nat.testbit s 2.

(** nip_add_interface_edges, nipgraph.c 354-386. *)
Definition add_interface_edges (iface : nat -> nat) (g : graph) : res graph :=
  let n := g_size g in
  for_up 0 n
    (fun i gi =>
       for_up (S i) n
         (fun j gi =>
            let* o1 := rd (g_vars g) i in
            let* o2 := rd (g_vars g) j in
            match o1, o2 with
            | Some v1, Some v2 =>
                if ((if_old_outgoing (iface v1) && if_old_outgoing (iface v2)) ||
                    (if_outgoing (iface v1) && if_outgoing (iface v2)))%bool then
                  let* gi := set_adjm gi i j true in
                  set_adjm gi j i true
                else Ok gi
            | _, _ => UB
            end)
         gi)
    (copy_graph g).

(** nip_cluster_primary_cost, nipgraph.c 616-636: pairs (i, j), i < j, where i
    is not a parent of j ([parents v] as in nip_variable_is_parent,
    nipvariable.c 372-382).  Overflow of the sum is not modelled. *)
Fixpoint cluster_primary_cost (parents : nat -> list nat) (vs : list nat) : Z :=
  match vs with
  | [] => 0
  | v :: l =>
      (Z.of_nat (length (filter (fun w => negb (existsb (equal_variables v) (parents w))) l))
       + cluster_primary_cost parents l)%Z
  end.
(** nip_cluster_secondary_cost, nipgraph.c 638-644.  Overflow of the product
    is not modelled; the theorems hold for any cost functions. *)
Definition cluster_secondary_cost (card : nat -> nat) (vs : list nat) : Z :=
  fold_left (fun p v => (p * Z.of_nat (card v))%Z) vs 1%Z.

(** nip_family_cluster, nipgraph.c 716-722, for a reference of one variable. *)
Definition family_cluster (v : nat) (c : list nat) : bool :=
  match c with
  | [] => false
  | x :: _ => equal_variables x v
  end.

(** nip_build_cluster_heap, nipgraph.c 670-713.  [None] is NULL.  A failure of
    nip_graph_cluster is followed by the use of freed memory. *)
Definition build_cluster_heap (k1 k2 : list nat -> Z) (g : graph)
  : res (option (heap (list nat)) * graph) :=
  let n := g_top g in
  match new_heap n with
  | None => Ok (None, g)
  | Some h =>
      let* (h, g) :=
        for_up 0 n
          (fun i '(h, g) =>
             let* o := rd (g_vars g) i in
             match o with
             | None => UB
             | Some v =>
                 let* (c, g) := graph_cluster g v in
                 match c with
                 | None => UB
                 | Some c => let* (_, h) := heap_insert k1 k2 true true h c in Ok (h, g)
                 end
             end)
          (h, g) in
      let* h := build_min_heap h in
      Ok (Some h, g)
  end.

(** The loop of nipgraph.c 752-759: the union without the removed variable,
    moved to the front; the cells behind are set to NULL in C. *)
Definition remove_from_cluster (removed : nat) (c : list nat) (nsize : nat)
  : res (list nat) :=
  let* (c, k) :=
    for_up 0 nsize
      (fun j '(c, k) =>
         let* v := rd c j in
         if negb (equal_variables removed v) then
           let* c := wr c k v in Ok (c, S k)
         else Ok (c, k))
      (c, 0) in
  Ok (firstn k c).

(** nip_update_cluster_heap, nipgraph.c 725-778.  A failed search leads to a
    NULL cluster, whose first element is read; the assertion of line 750 is
    included. *)
Definition update_cluster_heap (k1 k2 : list nat -> Z) (h : heap (list nat))
    (cluster : list nat) : res (heap (list nat)) :=
  let* removed := rd cluster 0 in
  let* h :=
    for_up 1 (length cluster)
      (fun i h =>
         let* v := rd cluster i in
         let* index := search_heap_item h (family_cluster v) in
         match index with
         | None => UB
         | Some index =>
             let* old := get_heap_item h (Z.of_nat index) in
             match old with
             | None => UB
             | Some old =>
                 let* (new, nsize) :=
                   variable_union (arr old) (arr cluster) (length old) (length cluster) in
                 match new with
                 | None => UB
                 | Some new =>
                     let* x := rd new 0 in
                     let* y := rd old 0 in
                     if negb (Nat.eqb x y) then UB
                     else
                       let* new := remove_from_cluster removed new (Z.to_nat nsize) in
                       let* (_, h) := set_heap_item k1 k2 h (Z.of_nat index) new
                                        (Nat.ltb 0 (length new)) in
                       Ok h
                 end
             end
         end)
      h in
  build_min_heap h.

(** nip_int_array_list_contains_subset, niplists.c 598-619.  The list is given
    from its first element. *)
Fixpoint contains_subset (l : list (list bool)) (set : list bool) (n : nat) : res bool :=
  match l with
  | [] => Ok false
  | x :: l' =>
      let* f := find_up 0 n
                  (fun v => let* b := rd set v in
                            if (b : bool) then let* c := rd x v in Ok (negb c)
                            else Ok false) in
      match f with
      | None => Ok true
      | Some _ => contains_subset l' set n
      end
  end.

(** nipgraph.c 419-421: the variables selected by a set. *)
Definition select_vars (vars : list (option nat)) (set : list bool) (n : nat)
  : res (list nat) :=
  for_up 0 n
    (fun i l =>
       let* b := rd set i in
       if (b : bool) then
         let* o := rd vars i in
         match o with
         | Some v => Ok (l ++ [v])
         | None => UB
         end
       else Ok l)
    [].

(** nip_cluster_list_to_clique_array, nipgraph.c 389-440.  The array is filled
    from its end while the list is read from its first element. *)
Fixpoint cluster_list_to_clique_array (card : nat -> nat) (clusters : list (list bool))
    (vars : list (option nat)) (n : nat) (filled : list clique) : res (list clique) :=
  match clusters with
  | [] => Ok filled
  | s :: l =>
      let* vs := select_vars vars s n in
      let* c := new_clique card vs (length vs) in
      match c with
      | None => UB
      | Some c => cluster_list_to_clique_array card l vars n (c :: filled)
      end
  end.

(** nip_triangulate_graph, nipgraph.c 443-515, the loop of lines 463-502: the
    sets of variables kept, the last one first, and the graph with the edges
    added. *)
Definition eliminate (k1 k2 : list nat -> Z) (n : nat) (h : heap (list nat)) (g : graph)
  : res (list (list bool) * graph) :=
  let* (h, g, clusters) :=
    for_up 0 n
      (fun i '(h, g, clusters) =>
         let* (c, h) := heap_extract_min h in
         match c with
         | None => UB
         | Some c =>
             let* (g, set) :=
               for_up 0 (length c)
                 (fun j '(g, set) =>
                    let* vj := rd c j in
                    let* (ji, g) := graph_index g vj in
                    match ji with
                    | None => UB
                    | Some ji =>
                        let* set := wr set ji true in
                        let* g :=
                          for_up (S j) (length c)
                            (fun k g =>
                               let* vk := rd c k in
                               let* (ki, g) := graph_index g vk in
                               match ki with
                               | None => UB
                               | Some ki =>
                                   let* g := set_adjm g ji ki true in
                                   set_adjm g ki ji true
                               end)
                            g in
                        Ok (g, set)
                    end)
                 (g, repeat false n) in
             let* h := update_cluster_heap k1 k2 h c in
             let* b := contains_subset clusters set n in
             Ok (h, g, if (b : bool) then clusters else set :: clusters)
         end)
      (h, g, []) in
  Ok (clusters, g).

(** nip_triangulate_graph, nipgraph.c 443-515: the array of cliques, and the
    graph that it leaves behind. *)
Definition triangulate_graph (k1 k2 : list nat -> Z) (card : nat -> nat) (gm : graph)
  : res (list clique * graph) :=
  let* (h, gm) := build_cluster_heap k1 k2 gm in
  match h with
  | None => UB
  | Some h =>
      let* (clusters, gm) := eliminate k1 k2 (g_size gm) h gm in
      let* cs := cluster_list_to_clique_array card clusters (g_vars gm) (g_size gm) [] in
      Ok (cs, gm)
  end.

(** nip_sepset_primary_cost and nip_sepset_secondary_cost, nipgraph.c 646-667.
    The secondary cost is 0 for every sepset: the test of line 656 is
    inverted. *)
Definition sepset_primary_cost (s : sepset) : Z := (- Z.of_nat (dimensionality (s_old s)))%Z.
Definition sepset_secondary_cost (s : sepset) : Z := 0%Z.

(** nip_build_sepset_heap, nipgraph.c 781-822.  [None] is NULL. *)
Definition build_sepset_heap (card : nat -> nat) (jt : jtree) (num : nat)
  : res (option (heap sepset)) :=
  let* p := imul num (num - 1) in
  match new_heap (p / 2) with
  | None => Ok None
  | Some h =>
      let* h :=
        for_up 0 (num - 1)
          (fun i h =>
             for_up (S i) num
               (fun j h =>
                  let* s := new_sepset card jt i j in
                  match s with
                  | None => UB
                  | Some s =>
                      let* (_, h) := heap_insert sepset_primary_cost
                                       sepset_secondary_cost true true h s in
                      Ok h
                  end)
               h)
          h in
      let* h := build_min_heap h in
      Ok (Some h)
  end.

(** The loop of nip_create_sepsets, nipgraph.c 561-604.  A candidate lives in
    the heap only; it gets an address in the table of sepsets when it is
    confirmed. *)
Fixpoint create_sepsets_loop (fuel : nat) (num inserted : nat) (h : heap sepset) (jt : jtree)
  : res (jtree * code) :=
  if negb (Nat.ltb inserted (num - 1)) then Ok (jt, NO_ERROR)
  else
    match fuel with
    | O => NoFuel
    | S f =>
        let* (item, h) := heap_extract_min h in
        match item with
        | None => Ok (jt, ENOMEM)
        | Some s =>
            let* jt := unmark_all jt in
            let* (jt, b) := cliques_connected num jt (s_first s) (s_second s) in
            if (b : bool) then create_sepsets_loop f num inserted h jt
            else
              let k := length (sps jt) in
              let* jt := confirm_sepset (mkJT (cls jt) (sps jt ++ [s])) k in
              create_sepsets_loop f num (S inserted) h jt
        end
    end.

(** nip_create_sepsets, nipgraph.c 547-612.  Each turn takes one candidate
    from the heap, so there are at most as many turns as pairs, and one more. *)
Definition create_sepsets (card : nat -> nat) (jt : jtree) (num : nat)
  : res (jtree * code) :=
  let* h := build_sepset_heap card jt num in
  match h with
  | None => Ok (jt, ENOMEM)
  | Some h => create_sepsets_loop (S (h_size h)) num 0 h jt
  end.

(** nip_graph_to_cliques, nipgraph.c 518-544.  The error code of
    nip_create_sepsets is only reported; it is part of the result here. *)
Definition graph_to_cliques (k1 k2 : list nat -> Z) (card : nat -> nat) (iface : nat -> nat)
    (g : graph) : res (jtree * code) :=
  let* gm := moralise_graph g in
  let* gi := add_interface_edges iface gm in
  let* gu := make_graph_undirected gi in
  let* (cs, _) := triangulate_graph k1 k2 card gu in
  create_sepsets card (mkJT cs []) (length cs).
