(** * Model of the costs of clusters with the arithmetic of int (src/nipgraph.c)

    GraphModel.v computes the costs of clusters without bounds.  Here the sums and
    products are those of the type int; an overflow is undefined.  The functions
    that put clusters into the heap are repeated with these costs, all other
    functions are those of GraphModel.v. *)
From Verif Require Import Base PotentialModel VariableModel HeapModel JoinTreeModel GraphModel.
Import ListNotations.
Open Scope nat_scope.
Local Open Scope res_scope.

(** The result of an operation on values of type int. *)
Definition int_of (z : Z) : res Z := if ((- INT_MAX - 1 <=? z) && (z <=? INT_MAX))%Z%bool then Ok z else UB.

(** nip_cluster_secondary_cost, nipgraph.c 638-644. *)
Fixpoint secondary_loop (card : nat -> nat) (vs : list nat) (prod : Z) : res Z :=
  match vs with
  | [] => Ok prod
  | v :: l => let* prod := int_of (prod * Z.of_nat (card v)) in secondary_loop card l prod
  end.
Definition secondary_cost (card : nat -> nat) (vs : list nat) : res Z := secondary_loop card vs 1%Z.

(** nip_cluster_primary_cost, nipgraph.c 616-636: the inner loop, lines 621-623. *)
Fixpoint primary_inner (parents : nat -> list nat) (v : nat) (l : list nat) (sum : Z) : res Z :=
  match l with
  | [] => Ok sum
  | w :: l =>
      let* sum := int_of (sum + (if existsb (equal_variables v) (parents w) then 0 else 1)) in
      primary_inner parents v l sum
  end.
(** The outer loop, line 620. *)
Fixpoint primary_outer (parents : nat -> list nat) (vs : list nat) (sum : Z) : res Z :=
  match vs with
  | [] => Ok sum
  | v :: l => let* sum := primary_inner parents v l sum in primary_outer parents l sum
  end.
(** nip_cluster_primary_cost, nipgraph.c 616-636. *)
Definition primary_cost (parents : nat -> list nat) (vs : list nat) : res Z := primary_outer parents vs 0%Z.

(** nip_heap_insert, nipheap.c 82-116, with the keys of lines 93-94. *)
Definition insert_cluster (parents : nat -> list nat) (card : nat -> nat) (h : heap (list nat)) (c : list nat)
  : res (code * heap (list nat)) :=
  let* a := primary_cost parents c in
  let* b := secondary_cost card c in
  heap_insert (fun _ => a) (fun _ => b) true true h c.

(** nip_set_heap_item, nipheap.c 154-170; the keys are computed after the test of the
    arguments. *)
Definition set_cluster (parents : nat -> list nat) (card : nat -> nat) (h : heap (list nat)) (index : nat) (c : list nat)
  : res (code * heap (list nat)) :=
  if (negb (Nat.ltb index (h_size h)) || negb (Nat.ltb 0 (length c)))%bool then Ok (EINVAL, h)
  else
    let* a := primary_cost parents c in
    let* b := secondary_cost card c in
    set_heap_item (fun _ => a) (fun _ => b) h (Z.of_nat index) c true.

(** nip_build_cluster_heap, nipgraph.c 670-713. *)
Definition build_cluster_heap_int (parents : nat -> list nat) (card : nat -> nat) (g : graph)
  : res (option (heap (list nat)) * graph) :=
  let n := g_top g in
  match new_heap n with
  | None => Ok (None, g)
  | Some h =>
      let* (h, g) :=
        for_up 0 n
          (fun i '(h, g) =>
             let* o := rd (g_vars g) i in
             match o with
             | None => UB
             | Some v =>
                 let* (c, g) := graph_cluster g v in
                 match c with
                 | None => UB
                 | Some c => let* (_, h) := insert_cluster parents card h c in Ok (h, g)
                 end
             end)
          (h, g) in
      let* h := build_min_heap h in
      Ok (Some h, g)
  end.

(** nip_update_cluster_heap, nipgraph.c 725-778. *)
Definition update_cluster_heap_int (parents : nat -> list nat) (card : nat -> nat) (h : heap (list nat))
    (cluster : list nat) : res (heap (list nat)) :=
  let* removed := rd cluster 0 in
  let* h :=
    for_up 1 (length cluster)
      (fun i h =>
         let* v := rd cluster i in
         let* index := search_heap_item h (family_cluster v) in
         match index with
         | None => UB
         | Some index =>
             let* old := get_heap_item h (Z.of_nat index) in
             match old with
             | None => UB
             | Some old =>
                 let* (new, nsize) :=
                   variable_union (arr old) (arr cluster) (length old) (length cluster) in
                 match new with
                 | None => UB
                 | Some new =>
                     let* x := rd new 0 in
                     let* y := rd old 0 in
                     if negb (Nat.eqb x y) then UB
                     else
                       let* new := remove_from_cluster removed new (Z.to_nat nsize) in
                       let* (_, h) := set_cluster parents card h index new in
                       Ok h
                 end
             end
         end)
      h in
  build_min_heap h.

(** nip_triangulate_graph, nipgraph.c 443-515, the loop of lines 463-502. *)
Definition eliminate_int (parents : nat -> list nat) (card : nat -> nat) (n : nat) (h : heap (list nat)) (g : graph)
  : res (list (list bool) * graph) :=
  let* (h, g, clusters) :=
    for_up 0 n
      (fun i '(h, g, clusters) =>
         let* (c, h) := heap_extract_min h in
         match c with
         | None => UB
         | Some c =>
             let* (g, set) :=
               for_up 0 (length c)
                 (fun j '(g, set) =>
                    let* vj := rd c j in
                    let* (ji, g) := graph_index g vj in
                    match ji with
                    | None => UB
                    | Some ji =>
                        let* set := wr set ji true in
                        let* g :=
                          for_up (S j) (length c)
                            (fun k g =>
                               let* vk := rd c k in
                               let* (ki, g) := graph_index g vk in
                               match ki with
                               | None => UB
                               | Some ki =>
                                   let* g := set_adjm g ji ki true in
                                   set_adjm g ki ji true
                               end)
                            g in
                        Ok (g, set)
                    end)
                 (g, repeat false n) in
             let* h := update_cluster_heap_int parents card h c in
             let* b := contains_subset clusters set n in
             Ok (h, g, if (b : bool) then clusters else set :: clusters)
         end)
      (h, g, []) in
  Ok (clusters, g).

(** nip_triangulate_graph, nipgraph.c 443-515. *)
Definition triangulate_graph_int (parents : nat -> list nat) (card : nat -> nat) (gm : graph)
  : res (list clique * graph) :=
  let* (h, gm) := build_cluster_heap_int parents card gm in
  match h with
  | None => UB
  | Some h =>
      let* (clusters, gm) := eliminate_int parents card (g_size gm) h gm in
      let* cs := cluster_list_to_clique_array card clusters (g_vars gm) (g_size gm) [] in
      Ok (cs, gm)
  end.

(** nip_graph_to_cliques, nipgraph.c 518-544. *)
Definition graph_to_cliques_int (parents : nat -> list nat) (card : nat -> nat) (iface : nat -> nat)
    (g : graph) : res (jtree * code) :=
  let* gm := moralise_graph g in
  let* gi := add_interface_edges iface gm in
  let* gu := make_graph_undirected gi in
  let* (cs, _) := triangulate_graph_int parents card gu in
  create_sepsets card (mkJT cs []) (length cs).
