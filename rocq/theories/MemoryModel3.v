(** * Model of the memory used to build a join tree
    (src/nipgraph.c 70-131, 178-270, 278-297, 389-612 and 670-822,
    src/nipheap.c, src/niplists.c 141-160, 230-250, 451-468 and 511-535)

    The values are computed by the functions of HeapModel.v, GraphModel.v and
    JoinTreeModel.v; here they run with the calls of malloc and free around
    them.  The cliques and sepsets are those of MemoryModel.v, with all their
    pointers.  Graphs, heaps, clusters and lists are not represented field by
    field: such a block has an address and can be used and freed, but its
    contents are in the other models. *)
From Verif Require Import Base VariableModel HeapModel JoinTreeModel GraphModel MemoryModel.
Import ListNotations.
Open Scope nat_scope.
Local Open Scope res_scope.

(** malloc of a block whose contents are in another model, and the use of one,
    which must not have been freed. *)
Definition take (m : memory) : memory * nat := allocate m [].
Definition use (m : memory) (a : nat) : res unit :=
  match nth_error m a with
  | Some (Some _) => Ok tt
  | _ => UB
  end.

(** nip_empty_int_list, niplists.c 451-468: the links, the last one first. *)
Fixpoint free_all (m : memory) (l : list nat) : res memory :=
  match l with
  | [] => Ok m
  | a :: l => let* m := free_all m l in free m (Some a)
  end.

(** ** Heaps *)

(** The blocks of a heap: the struct, heap_items, the list updated_items and its
    links.  The content of an item here is the address of its struct and the
    content proper. *)
Record mheap (A : Type) := mkMheap {
  b_heap : nat; b_items : nat; b_updated : nat; b_links : list nat; mh : heap (nat * A) }.
Arguments mkMheap {A}. Arguments b_heap {A}. Arguments b_items {A}. Arguments b_updated {A}.
Arguments b_links {A}. Arguments mh {A}.
Definition with_heap {A} (H : mheap A) (h : heap (nat * A)) : mheap A :=
  mkMheap (b_heap H) (b_items H) (b_updated H) (b_links H) h.

(** Every function of nipheap.c looks at the struct, the array and, some of
    them, at the list. *)
Definition use_heap {A} (m : memory) (H : mheap A) : res unit :=
  let* _ := use m (b_heap H) in
  let* _ := use m (b_items H) in
  use m (b_updated H).

(** nip_new_heap, nipheap.c 42-79. *)
Definition m_new_heap {A} (m : memory) (initial_size : nat) : memory * option (mheap A) :=
  match new_heap initial_size with
  | None => (m, None)
  | Some h =>
      let '(m, s) := take m in
      let '(m, a) := take m in
      let '(m, l) := take m in
      (m, Some (mkMheap s a l [] h))
  end.

(** nip_heap_insert, nipheap.c 82-116; realloc moves the array. *)
Definition m_heap_insert {A} (k1 k2 : A -> Z) (m : memory) (H : mheap A) (c : A) : res (memory * mheap A) :=
  let* _ := use_heap m H in
  let '(m, hi) := take m in
  let* (_, h) := heap_insert (fun x => k1 (snd x)) (fun x => k2 (snd x)) true true (mh H) (hi, c) in
  if Nat.eqb (h_size (mh H)) (h_alloc (mh H)) then
    let* m := free m (Some (b_items H)) in
    let '(m, a) := take m in
    Ok (m, mkMheap (b_heap H) a (b_updated H) (b_links H) h)
  else Ok (m, with_heap H h).

(** nip_set_heap_item, nipheap.c 154-170, with nip_append_int, niplists.c
    141-160; [size_ok] is [size > 0]. *)
Definition m_set_heap_item {A} (k1 k2 : A -> Z) (m : memory) (H : mheap A) (index : nat) (c : A) (size_ok : bool)
  : res (memory * mheap A) :=
  let* _ := use_heap m H in
  if (Nat.leb (h_size (mh H)) index || negb size_ok)%bool then Ok (m, H) (* EINVAL *)
  else
    let* hi := rd (h_cells (mh H)) index in
    match hi with
    | None => UB
    | Some hi =>
        let a := fst (content hi) in
        let* _ := use m a in
        let* (_, h) := set_heap_item (fun x => k1 (snd x)) (fun x => k2 (snd x)) (mh H) (Z.of_nat index) (a, c) size_ok in
        let '(m, l) := take m in
        Ok (m, mkMheap (b_heap H) (b_items H) (b_updated H) (b_links H ++ [l]) h)
    end.

(** nip_build_min_heap, nipheap.c 173-194: the list is emptied. *)
Definition m_build_min_heap {A} (m : memory) (H : mheap A) : res (memory * mheap A) :=
  let* _ := use_heap m H in
  let* h := build_min_heap (mh H) in
  let* m := free_all m (b_links H) in
  Ok (m, mkMheap (b_heap H) (b_items H) (b_updated H) [] h).

(** nip_heap_extract_min, nipheap.c 197-227. *)
Definition m_heap_extract_min {A} (m : memory) (H : mheap A) : res (memory * option A * mheap A) :=
  let* _ := use_heap m H in
  let* (c, h) := heap_extract_min (mh H) in
  match c with
  | None => Ok (m, None, with_heap H h)
  | Some (hi, c) => let* m := free m (Some hi) in Ok (m, Some c, with_heap H h)
  end.

(** The loops [while(NULL != (item = nip_heap_extract_min(h, NULL)))] that
    release the contents, nipgraph.c 509-510 and 607-608.  One turn more than
    there are items. *)
Fixpoint m_drain {A} (fuel : nat) (release : memory -> A -> res memory) (m : memory) (H : mheap A)
  : res (memory * mheap A) :=
  match fuel with
  | O => NoFuel
  | S f =>
      let* (m, c, H) := m_heap_extract_min m H in
      match c with
      | None => Ok (m, H)
      | Some c => let* m := release m c in m_drain f release m H
      end
  end.

(** nip_free_heap, nipheap.c 230-249. *)
Definition m_free_heap {A} (m : memory) (H : mheap A) : res memory :=
  let* _ := use_heap m H in
  let* m :=
    for_up 0 (h_size (mh H))
      (fun i m =>
         let* hi := rd (h_cells (mh H)) i in
         match hi with
         | Some hi => free m (Some (fst (content hi)))
         | None => Ok m
         end) m in
  let* m := free m (Some (b_items H)) in
  let* m := free_all m (b_links H) in
  let* m := free m (Some (b_updated H)) in
  free m (Some (b_heap H)).

(** ** Graphs *)

(** The blocks of a graph: the struct, adj_matrix, variables and var_ind. *)
Record mgraph := mkMgraph { b_graph : nat; b_adj : nat; b_vars : nat; b_ind : option nat; mg : graph }.
Definition use_graph (m : memory) (G : mgraph) : res unit :=
  let* _ := use m (b_graph G) in
  let* _ := use m (b_adj G) in
  let* _ := use m (b_vars G) in
  match b_ind G with Some a => use m a | None => Ok tt end.

(** nip_new_graph, nipgraph.c 70-100, with the values [g]: also the memory that
    nip_copy_graph, nipgraph.c 102-122, takes. *)
Definition m_new_graph (m : memory) (g : graph) : memory * mgraph :=
  let '(m, s) := take m in
  let '(m, a) := take m in
  let '(m, v) := take m in
  (m, mkMgraph s a v None g).

(** nip_free_graph, nipgraph.c 124-131. *)
Definition m_free_graph (m : memory) (G : mgraph) : res memory :=
  let* m := free m (Some (b_adj G)) in
  let* m := free m (Some (b_vars G)) in
  let* m := free m (b_ind G) in
  free m (Some (b_graph G)).

(** The graph has got new values, perhaps with an index: nip_build_graph_index,
    nipgraph.c 278-297, allocates it if there was none. *)
Definition with_graph (m : memory) (G : mgraph) (g : graph) : memory * mgraph :=
  match b_ind G, g_ind g with
  | None, Some _ => let '(m, a) := take m in (m, mkMgraph (b_graph G) (b_adj G) (b_vars G) (Some a) g)
  | _, _ => (m, mkMgraph (b_graph G) (b_adj G) (b_vars G) (b_ind G) g)
  end.

(** nip_graph_add_node, nipgraph.c 230-256: the old index is freed. *)
Definition m_graph_add_node (m : memory) (G : mgraph) (v : nat) : res (memory * mgraph * code) :=
  let* _ := use_graph m G in
  let* (g, e) := graph_add_node (mg G) v in
  if is_err e then Ok (m, mkMgraph (b_graph G) (b_adj G) (b_vars G) (b_ind G) g, e)
  else
    let* m := free m (b_ind G) in
    let '(m, G) := with_graph m (mkMgraph (b_graph G) (b_adj G) (b_vars G) None g) g in
    Ok (m, G, e).

(** nip_graph_add_child, nipgraph.c 258-270. *)
Definition m_graph_add_child (m : memory) (G : mgraph) (parent child : nat) : res (memory * mgraph * code) :=
  let* _ := use_graph m G in
  let* (g, e) := graph_add_child (mg G) parent child in
  let '(m, G) := with_graph m G g in
  Ok (m, G, e).

(** nip_graph_cluster, nipgraph.c 178-216: the array with its address. *)
Definition m_graph_cluster (m : memory) (G : mgraph) (v : nat) : res (memory * option (nat * list nat) * mgraph) :=
  let* _ := use_graph m G in
  let* (c, g) := graph_cluster (mg G) v in
  let '(m, G) := with_graph m G g in
  match c with
  | None => Ok (m, None, G)
  | Some c => let '(m, a) := take m in Ok (m, Some (a, c), G)
  end.

(** ** Triangulation *)

Section Triangulation.
Variables k1 k2 : list nat -> Z.
Definition key1 (c : nat * list nat) : Z := k1 (snd c).
Definition key2 (c : nat * list nat) : Z := k2 (snd c).

(** nip_build_cluster_heap, nipgraph.c 670-713. *)
Definition m_build_cluster_heap (m : memory) (G : mgraph) : res (memory * option (mheap (nat * list nat)) * mgraph) :=
  let n := g_top (mg G) in
  let '(m, H) := m_new_heap m n in
  match H with
  | None => Ok (m, None, G)
  | Some H =>
      let* (m, H, G) :=
        for_up 0 n
          (fun i '(m, H, G) =>
             let* o := rd (g_vars (mg G)) i in
             match o with
             | None => UB
             | Some v =>
                 let* (m, c, G) := m_graph_cluster m G v in
                 match c with
                 | None => UB
                 | Some c => let* (m, H) := m_heap_insert key1 key2 m H c in Ok (m, H, G)
                 end
             end)
          (m, H, G) in
      let* (m, H) := m_build_min_heap m H in
      Ok (m, Some H, G)
  end.

(** nip_update_cluster_heap, nipgraph.c 725-778; the cluster is at [a]. *)
Definition m_update_cluster_heap (m : memory) (H : mheap (nat * list nat)) (a : nat) (cluster : list nat)
  : res (memory * mheap (nat * list nat)) :=
  let* _ := use m a in
  let* removed := rd cluster 0 in
  let* (m, H) :=
    for_up 1 (length cluster)
      (fun i '(m, H) =>
         let* _ := use m a in
         let* _ := use_heap m H in
         let* v := rd cluster i in
         let* index := search_heap_item (mh H) (fun x => family_cluster v (snd (snd x))) in
         match index with
         | None => UB
         | Some index =>
             let* item := get_heap_item (mh H) (Z.of_nat index) in
             match item with
             | None => UB
             | Some (_, (b, old)) =>
                 let* _ := use m b in
                 let* (new, nsize) :=
                   variable_union (arr old) (arr cluster) (length old) (length cluster) in
                 match new with
                 | None => UB
                 | Some new =>
                     let '(m, n) := take m in
                     let* x := rd new 0 in
                     let* y := rd old 0 in
                     if negb (Nat.eqb x y) then UB
                     else
                       let* new := remove_from_cluster removed new (Z.to_nat nsize) in
                       let* m := free m (Some b) in
                       m_set_heap_item key1 key2 m H index (n, new) (Nat.ltb 0 (length new))
                 end
             end
         end)
      (m, H) in
  m_build_min_heap m H.

(** nipgraph.c 481-493: the variables of the cluster, and new edges. *)
Definition add_edges (n : nat) (g : graph) (c : list nat) : res (graph * list bool) :=
  for_up 0 (length c)
    (fun j '(g, set) =>
       let* vj := rd c j in
       let* (ji, g) := graph_index g vj in
       match ji with
       | None => UB
       | Some ji =>
           let* set := wr set ji true in
           let* g :=
             for_up (S j) (length c)
               (fun k g =>
                  let* vk := rd c k in
                  let* (ki, g) := graph_index g vk in
                  match ki with
                  | None => UB
                  | Some ki =>
                      let* g := set_adjm g ji ki true in
                      set_adjm g ki ji true
                  end)
               g in
           Ok (g, set)
       end)
    (g, repeat false n).

(** nip_triangulate_graph, nipgraph.c 463-502.  An element of the list of
    clusters: the addresses of the link and of the set, and the set. *)
Definition m_eliminate (n : nat) (m : memory) (H : mheap (nat * list nat)) (G : mgraph)
  : res (memory * mheap (nat * list nat) * mgraph * list (nat * nat * list bool)) :=
  for_up 0 n
    (fun i '(m, H, G, clusters) =>
       let* (m, c, H) := m_heap_extract_min m H in
       match c with
       | None => UB
       | Some (a, c) =>
           let '(m, s) := take m in
           let* _ := use m a in
           let* _ := use_graph m G in
           let* (g, set) := add_edges n (mg G) c in
           let '(m, G) := with_graph m G g in
           let* (m, H) := m_update_cluster_heap m H a c in
           let* b := contains_subset (map snd clusters) set n in
           let* (m, clusters) :=
             if (b : bool) then let* m := free m (Some s) in Ok (m, clusters)
             else let '(m, l) := take m in Ok (m, (l, s, set) :: clusters) in
           let* m := free m (Some a) in
           Ok (m, H, G, clusters)
       end)
    (m, H, G, []).

(** nip_cluster_list_to_clique_array, nipgraph.c 389-440: the cliques and their
    addresses; [variable] gives the addresses of variables. *)
Fixpoint m_cliques (card : nat -> nat) (variable : nat -> option nat) (m : memory) (clusters : list (nat * nat * list bool))
    (vars : list (option nat)) (n : nat) (filled : list clique) (ptrs : list (option nat))
  : res (memory * list clique * list (option nat)) :=
  match clusters with
  | [] => Ok (m, filled, ptrs)
  | (l, a, s) :: rest =>
      let* _ := use m l in
      let* _ := use m a in
      let* vs := select_vars vars s n in
      let* c := JoinTreeModel.new_clique card vs (length vs) in
      match c with
      | None => UB
      | Some c =>
          let* (m, p) := MemoryModel.new_clique m (map variable (c_vars c)) in
          m_cliques card variable m rest vars n (c :: filled) (p :: ptrs)
      end
  end.
Definition m_clique_array (card : nat -> nat) (variable : nat -> option nat) (m : memory) (clusters : list (nat * nat * list bool))
    (G : mgraph) (n : nat) : res (memory * nat * list clique * list (option nat)) :=
  let* _ := use_graph m G in
  let '(m, array) := take m in
  let '(m, clique_vars) := take m in
  let* (m, cs, ptrs) := m_cliques card variable m clusters (g_vars (mg G)) n [] [] in
  let* m := free m (Some clique_vars) in
  Ok (m, array, cs, ptrs).

(** nip_free_int_array_list, niplists.c 511-535: sets and links, the last ones
    first. *)
Fixpoint free_clusters (m : memory) (clusters : list (nat * nat * list bool)) : res memory :=
  match clusters with
  | [] => Ok m
  | (l, s, _) :: rest =>
      let* m := free_clusters m rest in
      let* m := free m (Some s) in
      free m (Some l)
  end.

(** nip_triangulate_graph, nipgraph.c 443-515. *)
Definition m_triangulate_graph (card : nat -> nat) (variable : nat -> option nat) (m : memory) (G : mgraph)
  : res (memory * nat * list clique * list (option nat) * mgraph) :=
  let n := g_size (mg G) in
  let* (m, H, G) := m_build_cluster_heap m G in
  match H with
  | None => UB
  | Some H =>
      let '(m, list) := take m in
      let* (m, H, G, clusters) := m_eliminate n m H G in
      let* (m, array, cs, ptrs) := m_clique_array card variable m clusters G n in
      let* (m, H) := m_drain (S (h_size (mh H))) (fun m c => free m (Some (fst c))) m H in
      let* m := m_free_heap m H in
      let* m := free_clusters m clusters in
      let* m := free m (Some list) in
      Ok (m, array, cs, ptrs, G)
  end.
End Triangulation.

(** ** Sepsets *)

(** A candidate in the heap: its address and its values. *)
Definition candidate : Type := option nat * sepset.
Definition skey1 (c : candidate) : Z := sepset_primary_cost (snd c).
Definition skey2 (c : candidate) : Z := sepset_secondary_cost (snd c).

(** nip_build_sepset_heap, nipgraph.c 781-822. *)
Definition m_build_sepset_heap (card : nat -> nat) (m : memory) (jt : jtree) (ptrs : list (option nat)) (num : nat)
  : res (memory * option (mheap candidate)) :=
  let* p := imul num (num - 1) in
  let '(m, H) := m_new_heap m (p / 2) in
  match H with
  | None => Ok (m, None)
  | Some H =>
      let* (m, H) :=
        for_up 0 (num - 1)
          (fun i mH =>
             for_up (S i) num
               (fun j '(m, H) =>
                  let* s := JoinTreeModel.new_sepset card jt i j in
                  let* nca := rd ptrs i in
                  let* ncb := rd ptrs j in
                  match s with
                  | None => UB
                  | Some s =>
                      let* (m, a) := MemoryModel.new_sepset m nca ncb in
                      m_heap_insert skey1 skey2 m H (a, s)
                  end)
               mH)
          (m, H) in
      let* (m, H) := m_build_min_heap m H in
      Ok (m, Some H)
  end.

(** The loop of nip_create_sepsets, nipgraph.c 561-604. *)
Fixpoint m_create_sepsets_loop (fuel : nat) (num inserted : nat) (m : memory) (H : mheap candidate) (jt : jtree)
  : res (memory * mheap candidate * jtree * code) :=
  if negb (Nat.ltb inserted (num - 1)) then Ok (m, H, jt, NO_ERROR)
  else
    match fuel with
    | O => NoFuel
    | S f =>
        let* (m, item, H) := m_heap_extract_min m H in
        match item with
        | None => Ok (m, H, jt, ENOMEM)
        | Some (a, s) =>
            let* jt := unmark_all jt in
            let* (jt, b) := cliques_connected num jt (s_first s) (s_second s) in
            if (b : bool) then m_create_sepsets_loop f num inserted m H jt
            else
              let k := length (sps jt) in
              let* m := MemoryModel.confirm_sepset m a in
              let* jt := JoinTreeModel.confirm_sepset (mkJT (cls jt) (sps jt ++ [s])) k in
              m_create_sepsets_loop f num (S inserted) m H jt
        end
    end.

(** nip_create_sepsets, nipgraph.c 547-612. *)
Definition m_create_sepsets (card : nat -> nat) (m : memory) (jt : jtree) (ptrs : list (option nat)) (num : nat)
  : res (memory * jtree * code) :=
  let* (m, H) := m_build_sepset_heap card m jt ptrs num in
  match H with
  | None => Ok (m, jt, ENOMEM)
  | Some H =>
      let* (m, H, jt, e) := m_create_sepsets_loop (S (h_size (mh H))) num 0 m H jt in
      if is_err e then let* m := m_free_heap m H in Ok (m, jt, e)
      else
        let* (m, H) := m_drain (S (h_size (mh H))) (fun m c => free_sepset m (fst c)) m H in
        let* m := m_free_heap m H in
        Ok (m, jt, e)
  end.

(** nip_graph_to_cliques, nipgraph.c 518-544: the array of cliques, what is in
    it, and the values. *)
Definition m_graph_to_cliques (k1 k2 : list nat -> Z) (card iface : nat -> nat) (variable : nat -> option nat)
    (m : memory) (G : mgraph) : res (memory * nat * list (option nat) * jtree * code) :=
  let* _ := use_graph m G in
  let* gm := moralise_graph (mg G) in
  let '(m, Gm) := m_new_graph m gm in
  let* gi := add_interface_edges iface (mg Gm) in
  let '(m, Gi) := m_new_graph m gi in
  let* m := m_free_graph m Gm in
  let* _ := use_graph m Gi in
  let* gu := make_graph_undirected (mg Gi) in
  let '(m, Gu) := m_new_graph m gu in
  let* m := m_free_graph m Gi in
  let* (m, array, cs, ptrs, Gu) := m_triangulate_graph k1 k2 card variable m Gu in
  let* (m, jt, e) := m_create_sepsets card m (mkJT cs []) ptrs (length cs) in
  let* m := m_free_graph m Gu in
  Ok (m, array, ptrs, jt, e).
