(** * The memory of building a join tree (Property C91) *)
From Verif Require Import Base VariableModel JoinTreeModel GraphModel GraphSpec MemoryModel MemorySpec MemoryModel3 MemorySpec3 MemoryProofs25.
Import ListNotations.
Open Scope nat_scope.
Local Open Scope res_scope.

(** C91.  After any program that makes variables and cliques, a graph of existing
    variables is built, its join tree is computed, and the graph is freed
    ([join_tree]).  No memory that is not allocated is used.  The tree in memory
    is the one of C25 to C28: it is what creating its cliques and connecting them
    makes, and each clique points to its neighbours.  Every further program runs
    as if the tree had been made so: in particular freeing all cliques and
    variables.  What is left at the end, once the array of the cliques is freed
    too, are the sepsets of the pairs in [leak], 11 or 12 blocks each.  They are
    between cliques that are no neighbours. *)
Theorem C91_join_tree_memory : forall k1 k2 card iface calls w nodes arcs, meanings nothing calls = Some w ->
  NoDup nodes -> nodes <> [] -> (forall v, In v nodes -> exists_var w v = true) ->
  (forall u v, In (u, v) arcs -> In u nodes /\ In v nodes /\ u <> v) -> (forall v, 0 < card v) ->
  (Z.of_nat (length nodes * (length nodes - 1)) <= INT_MAX)%Z ->
  forall g jt e, graph_from nodes arcs = Ok (g, NO_ERROR) -> graph_to_cliques k1 k2 card iface g = Ok (jt, e) ->
  exists st m vs cl array w' leak, run_calls start calls = Ok st /\
    join_tree k1 k2 card iface st nodes arcs = Ok (m, vs, cl, array, jt, e) /\
    meanings w (tree_calls (length (w_cliques w)) jt) = Some w' /\
    (forall a mem nb, clique_of w' a = Some (mem, nb) -> has_neighbours m (nth a cl 0) (map (fun b => nth b cl 0) nb)) /\
    leaked jt leak /\
    forall more w2, meanings w' more = Some w2 ->
      exists m2 vs2 cl2 m3, run_calls (m, vs, cl) more = Ok (m2, vs2, cl2) /\ free m2 (Some array) = Ok m3 /\
        (nothing_left w2 -> 11 * length leak <= live m3 <= 12 * length leak).
Proof. exact C91_lemma. Qed.
Print Assumptions C91_join_tree_memory.

(** In particular nothing is left if cliques that are no neighbours always share
    fewer variables than any sepset has. *)
Theorem C91_nothing_left : forall k1 k2 card iface calls w nodes arcs, meanings nothing calls = Some w ->
  NoDup nodes -> nodes <> [] -> (forall v, In v nodes -> exists_var w v = true) ->
  (forall u v, In (u, v) arcs -> In u nodes /\ In v nodes /\ u <> v) -> (forall v, 0 < card v) ->
  (Z.of_nat (length nodes * (length nodes - 1)) <= INT_MAX)%Z ->
  forall g jt e, graph_from nodes arcs = Ok (g, NO_ERROR) -> graph_to_cliques k1 k2 card iface g = Ok (jt, e) ->
  (forall a b s, a < b < length (cls jt) -> In s (sps jt) -> neighbouring jt a b \/ shared jt a b < length (s_vars s)) ->
  exists st m vs cl array w', run_calls start calls = Ok st /\
    join_tree k1 k2 card iface st nodes arcs = Ok (m, vs, cl, array, jt, e) /\
    meanings w (tree_calls (length (w_cliques w)) jt) = Some w' /\
    forall more w2, meanings w' more = Some w2 -> nothing_left w2 ->
      exists m2 vs2 cl2 m3, run_calls (m, vs, cl) more = Ok (m2, vs2, cl2) /\ free m2 (Some array) = Ok m3 /\ all_free m3.
Proof. exact C91_kept_lemma. Qed.
Print Assumptions C91_nothing_left.

(** A network of six variables.  Three cliques share the variables 0 and 1, the
    fourth shares only 0 with them. *)
Definition six_calls : list call := map (fun k => NewVariable (3 + k) (Some 2) [4; 4]) (seq 0 6).
Definition six_nodes : list nat := [0; 1; 2; 3; 4; 5].
Definition six_arcs : list (nat * nat) := [(0, 1); (0, 2); (1, 2); (0, 3); (1, 3); (0, 4); (1, 4); (0, 5)].
Definition two_states (v : nat) : nat := 2.
Definition six_parents (v : nat) : list nat := map fst (filter (fun a => Nat.eqb (snd a) v) six_arcs).
Definition six_graph : res (graph * code) := graph_from six_nodes six_arcs.
Definition six_tree : res (jtree * code) :=
  let* (g, _) := six_graph in
  graph_to_cliques (cluster_primary_cost six_parents) (cluster_secondary_cost two_states) two_states (fun _ => 0) g.
Definition free_all (cliques variables : nat) : list call :=
  map FreeClique (seq 0 cliques) ++ map FreeVariable (seq 0 variables).

(** What is allocated after building a join tree, freeing it and the array. *)
Definition left_over (k1 k2 : list nat -> Z) (card : nat -> nat) (calls : list call) (nodes : list nat)
  (arcs : list (nat * nat)) (more : list call) : res nat :=
  let* st := run_calls start calls in
  let* (m, vs, cl, array, _, _) := join_tree k1 k2 card (fun _ => 0) st nodes arcs in
  let* (m, _, _) := run_calls (m, vs, cl) more in
  let* m := free m (Some array) in
  Ok (live m).

(** That nothing is left of building and freeing a join tree is false: a sepset
    between two of the three cliques is lost. *)
Theorem C91_everything_freed_refuted : exists w jt w' w2,
  meanings nothing six_calls = Some w /\ (forall v, In v six_nodes -> exists_var w v = true) /\ NoDup six_nodes /\
  six_tree = Ok (jt, NO_ERROR) /\ meanings w (tree_calls 0 jt) = Some w' /\
  meanings w' (free_all 4 6) = Some w2 /\ nothing_left w2 /\
  left_over (cluster_primary_cost six_parents) (cluster_secondary_cost two_states) two_states six_calls six_nodes six_arcs (free_all 4 6) = Ok 12.
Proof.
  eexists. eexists. eexists. eexists. split; [vm_compute; reflexivity|].
  split; [intros v Hv; cbn in Hv; repeat destruct Hv as [<-|Hv]; [..|destruct Hv]; reflexivity|].
  split; [repeat constructor; cbn; intuition discriminate|].
  split; [vm_compute; reflexivity|]. split; [vm_compute; reflexivity|]. split; [vm_compute; reflexivity|].
  split; [|vm_compute; reflexivity].
  split; intros k; do 6 (destruct k as [|k]; [reflexivity|]); destruct k; reflexivity.
Qed.
Print Assumptions C91_everything_freed_refuted.

(** The network meets the hypotheses; its cliques and sepsets. *)
Example C91_case : exists w g jt, meanings nothing six_calls = Some w /\ NoDup six_nodes /\
  (forall v, In v six_nodes -> exists_var w v = true) /\
  (forall u v, In (u, v) six_arcs -> In u six_nodes /\ In v six_nodes /\ u <> v) /\
  (Z.of_nat (length six_nodes * (length six_nodes - 1)) <= INT_MAX)%Z /\
  graph_from six_nodes six_arcs = Ok (g, NO_ERROR) /\
  graph_to_cliques (cluster_primary_cost six_parents) (cluster_secondary_cost two_states) two_states (fun _ => 0) g = Ok (jt, NO_ERROR) /\
  map c_vars (cls jt) = [[0; 5]; [0; 1; 3]; [0; 1; 4]; [0; 1; 2]] /\
  map (fun s => (s_first s, s_second s, s_vars s)) (sps jt) = [(1, 2, [0; 1]); (1, 3, [0; 1]); (0, 2, [0])].
Proof.
  eexists. eexists. eexists. split; [vm_compute; reflexivity|]. split; [repeat constructor; cbn; intuition discriminate|].
  split; [intros v Hv; cbn in Hv; repeat destruct Hv as [<-|Hv]; [..|destruct Hv]; reflexivity|].
  split; [intros u v Q; cbn in Q; repeat destruct Q as [Q|Q]; try contradiction Q; injection Q as <- <-; cbn; intuition discriminate|].
  split; [cbn; unfold INT_MAX; lia|]. split; [vm_compute; reflexivity|]. split; [vm_compute; reflexivity|].
  split; vm_compute; reflexivity.
Qed.

(** A chain: nothing is left. *)
Definition chain_arcs : list (nat * nat) := [(0, 1); (1, 2); (2, 3)].
Example C91_case_chain : exists g jt, graph_from [0; 1; 2; 3] chain_arcs = Ok (g, NO_ERROR) /\
  graph_to_cliques (cluster_primary_cost (fun v => v - 1 :: nil)) (cluster_secondary_cost two_states) two_states (fun _ => 0) g = Ok (jt, NO_ERROR) /\
  length (cls jt) = 3 /\
  (forall a b s, a < b < length (cls jt) -> In s (sps jt) -> neighbouring jt a b \/ shared jt a b < length (s_vars s)) /\
  left_over (cluster_primary_cost (fun v => v - 1 :: nil)) (cluster_secondary_cost two_states) two_states six_calls [0; 1; 2; 3] chain_arcs (free_all 3 6) = Ok 0.
Proof.
  eexists. eexists. split; [vm_compute; reflexivity|]. split; [vm_compute; reflexivity|]. split; [reflexivity|].
  split; [|vm_compute; reflexivity].
  intros a b s AB Hs. cbn in AB. assert (C : a = 0 /\ b = 1 \/ a = 0 /\ b = 2 \/ a = 1 /\ b = 2) by lia.
  cbn in Hs. repeat destruct Hs as [<-|Hs]; try destruct Hs.
  all: destruct C as [(-> & ->)|[(-> & ->)|(-> & ->)]]; first [right; vm_compute; lia|left; eexists; split; [left; reflexivity|split; reflexivity]|left; eexists; split; [right; left; reflexivity|split; reflexivity]].
Qed.
