(** * Properties C22-C28, C52 and C60: from a graph to a join tree (src/nipgraph.c)

    The specification is in GraphSpec.v.  [graph_ok g vs]: a graph whose nodes
    are the variables [vs], in that order; [arc g u v]: the arc from [u] to [v]
    is set; [joined iface g u v]: an arc in some direction, a common child, or
    both in the outgoing interface, or both in the old outgoing interface.
    [k1] and [k2] are the costs in the heap of clusters: the theorems hold for
    all, hence for every order of elimination.  [is_tree],
    [running_intersection] and [shape_ok] are in JoinTreeSpec.v. *)
From Coq Require Import Permutation.
From Verif Require Import Base PotentialModel PotentialSpec VariableModel HeapModel JoinTreeModel
  AssignSpec JoinTreeSpec NipModel NipSpec GraphModel GraphSpec GraphProofs GraphProofs2 GraphProofs7
  GraphProofs8 GraphCheck.
Import ListNotations.
Open Scope nat_scope.
Local Open Scope res_scope.

(** C60.  A graph made from nodes and arcs has exactly these. *)
Theorem C60_graph_construction : forall vs arcs, NoDup vs ->
  (forall u v, In (u, v) arcs -> In u vs /\ In v vs) ->
  exists g, graph_from vs arcs = Ok (g, NO_ERROR) /\ graph_ok g vs /\
    forall u v, arc g u v <-> In (u, v) arcs.
Proof. exact graph_from_ok. Qed.
Print Assumptions C60_graph_construction.

(** C22. *)
Theorem C22_moral_graph : forall g vs, graph_ok g vs ->
  exists gm, moralise_graph g = Ok gm /\ graph_ok gm vs /\
    forall u v, arc gm u v <->
      arc g u v \/ (u <> v /\ exists w, arc g u w /\ arc g v w).
Proof. exact C22_lemma. Qed.
Print Assumptions C22_moral_graph.

(** C23. *)
Theorem C23_interface_edges : forall iface g vs, graph_ok g vs ->
  exists gi, add_interface_edges iface g = Ok gi /\ graph_ok gi vs /\
    forall u v, arc gi u v <->
      arc g u v \/
      (In u vs /\ In v vs /\ u <> v /\
       ((flag_old_outgoing (iface u) = true /\ flag_old_outgoing (iface v) = true) \/
        (flag_outgoing (iface u) = true /\ flag_outgoing (iface v) = true))).
Proof. exact C23_lemma. Qed.
Print Assumptions C23_interface_edges.

(** C24. *)
Theorem C24_undirected : forall g vs, graph_ok g vs ->
  exists gu, make_graph_undirected g = Ok gu /\ graph_ok gu vs /\
    forall u v, arc gu u v <-> arc g u v \/ arc g v u.
Proof. exact C24_lemma. Qed.
Print Assumptions C24_undirected.

(** C25.  Every family, every pair with an arc and both interfaces are inside
    some clique, and there is nothing but the nodes in the cliques. *)
Theorem C25_cliques_cover : forall k1 k2 card iface g vs, graph_ok g vs -> vs <> [] ->
  (forall v, ~ arc g v v) -> (forall v, 0 < card v) ->
  (Z.of_nat (length vs * (length vs - 1)) <= INT_MAX)%Z ->
  forall jt e, graph_to_cliques k1 k2 card iface g = Ok (jt, e) ->
  (forall v, In v vs -> exists i, i < length (cls jt) /\ In v (c_vars (clq jt i)) /\
     forall u, arc g u v -> In u (c_vars (clq jt i))) /\
  (exists i, i < length (cls jt) /\ forall v, In v vs -> flag_outgoing (iface v) = true ->
     In v (c_vars (clq jt i))) /\
  (exists i, i < length (cls jt) /\ forall v, In v vs -> flag_old_outgoing (iface v) = true ->
     In v (c_vars (clq jt i))) /\
  (forall u v, arc g u v -> exists i, i < length (cls jt) /\
     In u (c_vars (clq jt i)) /\ In v (c_vars (clq jt i))) /\
  (forall i v, i < length (cls jt) -> In v (c_vars (clq jt i)) -> In v vs).
Proof. exact C25_lemma. Qed.
Print Assumptions C25_cliques_cover.

(** nip_find_clique finds any set of mutually joined variables ... *)
Theorem C25_find_clique : forall k1 k2 card iface g vs, graph_ok g vs -> vs <> [] ->
  (forall v, ~ arc g v v) -> (forall v, 0 < card v) ->
  (Z.of_nat (length vs * (length vs - 1)) <= INT_MAX)%Z ->
  forall jt e S, graph_to_cliques k1 k2 card iface g = Ok (jt, e) -> incl S vs ->
  (forall u v, In u S -> In v S -> u <> v -> joined iface g u v) ->
  exists i, find_clique jt S (length S) = Ok (Some i) /\ i < length (cls jt) /\
    incl S (c_vars (clq jt i)).
Proof. exact C25_find_lemma. Qed.
Print Assumptions C25_find_clique.

(** ... and nip_find_family the family of every variable. *)
Theorem C25_find_family : forall k1 k2 card iface g vs, graph_ok g vs -> vs <> [] ->
  (forall v, ~ arc g v v) -> (forall v, 0 < card v) ->
  (Z.of_nat (length vs * (length vs - 1)) <= INT_MAX)%Z ->
  forall m e v, graph_to_cliques k1 k2 card iface g = Ok (m_jt m, e) ->
  In v vs -> v < length (m_vars m) -> (forall u, In u (v_parents (var m v)) -> arc g u v) ->
  v_family (var m v) = None ->
  exists m' i, find_family m v = Ok (m', Some i) /\ i < length (cls (m_jt m)) /\
    In v (c_vars (clq (m_jt m) i)) /\ incl (v_parents (var m v)) (c_vars (clq (m_jt m) i)).
Proof. exact C25_family_lemma. Qed.
Print Assumptions C25_find_family.

(** The construction succeeds if the tables over the complete sets of the
    triangulated graph can be addressed with an int. *)
Theorem C25_construction_succeeds : forall k1 k2 card iface g vs, graph_ok g vs -> vs <> [] ->
  (forall v, ~ arc g v v) -> (forall v, 0 < card v) ->
  (Z.of_nat (length vs * (length vs - 1)) <= INT_MAX)%Z ->
  (forall gt c, triangulated k1 k2 iface g = Ok gt -> NoDup c -> incl c vs -> complete gt c ->
     fits card c) ->
  exists jt e, graph_to_cliques k1 k2 card iface g = Ok (jt, e).
Proof. exact succeeds_lemma. Qed.
Print Assumptions C25_construction_succeeds.

(** C26.  The triangulated graph contains the joined pairs, has no cycle of
    four or more without a chord, and the cliques are its maximal complete
    sets, none of them twice. *)
Theorem C26_cliques_maximal : forall k1 k2 card iface g vs, graph_ok g vs -> vs <> [] ->
  (forall v, ~ arc g v v) -> (forall v, 0 < card v) ->
  (Z.of_nat (length vs * (length vs - 1)) <= INT_MAX)%Z ->
  exists gt, triangulated k1 k2 iface g = Ok gt /\
  (forall u v, In u vs -> In v vs -> u <> v -> joined iface g u v -> arc gt u v) /\
  (forall u v, arc gt u v -> arc gt v u) /\
  (forall n c, 4 <= n -> (forall i, i < n -> In (c i) vs) ->
     (forall i j, i < n -> j < n -> c i = c j -> i = j) ->
     (forall i, i < n -> arc gt (c i) (c ((i + 1) mod n))) ->
     exists i, i < n /\ arc gt (c i) (c ((i + 2) mod n))) /\
  forall jt e, graph_to_cliques k1 k2 card iface g = Ok (jt, e) ->
    (forall i, i < length (cls jt) -> complete gt (c_vars (clq jt i))) /\
    (forall S, S <> [] -> incl S vs -> complete gt S ->
         exists i, i < length (cls jt) /\ incl S (c_vars (clq jt i))) /\
    (forall i j, i < length (cls jt) -> j < length (cls jt) ->
         incl (c_vars (clq jt i)) (c_vars (clq jt j)) -> i = j).
Proof. exact C26_lemma. Qed.
Print Assumptions C26_cliques_maximal.

(** C27.  For all arrays of cliques: one sepset fewer than cliques, a tree, and
    on every sepset exactly the variables common to its ends.  (A single
    clique is reported as an error although the tree is complete: an empty
    heap is taken for a failure.) *)
Theorem C27_sepsets_tree : forall card Ks cs, (forall v, 0 < card v) -> Ks <> [] ->
  (forall k, In k Ks -> k <> [] /\ NoDup k) -> make_cliques card Ks = Ok cs ->
  (Z.of_nat (length cs * (length cs - 1)) <= INT_MAX)%Z ->
  exists jt e, create_sepsets card (mkJT cs []) (length cs) = Ok (jt, e) /\
    (e = NO_ERROR \/ (e = ENOMEM /\ length cs = 1)) /\
    length (sps jt) = length cs - 1 /\ is_tree jt /\ shape_ok card jt /\
    length (cls jt) = length cs /\
    (forall i, i < length cs -> Permutation (c_vars (clq jt i)) (nth i Ks [])) /\
    (forall s v, s < length (sps jt) -> (In v (s_vars (sep jt s)) <->
       In v (c_vars (clq jt (s_first (sep jt s)))) /\ In v (c_vars (clq jt (s_second (sep jt s)))))).
Proof. exact C27_lemma. Qed.
Print Assumptions C27_sepsets_tree.

(** The report for a single clique. *)
Theorem C27_single_clique_reported : forall card c,
  create_sepsets card (mkJT [c] []) 1 = Ok (mkJT [c] [], ENOMEM).
Proof. exact single_clique. Qed.
Print Assumptions C27_single_clique_reported.

(** C28. *)
Theorem C28_running_intersection : forall k1 k2 card iface g vs, graph_ok g vs -> vs <> [] ->
  (forall v, ~ arc g v v) -> (forall v, 0 < card v) ->
  (Z.of_nat (length vs * (length vs - 1)) <= INT_MAX)%Z ->
  forall jt e, graph_to_cliques k1 k2 card iface g = Ok (jt, e) ->
  running_intersection jt /\
  forall v i j l, i < length (cls jt) -> j < length (cls jt) -> path jt i l j ->
    In v (c_vars (clq jt i)) -> In v (c_vars (clq jt j)) ->
    forall s k, In (s, k) l -> In v (s_vars (sep jt s)) /\ In v (c_vars (clq jt k)).
Proof. exact C28_lemma. Qed.
Print Assumptions C28_running_intersection.

(** The tree that is built is fit for propagation: right shape, a tree, all
    tables filled with ones. *)
Theorem C28_built_tree : forall k1 k2 card iface g vs, graph_ok g vs -> vs <> [] ->
  (forall v, ~ arc g v v) -> (forall v, 0 < card v) ->
  (Z.of_nat (length vs * (length vs - 1)) <= INT_MAX)%Z ->
  forall jt e, graph_to_cliques k1 k2 card iface g = Ok (jt, e) ->
  (e = NO_ERROR \/ (e = ENOMEM /\ length (cls jt) = 1)) /\
  shape_ok card jt /\ is_tree jt /\ running_intersection jt /\
  length (sps jt) = length (cls jt) - 1 /\ 0 < length (cls jt) <= length vs /\
  (forall i, i < length (cls jt) -> all_ones (c_p (clq jt i)) /\ all_ones (c_orig (clq jt i))) /\
  (forall s, s < length (sps jt) -> all_ones (s_old (sep jt s)) /\ all_ones (s_new (sep jt s))).
Proof. exact built_lemma. Qed.
Print Assumptions C28_built_tree.

(** C52. *)
Theorem C52_contains_subset : forall n set l, n <= length set ->
  (forall x, In x l -> n <= length x) ->
  exists b, contains_subset l set n = Ok b /\
    (b = true <-> exists x, In x l /\
       forall i, i < n -> nth i set false = true -> nth i x false = true).
Proof. exact contains_subset_ok. Qed.
Print Assumptions C52_contains_subset.

(** ** Cases

    [gx_graph] of GraphCheck.v: seven variables, a cycle of five, interfaces. *)
Example C22_case : graph_ok gx_graph gx_vars.
Proof. exact gx_ok. Qed.
(** 3 and 2 are parents of 5, and not joined before. *)
Example C22_case_married : exists gm, moralise_graph gx_graph = Ok gm /\
  adjm gx_graph 0 5 = Ok false /\ adjm gx_graph 5 0 = Ok false /\
  adjm gm 0 5 = Ok true /\ adjm gm 5 0 = Ok true.
Proof. eexists. repeat (split; [vm_compute; reflexivity|]). vm_compute. reflexivity. Qed.

Example C25_case : graph_ok gx_graph gx_vars /\ gx_vars <> [] /\ (forall v, ~ arc gx_graph v v) /\
  (forall v, 0 < gx_card v) /\ (Z.of_nat (length gx_vars * (length gx_vars - 1)) <= INT_MAX)%Z /\
  graph_to_cliques gx_k1 gx_k2 gx_card gx_iface gx_graph = Ok (gx_jt, NO_ERROR).
Proof.
  split; [exact gx_ok|]. split; [discriminate|]. split; [exact gx_irrefl|].
  split; [exact gx_card_pos|]. split; [cbn; unfold INT_MAX; lia|exact gx_result].
Qed.
(** The cycle 0, 1, 3, 5, 2 has got the chords 1-2 and 2-3; the tree is a
    chain. *)
Example C26_case : map c_vars (cls gx_jt) = [[0; 1; 2]; [4; 5; 6]; [1; 2; 3]; [2; 3; 5]].
Proof. vm_compute. reflexivity. Qed.
Example C28_case : map (fun s => (s_first s, s_second s, s_vars s)) (sps gx_jt) =
  [(0, 2, [1; 2]); (2, 3, [2; 3]); (1, 3, [5])].
Proof. vm_compute. reflexivity. Qed.

(** Cliques in an order in which neither the first nor the last pair is
    adjacent in the tree, one of them without common variables. *)
Example C27_case : exists cs jt, make_cliques gx_card [[1; 0]; [3; 4]; [7]; [1; 2]; [2; 3]] = Ok cs /\
  create_sepsets gx_card (mkJT cs []) 5 = Ok (jt, NO_ERROR) /\
  length (sps jt) = 4.
Proof. eexists. eexists. repeat (split; [vm_compute; reflexivity|]). vm_compute. reflexivity. Qed.

Example C52_case : contains_subset [[true; false; true]; [false; true; true]] [false; true; false] 3 = Ok true /\
  contains_subset [[true; false; true]; [false; true; true]] [true; true; false] 3 = Ok false.
Proof. split; vm_compute; reflexivity. Qed.

Example C60_case : NoDup gx_vars /\ forall u v, In (u, v) gx_arcs -> In u gx_vars /\ In v gx_vars.
Proof. exact gx_pre. Qed.
