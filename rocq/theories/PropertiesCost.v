(** * Property C98: the costs of clusters are numbers of type int (src/nipgraph.c)

    [fits card c] (GraphSpec.v): the product of the cardinalities of [c] is a value of
    type int.  [joined] (GraphSpec.v): joined in the graph that is triangulated.
    [graph_to_cliques_int]: nip_graph_to_cliques with the arithmetic of int, where an
    overflow is undefined; [graph_to_cliques]: the same with exact costs. *)
From Verif Require Import Base PotentialModel JoinTreeModel GraphModel GraphSpec GraphProofs GraphCheck CostModel CostProofs CostProofs2.
Import ListNotations.
Open Scope nat_scope.

(** The cost of a cluster is its number of configurations, and undefined if that is no
    value of type int. *)
Theorem C98_cost : forall card c, (forall v, 0 < card v) ->
  (fits card c -> secondary_cost card c = Ok (Z.of_nat (prod (map card c)))) /\
  (~ fits card c -> secondary_cost card c = UB).
Proof. exact cost_lemma. Qed.
Print Assumptions C98_cost.

(** A result is that of exact costs. *)
Theorem C98_exact : forall parents card iface g r,
  graph_to_cliques_int parents card iface g = Ok r ->
  graph_to_cliques (cluster_primary_cost parents) (cluster_secondary_cost card) card iface g = Ok r.
Proof. exact cliques_below. Qed.
Print Assumptions C98_exact.

(** There is one if all the variables together fit. *)
Theorem C98_no_overflow : forall parents card iface g vs, graph_ok g vs -> vs <> [] -> (forall v, ~ arc g v v) ->
  (forall v, 0 < card v) -> fits card vs -> (Z.of_nat (length vs * (length vs - 1)) <= INT_MAX)%Z ->
  exists jt e, graph_to_cliques_int parents card iface g = Ok (jt, e).
Proof. exact int_succeeds. Qed.
Print Assumptions C98_no_overflow.

(** There is none if some variable and all those joined to it do not fit, however
    small the cliques may be. *)
Theorem C98_overflow : forall parents card iface g vs, graph_ok g vs -> (forall v, ~ arc g v v) ->
  (forall v, 0 < card v) ->
  forall v l, In v vs -> NoDup l -> (forall u, In u l <-> In u vs /\ (u = v \/ joined iface g v u)) ->
  ~ fits card l -> graph_to_cliques_int parents card iface g = UB.
Proof. exact overflow. Qed.
Print Assumptions C98_overflow.

Example C98_case :
  graph_to_cliques_int gx_parents gx_card gx_iface gx_graph = Ok (gx_jt, NO_ERROR) /\
  fits gx_card gx_vars.
Proof. exact case_ok. Qed.

(** The claim that small tables are enough is refuted by every variable with two
    values and thirty or more children with two values: no table of the network has
    more than four entries. *)
Theorem C98_small_tables_refuted : forall n, 30 <= n -> exists g,
  graph_from (seq 0 (S n)) (map (fun i => (0, i)) (seq 1 n)) = Ok (g, NO_ERROR) /\
  graph_ok g (seq 0 (S n)) /\ (forall u v, arc g u v <-> u = 0 /\ 1 <= v <= n) /\
  forall parents iface, graph_to_cliques_int parents (fun _ => 2) iface g = UB.
Proof. exact star_overflow. Qed.
Print Assumptions C98_small_tables_refuted.

(** Nor are small cliques: a variable with two values and eight children with sixteen.
    With exact costs there are eight cliques of two variables, hence of 32 entries. *)
Theorem C98_small_cliques_refuted : exists jt,
  graph_to_cliques (cluster_primary_cost few_parents) (cluster_secondary_cost few_card) few_card (fun _ => 0) few_graph
    = Ok (jt, NO_ERROR) /\
  length (cls jt) = 8 /\ (forall c, In c (cls jt) -> length (c_vars c) = 2 /\ prod (map few_card (c_vars c)) = 32) /\
  graph_to_cliques_int few_parents few_card (fun _ => 0) few_graph = UB.
Proof. exact few_overflow. Qed.
Print Assumptions C98_small_cliques_refuted.
