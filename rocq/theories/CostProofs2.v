(** * Proofs about triangulation with the arithmetic of int *)
From Coq Require Import Permutation.
From Verif Require Import Base BaseProofs PotentialModel VariableModel VariableProofs HeapModel HeapSpec HeapProofs HeapProofs2
  JoinTreeModel GraphModel GraphSpec GraphProofs GraphTheory GraphTheory2 GraphProofs2 GraphProofs3 GraphProofs7 GraphProofs8 GraphCheck GatherProofs2 LearnProofs5 CostModel CostProofs.
Import ListNotations.
Open Scope nat_scope.
Local Open Scope res_scope.

(** ** Without an overflow the result is that of exact arithmetic *)
Definition below {A} (a b : res A) : Prop := forall x, a = Ok x -> b = Ok x.
Lemma below_refl : forall A (a : res A), below a a.
Proof. intros A a x H. exact H. Qed.
Lemma below_bind : forall A B (a b : res A) (f g : A -> res B), below a b -> (forall x, below (f x) (g x)) ->
  below (bind a f) (bind b g).
Proof.
  intros A B a b f g H G x E. destruct a as [y| |]; cbn [bind] in E; try discriminate.
  rewrite (H y eq_refl). cbn [bind]. apply G, E.
Qed.
Lemma below_ub : forall A (b : res A), below UB b.
Proof. intros A b x H. discriminate H. Qed.
Lemma below_for : forall S (f g : nat -> S -> res S) lo hi s, (forall i s, below (f i s) (g i s)) ->
  below (for_up lo hi f s) (for_up lo hi g s).
Proof.
  intros S f g lo hi s H. unfold for_up. generalize (hi - lo). intros n. revert lo s.
  induction n as [|n IH]; intros lo s; cbn [loop_up]; [apply below_refl|]. apply below_bind; auto.
Qed.

(** Loops that agree on the states that are reached. *)
Lemma for_up_agree : forall S (I : S -> Prop) (f g : nat -> S -> res S) lo hi s, I s ->
  (forall i s, I s -> f i s = g i s /\ forall s', g i s = Ok s' -> I s') ->
  for_up lo hi f s = for_up lo hi g s /\ forall s', for_up lo hi g s = Ok s' -> I s'.
Proof.
  intros S I f g lo hi s HI H. unfold for_up. generalize (hi - lo). intros n. revert lo s HI.
  induction n as [|n IH]; intros lo s HI; cbn [loop_up].
  - split; auto. intros s' E. injection E as <-. exact HI.
  - destruct (H lo s HI) as [E1 E2]. rewrite E1. destruct (g lo s) as [s1| |] eqn:E; cbn [bind].
    + apply IH, E2. reflexivity.
    + split; [reflexivity|discriminate].
    + split; [reflexivity|discriminate].
Qed.

Section Costs.
Variable parents : nat -> list nat.
Variable card : nat -> nat.
Local Notation k1 := (cluster_primary_cost parents).
Local Notation k2 := (cluster_secondary_cost card).

Lemma insert_below : forall h c, below (insert_cluster parents card h c) (heap_insert k1 k2 true true h c).
Proof.
  intros h c x H. unfold insert_cluster in H.
  destruct (primary_cost parents c) as [a| |] eqn:E1; cbn [bind] in H; try discriminate.
  destruct (secondary_cost card c) as [b| |] eqn:E2; cbn [bind] in H; try discriminate.
  apply primary_val in E1. apply secondary_val in E2. subst. exact H.
Qed.

Lemma set_shape : forall h i c, set_heap_item k1 k2 h (Z.of_nat i) c (Nat.ltb 0 (length c)) =
  if (negb (Nat.ltb i (h_size h)) || negb (Nat.ltb 0 (length c)))%bool then Ok (EINVAL, h)
  else set_heap_item k1 k2 h (Z.of_nat i) c true.
Proof.
  intros h i c. unfold set_heap_item.
  rewrite (proj2 (Z.ltb_ge (Z.of_nat i) 0)) by lia. cbn [orb].
  destruct (Nat.ltb_spec i (h_size h)).
  - rewrite (proj2 (Z.leb_gt _ _)) by lia. cbn [orb negb]. destruct (Nat.ltb 0 (length c)); reflexivity.
  - rewrite (proj2 (Z.leb_le _ _)) by lia. reflexivity.
Qed.

Lemma set_shape_false : forall h i c, Nat.ltb 0 (length c) = false ->
  set_heap_item k1 k2 h (Z.of_nat i) c false = Ok (EINVAL, h).
Proof.
  intros h i c L. assert (Q := set_shape h i c). rewrite L in Q. rewrite Q. cbn [negb]. now rewrite Bool.orb_true_r.
Qed.

Lemma set_below : forall h i c,
  below (set_cluster parents card h i c) (set_heap_item k1 k2 h (Z.of_nat i) c (Nat.ltb 0 (length c))).
Proof.
  intros h i c x H. rewrite set_shape. unfold set_cluster in H. destruct (_ || _)%bool; [exact H|].
  destruct (primary_cost parents c) as [a| |] eqn:E1; cbn [bind] in H; try discriminate.
  destruct (secondary_cost card c) as [b| |] eqn:E2; cbn [bind] in H; try discriminate.
  apply primary_val in E1. apply secondary_val in E2. subst. exact H.
Qed.

Lemma build_below : forall g, below (build_cluster_heap_int parents card g) (build_cluster_heap k1 k2 g).
Proof.
  intros g. unfold build_cluster_heap_int, build_cluster_heap. destruct (new_heap (g_top g)); [|apply below_refl].
  apply below_bind; [|intros [h' g']; apply below_refl].
  apply below_for. intros i [h' g']. apply below_bind; [apply below_refl|]. intros [v|]; [|apply below_refl].
  apply below_bind; [apply below_refl|]. intros [[c|] g2]; [|apply below_refl].
  apply below_bind; [apply insert_below|]. intros [e h2]. apply below_refl.
Qed.

Lemma update_below : forall h c, below (update_cluster_heap_int parents card h c) (update_cluster_heap k1 k2 h c).
Proof.
  intros h c. unfold update_cluster_heap_int, update_cluster_heap.
  apply below_bind; [apply below_refl|]. intros r. apply below_bind; [|intros; apply below_refl].
  apply below_for. intros i h'. apply below_bind; [apply below_refl|]. intros v.
  apply below_bind; [apply below_refl|]. intros [ix|]; [|apply below_refl].
  apply below_bind; [apply below_refl|]. intros [old|]; [|apply below_refl].
  apply below_bind; [apply below_refl|]. intros [[new|] ns]; [|apply below_refl].
  apply below_bind; [apply below_refl|]. intros x. apply below_bind; [apply below_refl|]. intros y.
  destruct (negb (Nat.eqb x y)); [apply below_refl|]. apply below_bind; [apply below_refl|]. intros nw.
  apply below_bind; [apply set_below|]. intros [e h2]. apply below_refl.
Qed.

Lemma eliminate_below : forall n h g, below (eliminate_int parents card n h g) (eliminate k1 k2 n h g).
Proof.
  intros n h g. unfold eliminate_int, eliminate. apply below_bind; [|intros [[h' g'] cl]; apply below_refl].
  apply below_for. intros i [[h' g'] cl]. apply below_bind; [apply below_refl|].
  intros [[c|] h2]; [|apply below_refl]. apply below_bind; [apply below_refl|]. intros [g2 set].
  apply below_bind; [apply update_below|]. intros h3. apply below_refl.
Qed.

Lemma triangulate_below : forall g, below (triangulate_graph_int parents card g) (triangulate_graph k1 k2 card g).
Proof.
  intros g. unfold triangulate_graph_int, triangulate_graph. apply below_bind; [apply build_below|].
  intros [[h|] g']; [|apply below_refl]. apply below_bind; [apply eliminate_below|]. intros [cl g2]. apply below_refl.
Qed.

Lemma cliques_below : forall iface g,
  below (graph_to_cliques_int parents card iface g) (graph_to_cliques k1 k2 card iface g).
Proof.
  intros iface g. unfold graph_to_cliques_int, graph_to_cliques.
  apply below_bind; [apply below_refl|]. intros gm. apply below_bind; [apply below_refl|]. intros gi.
  apply below_bind; [apply below_refl|]. intros gu. apply below_bind; [apply triangulate_below|].
  intros [cs g']. apply below_refl.
Qed.

(** ** If all variables together fit, there is no overflow *)
Variable vs : list nat.
Hypothesis HV : NoDup vs.
Hypothesis HC : forall v, 0 < card v.
Hypothesis HF : fits card vs.
Hypothesis HP : (Z.of_nat (length vs * (length vs - 1)) <= INT_MAX)%Z.

Definition inside (c : list nat) : Prop := NoDup c /\ incl c vs.

Lemma inside_costs : forall c, inside c -> primary_cost parents c = Ok (k1 c) /\ secondary_cost card c = Ok (k2 c).
Proof.
  intros c [N I]. split.
  - apply primary_ok. assert (L := NoDup_incl_length N I). assert (M := pairs_of_mono _ _ L).
    assert (B := pairs_of_bound (length vs)). lia.
  - apply secondary_ok; auto. unfold fits in *. assert (Q := prod_incl card c vs HC N HV I). lia.
Qed.

Lemma insert_agree : forall h c, inside c -> insert_cluster parents card h c = heap_insert k1 k2 true true h c.
Proof.
  intros h c I. destruct (inside_costs c I) as [E1 E2]. unfold insert_cluster. rewrite E1. cbn [bind]. rewrite E2. reflexivity.
Qed.
Lemma set_agree : forall h i c, inside c ->
  set_cluster parents card h i c = set_heap_item k1 k2 h (Z.of_nat i) c (Nat.ltb 0 (length c)).
Proof.
  intros h i c I. rewrite set_shape. unfold set_cluster. destruct (_ || _)%bool; [reflexivity|].
  destruct (inside_costs c I) as [E1 E2]. rewrite E1. cbn [bind]. rewrite E2. reflexivity.
Qed.

(** A heap of clusters inside. *)
Definition good (h : heap (list nat)) : Prop :=
  exists M, stores k1 k2 h M /\ h_heapified h = true /\ Forall inside M.

Lemma Forall_set_nth : forall A (P : A -> Prop) l i x, Forall P l -> P x -> Forall P (set_nth l i x).
Proof. intros A P l. induction l as [|y l IH]; intros [|i] x H X; cbn; auto; inversion H; subst; constructor; auto. Qed.

Lemma rebuilt_good : forall h, good h -> exists h', build_min_heap h = Ok h' /\ good h'.
Proof.
  intros h (M & S1 & H1 & F1). destruct (rebuild_heap_any k1 k2 h M S1 H1) as (h' & M' & E & S2 & P2 & H2 & _).
  exists h'. split; auto. exists M'. split; auto. split; auto. eapply Permutation_Forall; [apply Permutation_sym, P2|exact F1].
Qed.

Lemma update_agree : forall h c, good h -> inside c ->
  update_cluster_heap_int parents card h c = update_cluster_heap k1 k2 h c /\
  forall h', update_cluster_heap k1 k2 h c = Ok h' -> good h'.
Proof.
  intros h c HG [NC IC]. unfold update_cluster_heap_int, update_cluster_heap.
  destruct (rd c 0) as [r| |]; cbn [bind]; [|split; [reflexivity|discriminate]..].
  match goal with |- context [for_up 1 (length c) ?f0 h] =>
    match goal with |- context [bind (for_up 1 (length c) f0 h) _ = bind (for_up 1 (length c) ?g0 h) _] =>
      destruct (for_up_agree (heap (list nat)) good f0 g0 1 (length c) h HG) as [A1 A2] end end.
  - intros i h1 (M & S1 & H1 & F1).
    destruct (rd c i) as [v| |] eqn:Ev; cbn [bind]; [|split; [reflexivity|discriminate]..].
    destruct (search_heap_item h1 (family_cluster v)) as [[ix|]| |]; cbn [bind]; [|split; [reflexivity|discriminate]..].
    destruct (Nat.ltb_spec ix (length M)) as [Hix|Hix].
    2:{ assert (E : get_heap_item h1 (Z.of_nat ix) = Ok None).
        { unfold get_heap_item. destruct S1 as (Q & _). rewrite Q.
          rewrite (proj2 (Z.leb_le (Z.of_nat (length M)) _)) by lia. now rewrite Bool.orb_true_r. }
        rewrite E. cbn [bind]. split; [reflexivity|discriminate]. }
    rewrite (get_item_ok k1 k2 h1 M ix [] S1 Hix). cbn [bind].
    assert (IO : inside (nth ix M [])) by (rewrite Forall_forall in F1; apply F1, nth_In; auto).
    remember (nth ix M []) as old eqn:Eo. destruct IO as [NO IO].
    assert (LC : 0 < length c) by (destruct c; [destruct i; discriminate Ev|cbn; lia]).
    assert (U : variable_union (arr old) (arr c) (length old) (length c)
                = Ok (Some (old ++ new_in old c), Z.of_nat (length (old ++ new_in old c)))).
    { rewrite <- (union_ok old c); auto; [|lia]. destruct c; [cbn in LC; lia|]. destruct old; reflexivity. }
    rewrite U. cbn [bind].
    destruct (rd (old ++ new_in old c) 0) as [x| |]; cbn [bind]; [|split; [reflexivity|discriminate]..].
    destruct (rd old 0) as [y| |]; cbn [bind]; [|split; [reflexivity|discriminate]..].
    destruct (negb (Nat.eqb x y)); [split; [reflexivity|discriminate]|].
    rewrite Nat2Z.id, remove_ok. cbn [bind].
    remember (filter (fun x0 => negb (Nat.eqb r x0)) (old ++ new_in old c)) as new eqn:En.
    assert (IN : inside new).
    { subst new. split; [apply NoDup_filter, union_nodup; auto|].
      intros z Hz. apply filter_In in Hz. destruct Hz as [Hz _]. apply union_in in Hz. destruct Hz; auto. }
    rewrite (set_agree h1 ix new IN). split; [reflexivity|].
    intros h2 E. destruct (Nat.ltb 0 (length new)) eqn:Ln.
    + destruct (set_item_ok k1 k2 h1 M ix new [] S1 Hix) as (h3 & E3 & S3 & _ & H3 & _).
      rewrite E3 in E. cbn [bind] in E. injection E as <-. exists (set_nth M ix new). split; auto. split; [congruence|].
      apply Forall_set_nth; auto.
    + rewrite set_shape_false in E by exact Ln. cbn [bind] in E. injection E as <-. exists M. auto.
  - rewrite A1. match type of A1 with _ = ?F => remember F as r1 eqn:E1 end. clear A1 E1.
    destruct r1 as [h1| |]; cbn [bind]; [|split; [reflexivity|discriminate]..].
    split; [reflexivity|]. intros h' E. destruct (rebuilt_good h1 (A2 h1 eq_refl)) as (h2 & E2 & G2). congruence.
Qed.

Lemma eliminate_agree : forall n h g, good h ->
  eliminate_int parents card n h g = eliminate k1 k2 n h g.
Proof.
  intros n h g HG. unfold eliminate_int, eliminate.
  match goal with |- bind (for_up 0 n ?f0 ?s0) _ = bind (for_up 0 n ?g0 ?s0) _ =>
    destruct (for_up_agree (heap (list nat) * graph * list (list bool)) (fun st => good (fst (fst st))) f0 g0 0 n s0 HG)
      as [A1 _] end; [|now rewrite A1].
  intros i [[h1 g1] cl] G1. cbn [fst] in G1. destruct G1 as (M & S1 & H1 & F1).
  destruct M as [|c M].
  { assert (E : heap_extract_min h1 = Ok (None, h1)) by (apply extract_empty; apply S1).
    rewrite E. cbn [bind]. split; [reflexivity|discriminate]. }
  destruct (extract_any k1 k2 h1 c M S1) as (h2 & M2 & E2 & S2 & P2 & H2 & _). rewrite E2. cbn [bind].
  match goal with |- context [bind (for_up 0 (length c) ?f0 ?s0) _] => destruct (for_up 0 (length c) f0 s0) as [[g2 set]| |] end;
    cbn [bind]; [|split; [reflexivity|discriminate]..].
  inversion F1 as [|? ? IC F2]; subst.
  assert (G2 : good h2).
  { exists M2. split; auto. split; [congruence|]. eapply Permutation_Forall; [apply Permutation_sym, P2|exact F2]. }
  destruct (update_agree h2 c G2 IC) as [U1 U2]. rewrite U1.
  destruct (update_cluster_heap k1 k2 h2 c) as [h3| |]; cbn [bind]; [|split; [reflexivity|discriminate]..].
  destruct (contains_subset cl set n) as [b| |]; cbn [bind]; [|split; [reflexivity|discriminate]..].
  split; [reflexivity|]. intros s' E. injection E as <-. cbn [fst]. apply U2. reflexivity.
Qed.

Lemma build_agree : forall g, graph_ok g vs -> (forall u, ~ arc g u u) ->
  build_cluster_heap_int parents card g = build_cluster_heap k1 k2 g.
Proof.
  intros g H IR. unfold build_cluster_heap_int, build_cluster_heap. rewrite (gk_top _ _ H).
  destruct (new_heap (length vs)) as [h|]; [|reflexivity].
  match goal with |- bind (for_up 0 (length vs) ?f0 ?s0) _ = bind (for_up 0 (length vs) ?g0 ?s0) _ =>
    destruct (for_up_agree (heap (list nat) * graph) (fun st => graph_ok (snd st) vs /\ g_adj (snd st) = g_adj g)
                f0 g0 0 (length vs) s0) as [A1 _] end; [cbn [snd]; auto| |now rewrite A1].
  intros i [h1 g1] [O1 J1]. cbn [snd] in O1, J1.
  destruct (Nat.ltb_spec i (length vs)) as [Hi|Hi].
  2:{ assert (E : rd (g_vars g1) i = UB).
      { unfold rd. rewrite (gk_vars _ _ O1). rewrite (proj2 (nth_error_None _ _)); [reflexivity|]. rewrite map_length. lia. }
      rewrite E. cbn [bind]. split; [reflexivity|discriminate]. }
  assert (Q : nth_error vs i = Some (nth i vs 0)) by (apply nth_error_nth'; lia).
  rewrite (rd_some _ _ _ _ (proj2 (ok_var vs g1 O1 i (nth i vs 0)) Q)). cbn [bind].
  destruct (graph_cluster_ok vs g1 O1 i (nth i vs 0) Q) as (g2 & E2 & O2 & J2). rewrite E2. cbn [bind].
  assert (I : inside (nth i vs 0 :: nbrs vs g1 i)).
  { split.
    - constructor; [|apply (nbrs_nodup vs g1 O1)]. intros B. apply (nbrs_in vs g1 O1 i _ Q) in B. destruct B as [_ B].
      apply (IR (nth i vs 0)). apply (arc_same vs g g1 H O1 J1). exact B.
    - intros x [<-|Hx]; [apply nth_In; auto|]. apply (nbrs_in vs g1 O1 i _ Q) in Hx. apply Hx. }
  rewrite (insert_agree h1 _ I). split; [reflexivity|]. intros s' E.
  destruct (heap_insert _ _ _ _ _ _) as [[e h2]| |] in E; cbn [bind] in E; try discriminate.
  injection E as <-. cbn [snd]. split; [auto|congruence].
Qed.

Lemma triangulate_agree : forall g, graph_ok g vs -> vs <> [] -> (forall u, ~ arc g u u) ->
  triangulate_graph_int parents card g = triangulate_graph k1 k2 card g.
Proof.
  intros g H NE IR. unfold triangulate_graph_int, triangulate_graph. rewrite (build_agree g H IR).
  destruct (build_cluster_heap_ok k1 k2 vs g H NE IR) as (h & M & g' & E & S1 & H1 & O1 & J1 & L1 & C1).
  rewrite E. cbn [bind]. rewrite eliminate_agree; [reflexivity|].
  exists M. split; auto. split; auto. apply Forall_forall. intros c Hc.
  destruct (co_each _ _ _ C1 c Hc) as (N & w & l & -> & Hl). split; auto.
  intros x [<-|Hx]; [|apply Hl in Hx; apply Hx]. apply (co_heads _ _ _ C1). apply in_map_iff. exists (w :: l). auto.
Qed.
End Costs.

Lemma no_overflow : forall parents card iface g vs, graph_ok g vs -> vs <> [] -> (forall v, ~ arc g v v) ->
  (forall v, 0 < card v) -> fits card vs -> (Z.of_nat (length vs * (length vs - 1)) <= INT_MAX)%Z ->
  graph_to_cliques_int parents card iface g =
  graph_to_cliques (cluster_primary_cost parents) (cluster_secondary_cost card) card iface g.
Proof.
  intros parents card iface g vs H NE IR C F P. unfold graph_to_cliques_int, graph_to_cliques.
  destruct (joined_ok iface g vs H IR) as (gu & E & O & A).
  destruct (moralise_graph g) as [gm| |]; cbn [bind] in *; try discriminate.
  destruct (add_interface_edges iface gm) as [gi| |]; cbn [bind] in *; try discriminate.
  rewrite E. cbn [bind].
  rewrite (triangulate_agree parents card vs (gk_nodup _ _ H) C F P gu O NE); [reflexivity|].
  intros u Q. apply A in Q. tauto.
Qed.

(** ** One cluster that does not fit *)
Lemma primary_fuel : forall parents c, primary_cost parents c <> NoFuel.
Proof.
  intros parents c. unfold primary_cost.
  assert (F : forall z, int_of z <> NoFuel) by (intros z; unfold int_of; destruct (_ && _)%bool; discriminate).
  assert (I : forall v l s, primary_inner parents v l s <> NoFuel).
  { intros v l. induction l as [|w l IH]; intros s; cbn [primary_inner]; [discriminate|].
    match goal with |- bind (int_of ?z) _ <> _ => specialize (F z); destruct (int_of z) end; cbn [bind]; auto; discriminate. }
  generalize 0%Z. induction c as [|v l IH]; intros s; cbn [primary_outer]; [discriminate|].
  specialize (I v l s). destruct (primary_inner parents v l s); cbn [bind]; auto; discriminate.
Qed.
Lemma build_ub : forall parents card g vs, graph_ok g vs -> (forall u, ~ arc g u u) -> (forall v, 0 < card v) ->
  forall i, i < length vs -> ~ fits card (nth i vs 0 :: nbrs vs g i) ->
  build_cluster_heap_int parents card g = UB.
Proof.
  intros parents card g vs H IR C i Hi F. unfold build_cluster_heap_int. rewrite (gk_top _ _ H).
  destruct (new_heap_ok (cluster_primary_cost parents) (cluster_secondary_cost card) (length vs)) as (h0 & E0 & S0 & A0 & F0 & U0); [lia|].
  rewrite E0.
  match goal with |- bind (for_up 0 (length vs) ?f0 ?s0) _ = _ => set (f := f0); set (st := s0) end.
  assert (G : forall n lo h g1, lo <= i -> i < lo + n -> lo + n = length vs -> graph_ok g1 vs -> g_adj g1 = g_adj g ->
             stores (cluster_primary_cost parents) (cluster_secondary_cost card) h (map (fun i => nth i vs 0 :: nbrs vs g i) (seq 0 lo)) ->
             h_alloc h = length vs -> loop_up n lo f (h, g1) = UB).
  { induction n as [|n IH]; intros lo h g1 L1 L2 L3 O1 J1 S1 A1; [lia|]. cbn [loop_up].
    unfold f at 1.
    assert (Q : nth_error vs lo = Some (nth lo vs 0)) by (apply nth_error_nth'; lia).
    rewrite (rd_some _ _ _ _ (proj2 (ok_var vs g1 O1 lo (nth lo vs 0)) Q)). cbn [bind].
    destruct (graph_cluster_ok vs g1 O1 lo (nth lo vs 0) Q) as (g2 & E2 & O2 & J2). rewrite E2. cbn [bind].
    assert (NB : nbrs vs g lo = nbrs vs g1 lo).
    { unfold nbrs. f_equal. apply filter_ext. intros j. symmetry. apply (same_adj vs); auto. }
    rewrite <- NB.
    destruct (primary_cost parents (nth lo vs 0 :: nbrs vs g lo)) as [a| |] eqn:E1;
      [|unfold insert_cluster at 1; now rewrite E1|destruct (primary_fuel _ _ E1)].
    assert (EA := primary_val _ _ _ E1). subst a.
    destruct (Z.leb_spec (Z.of_nat (prod (map card (nth lo vs 0 :: nbrs vs g lo)))) INT_MAX) as [FT|FT].
    - destruct (Nat.eq_dec lo i) as [->|NE]; [exfalso; apply F; exact FT|].
      unfold insert_cluster at 1. rewrite E1. cbn [bind]. rewrite (secondary_ok card _ C FT). cbn [bind].
      change (heap_insert (fun _ => cluster_primary_cost parents (nth lo vs 0 :: nbrs vs g lo))
                (fun _ => cluster_secondary_cost card (nth lo vs 0 :: nbrs vs g lo)) true true h (nth lo vs 0 :: nbrs vs g lo))
        with (heap_insert (cluster_primary_cost parents) (cluster_secondary_cost card) true true h (nth lo vs 0 :: nbrs vs g lo)).
      destruct (insert_ok _ _ h _ (nth lo vs 0 :: nbrs vs g lo) true S1) as (h2 & E3 & S3 & A3 & F3 & U3).
      { rewrite map_length, seq_length. lia. }
      rewrite E3. cbn [bind]. apply IH; auto; try lia; [congruence|].
      rewrite seq_S, map_app. exact S3.
    - unfold insert_cluster at 1. rewrite E1. cbn [bind]. rewrite (secondary_ub card _ C); [reflexivity|]. unfold fits. lia. }
  unfold for_up, st. rewrite (G (length vs - 0) 0 h0 g); auto; try lia.
Qed.

Lemma overflow : forall parents card iface g vs, graph_ok g vs -> (forall v, ~ arc g v v) ->
  (forall v, 0 < card v) ->
  forall v l, In v vs -> NoDup l -> (forall u, In u l <-> In u vs /\ (u = v \/ joined iface g v u)) ->
  ~ fits card l -> graph_to_cliques_int parents card iface g = UB.
Proof.
  intros parents card iface g vs H IR C v l Hv N HL F. unfold graph_to_cliques_int.
  destruct (joined_ok iface g vs H IR) as (gu & E & O & A).
  destruct (moralise_graph g) as [gm| |]; cbn [bind] in *; try discriminate.
  destruct (add_interface_edges iface gm) as [gi| |]; cbn [bind] in *; try discriminate.
  rewrite E. cbn [bind]. unfold triangulate_graph_int.
  destruct (In_nth vs v 0 Hv) as (i & Hi & Ei).
  assert (IU : forall u, ~ arc gu u u) by (intros u Q; apply A in Q; tauto).
  assert (Q : nth_error vs i = Some (nth i vs 0)) by (apply nth_error_nth'; lia).
  rewrite (build_ub parents card gu vs O IU C i Hi); [reflexivity|].
  intros FT. apply F. unfold fits in *.
  replace (prod (map card l)) with (prod (map card (nth i vs 0 :: nbrs vs gu i))); [exact FT|].
  apply prod_perm, Permutation_map, NoDup_Permutation; auto.
  - constructor; [|apply (nbrs_nodup vs gu O)]. intros B. apply (nbrs_in vs gu O i _ Q) in B. destruct B as [_ B]. exact (IU _ B).
  - intros u. rewrite HL. cbn [In]. rewrite (nbrs_in vs gu O i _ Q), A, Ei. split.
    + intros [<-|(Hu & _ & _ & NE & J)]; auto.
    + intros (Hu & [->|J]); auto. destruct (Nat.eq_dec u v) as [->|NE]; [auto|]. right.
      split; auto.
Qed.

(** ** A star *)
Lemma prod_twos : forall l : list nat, prod (map (fun _ => 2) l) = 2 ^ length l.
Proof. induction l as [|x l IH]; cbn [map prod length Nat.pow]; [reflexivity|]. rewrite IH. lia. Qed.

Lemma pow_large : forall n, 31 <= n -> (INT_MAX < Z.of_nat (2 ^ n))%Z.
Proof.
  intros n H. rewrite Nat2Z.inj_pow. change (Z.of_nat 2) with 2%Z.
  apply Z.lt_le_trans with (2 ^ 31)%Z; [reflexivity|]. apply Z.pow_le_mono_r; lia.
Qed.

Lemma star_overflow : forall n, 30 <= n -> exists g,
  graph_from (seq 0 (S n)) (map (fun i => (0, i)) (seq 1 n)) = Ok (g, NO_ERROR) /\
  graph_ok g (seq 0 (S n)) /\ (forall u v, arc g u v <-> u = 0 /\ 1 <= v <= n) /\
  forall parents iface, graph_to_cliques_int parents (fun _ => 2) iface g = UB.
Proof.
  intros n Hn.
  destruct (graph_from_ok (seq 0 (S n)) (map (fun i => (0, i)) (seq 1 n))) as (g & E & O & A).
  { apply seq_NoDup. }
  { intros u v H. apply in_map_iff in H. destruct H as (i & Q & H). injection Q as <- <-. apply in_seq in H.
    split; apply in_seq; lia. }
  assert (AR : forall u v, arc g u v <-> u = 0 /\ 1 <= v <= n).
  { intros u v. rewrite A, in_map_iff. split.
    - intros (i & Q & H). injection Q as <- <-. apply in_seq in H. split; auto. lia.
    - intros (-> & H). exists v. split; auto. apply in_seq. lia. }
  exists g. split; auto. split; auto. split; auto. intros parents iface.
  apply (overflow parents (fun _ => 2) iface g (seq 0 (S n)) O) with (v := 0) (l := seq 0 (S n)).
  - intros v H. apply AR in H. lia.
  - intros; lia.
  - apply in_seq. lia.
  - apply seq_NoDup.
  - intros u. rewrite in_seq. split; [|tauto]. intros H. split; [exact H|].
    destruct (Nat.eq_dec u 0) as [->|N]; [auto|]. right. left. apply AR. lia.
  - unfold fits. rewrite prod_twos, seq_length. assert (Q := pow_large (S n)). lia.
Qed.

(** ** The statements *)
Lemma cost_lemma : forall card c, (forall v, 0 < card v) ->
  (fits card c -> secondary_cost card c = Ok (Z.of_nat (prod (map card c)))) /\
  (~ fits card c -> secondary_cost card c = UB).
Proof.
  intros card c C. split; intros F; [|now apply secondary_ub].
  rewrite secondary_ok by auto. unfold cluster_secondary_cost. rewrite secondary_fold. f_equal. lia.
Qed.

Lemma int_succeeds : forall parents card iface g vs, graph_ok g vs -> vs <> [] -> (forall v, ~ arc g v v) ->
  (forall v, 0 < card v) -> fits card vs -> (Z.of_nat (length vs * (length vs - 1)) <= INT_MAX)%Z ->
  exists jt e, graph_to_cliques_int parents card iface g = Ok (jt, e).
Proof.
  intros parents card iface g vs H NE IR C F P. rewrite (no_overflow parents card iface g vs); auto.
  apply (succeeds_lemma _ _ card iface g vs); auto.
  intros gt c _ N I _. unfold fits in *. assert (Q := prod_incl card c vs C N (gk_nodup _ _ H) I). lia.
Qed.

Lemma gx_fits : fits gx_card gx_vars.
Proof. unfold fits. vm_compute. discriminate. Qed.
Lemma case_ok : graph_to_cliques_int gx_parents gx_card gx_iface gx_graph = Ok (gx_jt, NO_ERROR) /\ fits gx_card gx_vars.
Proof. split; [vm_compute; reflexivity|exact gx_fits]. Qed.

(** A variable with two values and eight children with sixteen. *)
Definition few_arcs : list (nat * nat) := map (fun i => (0, i)) (seq 1 8).
Definition few_parents (v : nat) : list nat := map fst (filter (fun a => Nat.eqb (snd a) v) few_arcs).
Definition few_card (v : nat) : nat := if Nat.eqb v 0 then 2 else 16.
Definition few_graph : graph := match graph_from (seq 0 9) few_arcs with Ok (g, _) => g | _ => new_graph 0 end.
Definition few_jt : jtree :=
  match graph_to_cliques (cluster_primary_cost few_parents) (cluster_secondary_cost few_card) few_card (fun _ => 0) few_graph with
  | Ok (jt, _) => jt | _ => mkJT [] [] end.

Lemma few_exact : graph_to_cliques (cluster_primary_cost few_parents) (cluster_secondary_cost few_card) few_card (fun _ => 0) few_graph
  = Ok (few_jt, NO_ERROR).
Proof. vm_compute. reflexivity. Qed.
Lemma few_cliques :
  forallb (fun c => Nat.eqb (length (c_vars c)) 2 && Nat.eqb (prod (map few_card (c_vars c))) 32)%bool (cls few_jt) = true /\ length (cls few_jt) = 8.
Proof. split; vm_compute; reflexivity. Qed.

Lemma few_overflow : exists jt,
  graph_to_cliques (cluster_primary_cost few_parents) (cluster_secondary_cost few_card) few_card (fun _ => 0) few_graph
    = Ok (jt, NO_ERROR) /\
  length (cls jt) = 8 /\ (forall c, In c (cls jt) -> length (c_vars c) = 2 /\ prod (map few_card (c_vars c)) = 32) /\
  graph_to_cliques_int few_parents few_card (fun _ => 0) few_graph = UB.
Proof.
  exists few_jt. split; [exact few_exact|]. destruct few_cliques as (F & L). split; [exact L|]. split.
  - intros c Hc. rewrite forallb_forall in F. apply F in Hc. apply andb_prop in Hc. destruct Hc as [H1 H2].
    apply Nat.eqb_eq in H1, H2. auto.
  - vm_compute. reflexivity.
Qed.
