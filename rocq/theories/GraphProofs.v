(** * Proofs about nipgraph.c: nodes, arcs, moralisation *)
From Verif Require Import Base BaseProofs PotentialModel VariableModel HeapModel JoinTreeModel
  GraphModel GraphSpec.
Import ListNotations.
Open Scope nat_scope.
Local Open Scope res_scope.

(** The cell in row [i] and column [j]. *)
Definition adj (g : graph) (i j : nat) : bool := nth (i * g_size g + j) (g_adj g) false.

Lemma cell_lt : forall n i j, i < n -> j < n -> i * n + j < n * n.
Proof. intros; nia. Qed.

Lemma cell_inj : forall n i j i' j', j < n -> j' < n -> i * n + j = i' * n + j' -> i = i' /\ j = j'.
Proof. intros n i j i' j' Hj Hj' H. assert (i = i') by nia. subst. lia. Qed.

Lemma nth_error_lt : forall A (l : list A) i x, nth_error l i = Some x -> i < length l.
Proof. intros A l i x H. apply nth_error_Some. congruence. Qed.

Lemma nth_error_ex : forall A (l : list A) i, i < length l -> exists x, nth_error l i = Some x.
Proof.
  intros A l i H. apply nth_error_Some in H. destruct (nth_error l i); eauto. congruence.
Qed.

Lemma rd_some : forall A (l : list A) i x, nth_error l i = Some x -> rd l i = Ok x.
Proof. intros A l i x H. unfold rd. now rewrite H. Qed.

Lemma nodup_nth_error : forall (l : list nat) i j v, NoDup l ->
  nth_error l i = Some v -> nth_error l j = Some v -> i = j.
Proof.
  intros l i j v ND Hi Hj. rewrite NoDup_nth_error in ND. apply ND.
  - eapply nth_error_lt; eauto.
  - congruence.
Qed.

Section Ok.
Variable vs : list nat.
Notation n := (length vs).

Lemma ok_var : forall g, graph_ok g vs -> forall i v,
  nth_error (g_vars g) i = Some (Some v) <-> nth_error vs i = Some v.
Proof.
  intros g H i v. rewrite (gk_vars _ _ H), nth_error_map.
  destruct (nth_error vs i); cbn; split; congruence.
Qed.

Lemma arc_adj : forall g, graph_ok g vs -> forall i j u v,
  nth_error vs i = Some u -> nth_error vs j = Some v ->
  (arc g u v <-> adj g i j = true).
Proof.
  intros g H i j u v Hi Hj. unfold arc, adj.
  assert (Li := nth_error_lt _ _ _ _ Hi). assert (Lj := nth_error_lt _ _ _ _ Hj).
  split.
  - intros (i' & j' & H1 & H2 & H3). apply (ok_var g H) in H1, H2.
    assert (i' = i) by (eapply nodup_nth_error; eauto; apply H).
    assert (j' = j) by (eapply nodup_nth_error; eauto; apply H).
    subst. apply nth_error_nth with (d := false) in H3. exact H3.
  - intros A. exists i, j. rewrite !(ok_var g H). split; [auto|split; [auto|]].
    rewrite <- A. apply nth_error_nth'. rewrite (gk_size _ _ H), (gk_adj _ _ H).
    apply cell_lt; auto.
Qed.

Lemma arc_inv : forall g, graph_ok g vs -> forall u v, arc g u v ->
  exists i j, nth_error vs i = Some u /\ nth_error vs j = Some v /\ adj g i j = true.
Proof.
  intros g H u v A. destruct A as (i & j & H1 & H2 & H3). exists i, j.
  apply (ok_var g H) in H1, H2. split; [auto|split; [auto|]]. unfold adj.
  apply nth_error_nth with (d := false) in H3. exact H3.
Qed.

Lemma arc_in : forall g, graph_ok g vs -> forall u v, arc g u v -> In u vs /\ In v vs.
Proof.
  intros g H u v A. destruct (arc_inv g H u v A) as (i & j & H1 & H2 & _).
  split; eapply nth_error_In; eauto.
Qed.

Lemma adjm_ok : forall g, graph_ok g vs -> forall i j, i < n -> j < n ->
  adjm g i j = Ok (adj g i j).
Proof.
  intros g H i j Hi Hj. unfold adjm, adj. apply rd_ok.
  rewrite (gk_size _ _ H), (gk_adj _ _ H). apply cell_lt; auto.
Qed.

(** Same nodes and index, another matrix. *)
Definition same_frame (g g' : graph) : Prop :=
  g_size g' = g_size g /\ g_top g' = g_top g /\ g_vars g' = g_vars g /\
  g_min g' = g_min g /\ g_max g' = g_max g /\ g_ind g' = g_ind g.

Lemma set_adjm_ok : forall g, graph_ok g vs -> forall i j b, i < n -> j < n ->
  exists g', set_adjm g i j b = Ok g' /\ graph_ok g' vs /\ same_frame g g' /\
    forall i' j', i' < n -> j' < n ->
      adj g' i' j' = if (Nat.eqb i' i && Nat.eqb j' j)%bool then b else adj g i' j'.
Proof.
  intros g H i j b Hi Hj. unfold set_adjm.
  assert (L : i * g_size g + j < length (g_adj g)).
  { rewrite (gk_size _ _ H), (gk_adj _ _ H). apply cell_lt; auto. }
  rewrite wr_ok by auto. cbn [bind].
  eexists; split; [reflexivity|]. split; [|split].
  - destruct H. constructor; cbn; auto. rewrite set_nth_length; auto.
  - repeat split.
  - intros i' j' Hi' Hj'. unfold adj. cbn. rewrite nth_set_nth by auto.
    destruct (Nat.eqb_spec (i' * g_size g + j') (i * g_size g + j)) as [E|E].
    + apply cell_inj in E; [|rewrite (gk_size _ _ H); auto..]. destruct E as [-> ->].
      now rewrite !Nat.eqb_refl.
    + destruct (Nat.eqb_spec i' i), (Nat.eqb_spec j' j); cbn [andb]; auto.
      exfalso; apply E. congruence.
Qed.

Lemma copy_ok : forall g, graph_ok g vs -> graph_ok (copy_graph g) vs /\
  forall i j, adj (copy_graph g) i j = adj g i j.
Proof.
  intros g H. split; [|reflexivity]. destruct H. constructor; cbn; auto. discriminate.
Qed.

(** ** The index *)
Lemma build_index_ok : forall g,
  g_top g = n -> NoDup vs ->
  (forall i v, nth_error vs i = Some v -> nth_error (g_vars g) i = Some (Some v)) ->
  (forall v, In v vs -> exists a b, g_min g = Some a /\ g_max g = Some b /\ a <= v <= b) ->
  exists ind, build_graph_index g = Ok (set_ind g (Some ind)) /\
    forall i v a, nth_error vs i = Some v -> g_min g = Some a -> nth_error ind (v - a) = Some i.
Proof.
  intros g HT ND HV HB. unfold build_graph_index. rewrite HT.
  match goal with |- context [for_up 0 n ?b0 ?s0] =>
    destruct (for_up_inv (list nat)
      (fun t ind => length ind = length s0 /\
         forall i v a, i < t -> nth_error vs i = Some v -> g_min g = Some a ->
           nth_error ind (v - a) = Some i) b0 0 n s0) as (ind & E & L & HI)
  end.
  - lia.
  - split; auto. intros; lia.
  - intros t ind Ht (L & HI). cbn.
    destruct (nth_error_ex _ vs t ltac:(lia)) as (v & Hv).
    rewrite (rd_some _ _ _ _ (HV _ _ Hv)). cbn [bind].
    destruct (HB v (nth_error_In _ _ Hv)) as (a & b & Ha & Hb & Hab).
    rewrite Ha, Hb in L. rewrite Ha. unfold id_offset.
    destruct (Nat.ltb_spec v a); [lia|]. cbn [bind].
    assert (K : v - a < length ind) by (rewrite L, repeat_length; lia).
    rewrite wr_ok by auto. eexists; split; [reflexivity|]. split.
    + rewrite set_nth_length, Hb. auto.
    + intros i w a' Hi Hw Ha'. injection Ha' as ->.
      destruct (HB w (nth_error_In _ _ Hw)) as (a2 & b2 & Ha2 & Hb2 & Hab2).
      rewrite Ha in Ha2. injection Ha2 as <-.
      assert (Q : nth_error (set_nth ind (v - a') t) (w - a') =
                  if Nat.eqb (w - a') (v - a') then Some t else nth_error ind (w - a')).
      { destruct (Nat.eqb_spec (w - a') (v - a')) as [e|e].
        - rewrite e. rewrite (nth_error_nth' _ 0) by (rewrite set_nth_length; auto).
          now rewrite nth_set_nth_eq.
        - destruct (Nat.lt_ge_cases (w - a') (length ind)) as [l|l].
          + rewrite !(nth_error_nth' _ 0) by (try rewrite set_nth_length; auto).
            now rewrite nth_set_nth_neq.
          + rewrite !(proj2 (nth_error_None _ _)); auto. now rewrite set_nth_length. }
      rewrite Q. destruct (Nat.eqb_spec (w - a') (v - a')) as [e|e].
      * assert (w = v) by lia. subst w. f_equal. eapply nodup_nth_error; eauto.
      * apply HI; auto. destruct (Nat.eq_dec i t); [|lia]. subst i. exfalso; apply e.
        rewrite Hw in Hv. congruence.
  - rewrite E. cbn [bind]. exists ind. split; auto.
    intros i v a Hi Ha. apply HI; auto. eapply nth_error_lt; eauto.
Qed.

Lemma index_built : forall g, graph_ok g vs ->
  exists g' ind, (match g_ind g with None => build_graph_index g | Some _ => Ok g end) = Ok g' /\
    graph_ok g' vs /\ g_ind g' = Some ind /\ g_adj g' = g_adj g.
Proof.
  intros g H. destruct (g_ind g) as [ind|] eqn:E.
  - exists g, ind. auto.
  - destruct (build_index_ok g (gk_top _ _ H) (gk_nodup _ _ H)) as (ind & E1 & E2).
    + intros i v. apply (ok_var g H).
    + apply (gk_ids _ _ H).
    + exists (set_ind g (Some ind)), ind. split; [auto|]. split; [|auto].
      destruct H. constructor; cbn; auto. intros ind' Q. injection Q as <-. auto.
Qed.

Lemma graph_index_ok : forall g, graph_ok g vs -> forall i v, nth_error vs i = Some v ->
  exists g', graph_index g v = Ok (Some i, g') /\ graph_ok g' vs /\ g_adj g' = g_adj g.
Proof.
  intros g H i v Hi. unfold graph_index.
  destruct (index_built g H) as (g' & ind & E1 & E2 & E3 & E4). rewrite E1. cbn [bind].
  rewrite E3.
  destruct (gk_ids _ _ E2 v (nth_error_In _ _ Hi)) as (a & b & Ha & Hb & Hab).
  rewrite Ha. unfold id_offset. destruct (Nat.ltb_spec v a); [lia|]. cbn [bind].
  rewrite (rd_some _ _ _ _ (gk_ind _ _ E2 ind E3 i v a Hi Ha)). cbn [bind].
  assert (V : nth_error (g_vars g') i = Some (Some v)) by (apply (ok_var g' E2); auto).
  rewrite (rd_some _ _ _ _ V). cbn [bind]. unfold equal_variables. rewrite Nat.eqb_refl.
  eauto.
Qed.

Lemma same_adj : forall g g', graph_ok g vs -> graph_ok g' vs -> g_adj g' = g_adj g ->
  forall i j, adj g' i j = adj g i j.
Proof.
  intros g g' H H' E i j. unfold adj. now rewrite E, (gk_size _ _ H), (gk_size _ _ H').
Qed.

(** ** Moralisation *)
Lemma moralise_ok : forall g, graph_ok g vs ->
  exists gm, moralise_graph g = Ok gm /\ graph_ok gm vs /\
    forall a b, a < n -> b < n ->
      (adj gm a b = true <->
       adj g a b = true \/ (a <> b /\ exists v, v < n /\ adj g a v = true /\ adj g b v = true)).
Proof.
  intros g H. unfold moralise_graph. rewrite (gk_size _ _ H).
  destruct (copy_ok g H) as (HC & AC).
  match goal with |- context [for_up 0 n ?b0 ?s0] =>
    destruct (for_up_inv graph
      (fun t gm => graph_ok gm vs /\ forall a b, a < n -> b < n ->
         (adj gm a b = true <-> adj g a b = true \/
            (a <> b /\ exists v, v < t /\ adj g a v = true /\ adj g b v = true)))
      b0 0 n s0) as (gm & E & G1 & G2)
  end; [lia| | |exists gm; auto].
  { split; auto. intros a b Ha Hb. rewrite AC. split; auto.
    intros [?|(? & v & ? & _)]; auto; lia. }
  intros v gm Hv (G1 & G2). cbn beta.
  match goal with |- context [for_up 0 n ?b0 ?s0] =>
    destruct (for_up_inv graph
      (fun t gm => graph_ok gm vs /\ forall a b, a < n -> b < n ->
         (adj gm a b = true <-> adj g a b = true \/
            (a <> b /\ exists w, w < v /\ adj g a w = true /\ adj g b w = true) \/
            (a <> b /\ Nat.min a b < t /\ adj g a v = true /\ adj g b v = true)))
      b0 0 n s0) as (gm' & E & K1 & K2)
  end; [lia| | |exists gm'; split; [exact E|]; split; [auto|]].
  { split; auto. intros a b Ha Hb. rewrite (G2 a b Ha Hb). intuition lia. }
  2:{ intros a b Ha Hb. rewrite (K2 a b Ha Hb). split.
      - intros [?|[(? & w & ? & ?)|(? & ? & ?)]]; auto; right; split; auto;
          [exists w|exists v]; intuition lia.
      - intros [?|(? & w & ? & ?)]; auto.
        destruct (Nat.eq_dec w v) as [->|NE].
        + right; right. split; auto. split; [|auto]. lia.
        + right; left. split; auto. exists w. intuition lia. }
  clear gm G1 G2. intros i gm Hi (G1 & G2). cbn beta.
  rewrite (adjm_ok g H) by lia. cbn [bind].
  destruct (adj g i v) eqn:Aiv.
  2:{ exists gm. split; auto. split; auto. intros a b Ha Hb. rewrite (G2 a b Ha Hb).
      split; (intros [?|[?|(? & ? & ? & ?)]]; [tauto|tauto|]); right; right;
        (split; [auto|split; [|auto]]); [lia|].
      destruct (Nat.eq_dec a i); [congruence|]. destruct (Nat.eq_dec b i); [congruence|]. lia. }
  match goal with |- context [for_up (S i) n ?b0 ?s0] =>
    destruct (for_up_inv graph
      (fun t gm => graph_ok gm vs /\ forall a b, a < n -> b < n ->
         (adj gm a b = true <-> adj g a b = true \/
            (a <> b /\ exists w, w < v /\ adj g a w = true /\ adj g b w = true) \/
            (a <> b /\ Nat.min a b < i /\ adj g a v = true /\ adj g b v = true) \/
            (Nat.min a b = i /\ i < Nat.max a b < t /\ adj g a v = true /\ adj g b v = true)))
      b0 (S i) n s0) as (gm' & E & K1 & K2)
  end; [lia| | |exists gm'; split; [exact E|]; split; [auto|]].
  { split; auto. intros a b Ha Hb. rewrite (G2 a b Ha Hb). intuition lia. }
  2:{ intros a b Ha Hb. rewrite (K2 a b Ha Hb). split.
      - intros [?|[?|[(? & ? & ?)|(? & ? & ?)]]]; auto; right; right; split; try lia;
          (split; [lia|auto]).
      - intros [?|[?|(? & ? & ?)]]; auto.
        destruct (Nat.lt_ge_cases (Nat.min a b) i); [right; right; left; auto|].
        right; right; right. split; [lia|]. split; [lia|auto]. }
  clear gm G1 G2. intros j gm Hj (G1 & G2). cbn beta.
  rewrite (adjm_ok g H) by lia. cbn [bind].
  rewrite (adjm_ok gm G1) by lia. cbn [bind].
  destruct (set_adjm_ok gm G1 i j (adj gm i j || adj g j v) ltac:(lia) ltac:(lia)) as (g1 & E1 & O1 & _ & A1).
  rewrite E1. cbn [bind]. rewrite (adjm_ok g1 O1) by lia. cbn [bind].
  destruct (set_adjm_ok g1 O1 j i (adj g1 j i || adj g j v) ltac:(lia) ltac:(lia)) as (g2 & E2 & O2 & _ & A2).
  exists g2. split; [exact E2|]. split; [auto|].
  intros a b Ha Hb. rewrite (A2 a b Ha Hb).
  rewrite (A1 j i), (A1 a b) by lia.
  assert (Q := G2 a b Ha Hb).
  destruct (Nat.eqb_spec a j), (Nat.eqb_spec b i), (Nat.eqb_spec a i), (Nat.eqb_spec b j),
    (Nat.eqb_spec j i), (Nat.eqb_spec i j); cbn [andb]; try lia; subst;
    rewrite ?orb_true_iff, ?Q.
  all: try (split; intros [?|[?|[?|(? & ? & ?)]]]; try tauto; right; right; right;
            (split; [lia|split; [lia|auto]]); fail).
  - split.
    + intros [[?|[?|[?|(? & ? & ?)]]]|?]; auto; right; right; right;
        (split; [lia|split; [lia|auto]]).
    + intros [?|[?|[?|(? & ? & ? & ?)]]]; auto.
  - split.
    + intros [[?|[?|[?|(? & ? & ?)]]]|?]; auto; right; right; right;
        (split; [lia|split; [lia|auto]]).
    + intros [?|[?|[?|(? & ? & ? & ?)]]]; auto.
Qed.

(** ** Interface edges *)
Definition both_iface (iface : nat -> nat) (u v : nat) : bool :=
  ((if_old_outgoing (iface u) && if_old_outgoing (iface v)) ||
   (if_outgoing (iface u) && if_outgoing (iface v)))%bool.

Lemma both_iface_sym : forall iface u v, both_iface iface u v = both_iface iface v u.
Proof.
  intros. unfold both_iface. f_equal; apply andb_comm.
Qed.

Lemma interface_ok : forall iface g, graph_ok g vs ->
  exists gi, add_interface_edges iface g = Ok gi /\ graph_ok gi vs /\
    forall a b, a < n -> b < n ->
      (adj gi a b = true <->
       adj g a b = true \/ (a <> b /\ both_iface iface (nth a vs 0) (nth b vs 0) = true)).
Proof.
  intros iface g H. unfold add_interface_edges. rewrite (gk_size _ _ H).
  destruct (copy_ok g H) as (HC & AC).
  match goal with |- context [for_up 0 n ?b0 ?s0] =>
    destruct (for_up_inv graph
      (fun t gm => graph_ok gm vs /\ forall a b, a < n -> b < n ->
         (adj gm a b = true <-> adj g a b = true \/
            (a <> b /\ Nat.min a b < t /\ both_iface iface (nth a vs 0) (nth b vs 0) = true)))
      b0 0 n s0) as (gm & E & G1 & G2)
  end; [lia| | |exists gm; split; [exact E|split; [auto|]]].
  { split; auto. intros a b Ha Hb. rewrite AC. intuition lia. }
  2:{ intros a b Ha Hb. rewrite (G2 a b Ha Hb).
      split; (intros [?|(? & ?)]; [tauto|]); right; intuition lia. }
  intros i gm Hi (G1 & G2). cbn beta.
  match goal with |- context [for_up (S i) n ?b0 ?s0] =>
    destruct (for_up_inv graph
      (fun t gm => graph_ok gm vs /\ forall a b, a < n -> b < n ->
         (adj gm a b = true <-> adj g a b = true \/
            (a <> b /\ Nat.min a b < i /\ both_iface iface (nth a vs 0) (nth b vs 0) = true) \/
            (Nat.min a b = i /\ i < Nat.max a b < t /\
              both_iface iface (nth a vs 0) (nth b vs 0) = true)))
      b0 (S i) n s0) as (gm' & E & K1 & K2)
  end; [lia| | |exists gm'; split; [exact E|]; split; [auto|]].
  { split; auto. intros a b Ha Hb. rewrite (G2 a b Ha Hb). intuition lia. }
  2:{ intros a b Ha Hb. rewrite (K2 a b Ha Hb). split.
      - intros [?|[(? & ? & ?)|(? & ? & ?)]]; auto; right; (split; [lia|split; [lia|auto]]).
      - intros [?|(? & ? & ?)]; auto.
        destruct (Nat.lt_ge_cases (Nat.min a b) i); [right; left; auto|].
        right; right. split; [lia|]. split; [lia|auto]. }
  clear gm G1 G2. intros j gm Hj (G1 & G2). cbn beta.
  assert (V : forall k, k < n -> nth_error (g_vars g) k = Some (Some (nth k vs 0))).
  { intros k Hk. apply (ok_var g H). apply nth_error_nth'; auto. }
  rewrite (rd_some _ _ _ _ (V i ltac:(lia))), (rd_some _ _ _ _ (V j ltac:(lia))). cbn [bind].
  change ((if_old_outgoing (iface (nth i vs 0%nat)) && if_old_outgoing (iface (nth j vs 0%nat)) ||
    if_outgoing (iface (nth i vs 0%nat)) && if_outgoing (iface (nth j vs 0%nat)))%bool)
    with (both_iface iface (nth i vs 0) (nth j vs 0)).
  destruct (both_iface iface (nth i vs 0) (nth j vs 0)) eqn:B.
  2:{ exists gm. split; auto. split; auto. intros a b Ha Hb. rewrite (G2 a b Ha Hb).
      split; (intros [?|[?|(? & ? & ?)]]; [tauto|tauto|]); right; right;
        (split; [auto|split; [|auto]]); [lia|].
      assert (B' : both_iface iface (nth j vs 0) (nth i vs 0) = false)
        by (rewrite both_iface_sym; auto).
      destruct (Nat.eq_dec (Nat.max a b) j) as [e|]; [|lia]. exfalso.
      destruct (Nat.le_ge_cases a b).
      - assert (a = i) by lia. assert (b = j) by lia. subst a b. congruence.
      - assert (b = i) by lia. assert (a = j) by lia. subst a b. congruence. }
  destruct (set_adjm_ok gm G1 i j true ltac:(lia) ltac:(lia)) as (g1 & E1 & O1 & _ & A1).
  rewrite E1. cbn [bind].
  destruct (set_adjm_ok g1 O1 j i true ltac:(lia) ltac:(lia)) as (g2 & E2 & O2 & _ & A2).
  exists g2. split; [exact E2|]. split; [auto|].
  intros a b Ha Hb. rewrite (A2 a b Ha Hb), (A1 a b Ha Hb).
  assert (Q := G2 a b Ha Hb).
  destruct (Nat.eqb_spec a j), (Nat.eqb_spec b i), (Nat.eqb_spec a i), (Nat.eqb_spec b j);
    cbn [andb]; try lia; subst; rewrite ?Q.
  all: try (split; intros [?|[?|(? & ? & ?)]]; try tauto; right; right;
            (split; [lia|split; [lia|auto]]); fail).
  - split; auto. intros _. right; right. split; [lia|]. split; [lia|]. rewrite both_iface_sym; auto.
  - split; auto. intros _. right; right. split; [lia|]. split; [lia|]. auto.
Qed.

(** ** Dropping the directions *)
Lemma undirected_ok : forall g, graph_ok g vs ->
  exists gu, make_graph_undirected g = Ok gu /\ graph_ok gu vs /\
    forall a b, a < n -> b < n -> adj gu a b = (adj g a b || adj g b a)%bool.
Proof.
  intros g H. unfold make_graph_undirected. rewrite (gk_size _ _ H).
  destruct (copy_ok g H) as (HC & AC).
  match goal with |- context [for_up 0 n ?b0 ?s0] =>
    destruct (for_up_inv graph
      (fun t gm => graph_ok gm vs /\ forall a b, a < n -> b < n ->
         adj gm a b = if Nat.ltb a t then (adj g a b || adj g b a)%bool else adj g a b)
      b0 0 n s0) as (gm & E & G1 & G2)
  end; [lia| | |exists gm; split; [exact E|split; [auto|]]].
  { split; auto. }
  2:{ intros a b Ha Hb. rewrite (G2 a b Ha Hb). destruct (Nat.ltb_spec a n); [auto|lia]. }
  intros i gm Hi (G1 & G2). cbn beta.
  match goal with |- context [for_up 0 n ?b0 ?s0] =>
    destruct (for_up_inv graph
      (fun t gm => graph_ok gm vs /\ forall a b, a < n -> b < n ->
         adj gm a b = if (Nat.ltb a i || (Nat.eqb a i && Nat.ltb b t))%bool
                      then (adj g a b || adj g b a)%bool else adj g a b)
      b0 0 n s0) as (gm' & E & K1 & K2)
  end; [lia| | |exists gm'; split; [exact E|]; split; [auto|]].
  { split; auto. intros a b Ha Hb. rewrite (G2 a b Ha Hb). rewrite andb_false_r, orb_false_r. auto. }
  2:{ intros a b Ha Hb. rewrite (K2 a b Ha Hb).
      destruct (Nat.ltb_spec b n); [|lia].
      destruct (Nat.ltb_spec a i), (Nat.ltb_spec a (S i)), (Nat.eqb_spec a i); cbn; auto; lia. }
  clear gm G1 G2. intros j gm Hj (G1 & G2). cbn beta.
  rewrite !(adjm_ok g H) by lia. cbn [bind].
  destruct (set_adjm_ok gm G1 i j (adj g i j || adj g j i) ltac:(lia) ltac:(lia)) as (g1 & E1 & O1 & _ & A1).
  exists g1. split; [exact E1|]. split; [auto|].
  intros a b Ha Hb. rewrite (A1 a b Ha Hb), (G2 a b Ha Hb).
  destruct (Nat.eqb_spec a i), (Nat.eqb_spec b j), (Nat.ltb_spec a i), (Nat.ltb_spec b j),
    (Nat.ltb_spec b (S j)); cbn; subst; auto; lia.
Qed.

End Ok.

(** ** The graph that the callers build *)
Definition partial_ok (g : graph) (all vs : list nat) : Prop :=
  g_size g = length all /\ g_top g = length vs /\
  g_vars g = map Some vs ++ repeat None (length all - length vs) /\
  g_adj g = repeat false (length all * length all) /\
  (forall v, In v vs -> exists a b, g_min g = Some a /\ g_max g = Some b /\ a <= v <= b) /\
  (vs = [] -> g_min g = None /\ g_max g = None) /\
  (length vs < length all -> g_ind g = None) /\
  (forall ind, g_ind g = Some ind ->
    forall i v a, nth_error vs i = Some v -> g_min g = Some a -> nth_error ind (v - a) = Some i).

Lemma add_node_ok : forall all vs v rest g, all = vs ++ v :: rest -> NoDup all ->
  partial_ok g all vs ->
  exists g', graph_add_node g v = Ok (g', NO_ERROR) /\ partial_ok g' all (vs ++ [v]).
Proof.
  intros all vs v rest g EA ND (P1 & P2 & P3 & P4 & P5 & P6 & P7 & P8).
  assert (LA : length all = length vs + S (length rest)) by (rewrite EA, app_length; auto).
  unfold graph_add_node. rewrite P1, P2.
  destruct (Nat.eqb_spec (length vs) (length all)); [lia|].
  assert (LV : length (g_vars g) = length all)
    by (rewrite P3, app_length, map_length, repeat_length; lia).
  rewrite wr_ok by lia. cbn [bind].
  set (mn := match g_min g with None => Some v | Some m => if Nat.ltb v m then Some v else Some m end).
  set (mx := match g_max g with None => Some v | Some m => if Nat.ltb m v then Some v else Some m end).
  set (g1 := mkGraph (length all) (S (length vs)) (g_adj g) None mn mx
               (set_nth (g_vars g) (length vs) (Some v))).
  assert (V1 : g_vars g1 = map Some (vs ++ [v]) ++ repeat None (length all - length (vs ++ [v]))).
  { unfold g1. cbn [g_vars]. rewrite P3, map_app, app_length. cbn [length map].
    replace (length all - length vs) with (S (length rest)) by lia.
    replace (length all - (length vs + 1)) with (length rest) by lia.
    rewrite <- app_assoc. cbn [app]. clear.
    induction vs as [|x l IH]; [reflexivity|]. cbn. f_equal. exact IH. }
  assert (B1 : forall w, In w (vs ++ [v]) -> exists a b, mn = Some a /\ mx = Some b /\ a <= w <= b).
  { destruct vs as [|x l].
    - destruct (P6 eq_refl) as [Q1 Q2]. unfold mn, mx. rewrite Q1, Q2. intros w [<-|[]].
      do 2 eexists. split; [reflexivity|]. split; [reflexivity|lia].
    - destruct (P5 x (or_introl eq_refl)) as (a & b & Q1 & Q2 & _).
      unfold mn, mx. rewrite Q1, Q2. intros w Hw.
      assert (HW : w = v \/ a <= w <= b).
      { apply in_app_or in Hw. destruct Hw as [Hw|[<-|[]]]; auto. right.
        destruct (P5 w Hw) as (a' & b' & R1 & R2 & R3). rewrite Q1 in R1; rewrite Q2 in R2; injection R1 as <-; injection R2 as <-; auto. }
      destruct (P5 x (or_introl eq_refl)) as (a' & b' & R1 & R2 & R3).
      rewrite Q1 in R1; rewrite Q2 in R2; injection R1 as <-; injection R2 as <-.
      destruct (Nat.ltb_spec v a), (Nat.ltb_spec b v); do 2 eexists;
        (split; [reflexivity|]; split; [reflexivity|]); lia. }
  assert (PO : forall ind, (length (vs ++ [v]) < length all -> ind = None) ->
     (forall ind', ind = Some ind' -> forall i w a, nth_error (vs ++ [v]) i = Some w ->
        mn = Some a -> nth_error ind' (w - a) = Some i) ->
     partial_ok (set_ind g1 ind) all (vs ++ [v])).
  { intros ind I1 I2. unfold partial_ok, set_ind.
    cbn [g_size g_top g_vars g_adj g_min g_max g_ind g1].
    split; [auto|]. split; [rewrite app_length; cbn; lia|]. split; [exact V1|]. split; [auto|].
    split; [exact B1|]. split; [intros Q; apply (f_equal (@length nat)) in Q; rewrite app_length in Q; cbn in Q; lia|].
    split; auto. }
  cbn [g_top g_size g1]. fold g1. change (g_top g1) with (S (length vs)). change (g_size g1) with (length all).
  destruct (Nat.eqb_spec (S (length vs)) (length all)) as [e|e].
  - assert (EV : vs ++ [v] = all).
    { rewrite EA. destruct rest; auto. cbn in LA. lia. }
    destruct (build_index_ok (vs ++ [v]) g1) as (ind & E1 & E2).
    + unfold g1; cbn. rewrite app_length; cbn; lia.
    + now rewrite EV.
    + intros i w Hw. rewrite V1, nth_error_app1, nth_error_map, Hw; auto.
      rewrite map_length. eapply nth_error_lt; eauto.
    + exact B1.
    + rewrite E1. cbn [bind]. eexists; split; [reflexivity|]. apply PO.
      * rewrite EV; lia.
      * intros ind' Q. injection Q as <-. exact E2.
  - exists g1. split; auto. change g1 with (set_ind g1 None). apply PO; auto. discriminate.
Qed.

Lemma add_nodes_ok : forall all rest vs g, all = vs ++ rest -> NoDup all -> partial_ok g all vs ->
  exists g', add_nodes g rest = Ok (g', NO_ERROR) /\ partial_ok g' all all.
Proof.
  intros all. induction rest as [|v rest IH]; intros vs g EA ND P.
  - rewrite app_nil_r in EA. subst vs. exists g. auto.
  - destruct (add_node_ok all vs v rest g EA ND P) as (g1 & E1 & P1).
    cbn [add_nodes]. rewrite E1. cbn [bind is_err].
    apply (IH (vs ++ [v])); auto. rewrite <- app_assoc. auto.
Qed.

Lemma partial_full : forall g all, NoDup all -> partial_ok g all all ->
  graph_ok g all /\ forall i j, adj g i j = false.
Proof.
  intros g all ND (P1 & P2 & P3 & P4 & P5 & P6 & P7 & P8). split.
  - constructor; auto.
    + rewrite P3, Nat.sub_diag. cbn. now rewrite app_nil_r.
    + rewrite P4, repeat_length. auto.
  - intros i j. unfold adj. rewrite P4.
    destruct (Nat.lt_ge_cases (i * g_size g + j) (length all * length all)).
    + now apply nth_repeat_lt.
    + apply nth_overflow. now rewrite repeat_length.
Qed.

Lemma new_partial : forall all, partial_ok (new_graph (length all)) all [].
Proof.
  intros all. unfold partial_ok, new_graph. cbn. rewrite Nat.sub_0_r.
  repeat split; auto; try discriminate. intros v [].
Qed.

Lemma add_arcs_ok : forall vs arcs g, graph_ok g vs ->
  (forall u v, In (u, v) arcs -> In u vs /\ In v vs) ->
  exists g', add_arcs g arcs = Ok (g', NO_ERROR) /\ graph_ok g' vs /\
    forall u v, arc g' u v <-> arc g u v \/ In (u, v) arcs.
Proof.
  intros vs. induction arcs as [|[x y] l IH]; intros g H HI.
  - exists g. cbn. split; auto. split; auto. tauto.
  - destruct (HI x y (or_introl eq_refl)) as [Hx Hy].
    apply In_nth_error in Hx. destruct Hx as (i & Hi).
    apply In_nth_error in Hy. destruct Hy as (j & Hj).
    cbn [add_arcs]. unfold graph_add_child.
    destruct (graph_index_ok vs g H i x Hi) as (g1 & E1 & O1 & A1). rewrite E1. cbn [bind].
    destruct (graph_index_ok vs g1 O1 j y Hj) as (g2 & E2 & O2 & A2). rewrite E2. cbn [bind].
    destruct (set_adjm_ok vs g2 O2 i j true) as (g3 & E3 & O3 & _ & A3);
      [eapply nth_error_lt; eauto..|].
    rewrite E3. cbn [bind is_err].
    destruct (IH g3 O3) as (g' & E' & O' & A'); [intros u v Q; apply HI; right; auto|].
    exists g'. split; auto. split; auto. intros u v. rewrite A'.
    assert (Q : arc g3 u v <-> arc g u v \/ (x, y) = (u, v)).
    { split.
      - intros A. destruct (arc_inv vs g3 O3 u v A) as (a & b & Ha & Hb & C).
        rewrite A3 in C by (eapply nth_error_lt; eauto).
        destruct (Nat.eqb_spec a i), (Nat.eqb_spec b j); cbn [andb] in C;
          [right; congruence|left..]; apply (arc_adj vs g H a b u v Ha Hb);
          unfold adj in *; rewrite A2, A1, (gk_size _ _ O2) in C; rewrite (gk_size _ _ H); auto.
      - intros [A|A].
        + destruct (arc_inv vs g H u v A) as (a & b & Ha & Hb & C).
          apply (arc_adj vs g3 O3 a b u v Ha Hb). rewrite A3 by (eapply nth_error_lt; eauto).
          destruct (Nat.eqb a i && Nat.eqb b j)%bool; auto.
          unfold adj in *; rewrite A2, A1, (gk_size _ _ O2). rewrite (gk_size _ _ H) in C; auto.
        + injection A as <- <-. apply (arc_adj vs g3 O3 i j x y Hi Hj).
          rewrite A3 by (eapply nth_error_lt; eauto). now rewrite !Nat.eqb_refl. }
    rewrite Q. cbn [In]. tauto.
Qed.

Lemma graph_from_ok : forall vs arcs, NoDup vs ->
  (forall u v, In (u, v) arcs -> In u vs /\ In v vs) ->
  exists g, graph_from vs arcs = Ok (g, NO_ERROR) /\ graph_ok g vs /\
    forall u v, arc g u v <-> In (u, v) arcs.
Proof.
  intros vs arcs ND HI. unfold graph_from.
  destruct (add_nodes_ok vs vs [] (new_graph (length vs)) eq_refl ND (new_partial vs)) as (g1 & E1 & P1).
  rewrite E1. cbn [bind is_err].
  destruct (partial_full g1 vs ND P1) as [O1 F1].
  destruct (add_arcs_ok vs arcs g1 O1 HI) as (g & E & O & A).
  exists g. split; auto. split; auto. intros u v. rewrite A. split; auto.
  intros [Q|Q]; auto. destruct (arc_inv vs g1 O1 u v Q) as (i & j & _ & _ & C).
  rewrite F1 in C. discriminate.
Qed.

(** ** In terms of variables *)
Lemma nth_error_nth_eq : forall (l : list nat) i v, nth_error l i = Some v -> nth i l 0 = v.
Proof. intros l i v H. apply nth_error_nth with (d := 0) in H. auto. Qed.

Lemma C22_lemma : forall g vs, graph_ok g vs ->
  exists gm, moralise_graph g = Ok gm /\ graph_ok gm vs /\
    forall u v, arc gm u v <->
      arc g u v \/ (u <> v /\ exists w, arc g u w /\ arc g v w).
Proof.
  intros g vs H. destruct (moralise_ok vs g H) as (gm & E & O & A).
  exists gm. split; auto. split; auto. intros u v. split.
  - intros Q. destruct (arc_inv vs gm O u v Q) as (i & j & Hi & Hj & C).
    apply A in C; [|eapply nth_error_lt; eauto..]. destruct C as [C|(NE & w & Hw & C1 & C2)].
    + left. apply (arc_adj vs g H i j); auto.
    + right. split.
      * intros ->. apply NE. eapply nodup_nth_error; eauto. apply H.
      * destruct (nth_error_ex _ vs w Hw) as (x & Hx). exists x.
        split; [apply (arc_adj vs g H i w)|apply (arc_adj vs g H j w)]; auto.
  - intros [Q|(NE & w & Q1 & Q2)].
    + destruct (arc_inv vs g H u v Q) as (i & j & Hi & Hj & C).
      apply (arc_adj vs gm O i j); auto. apply A; auto; eapply nth_error_lt; eauto.
    + destruct (arc_inv vs g H u w Q1) as (i & k & Hi & Hk & C1).
      destruct (arc_inv vs g H v w Q2) as (j & k' & Hj & Hk' & C2).
      assert (k' = k) by (eapply nodup_nth_error; eauto; apply H). subst k'.
      apply (arc_adj vs gm O i j); auto. apply A; [eapply nth_error_lt; eauto..|].
      right. split; [intros ->; congruence|]. exists k. split; auto. eapply nth_error_lt; eauto.
Qed.

Lemma flag_ok : forall s, if_outgoing s = flag_outgoing s.
Proof. intros s. unfold if_outgoing, flag_outgoing. rewrite Nat.testbit_odd, Nat.shiftr_div_pow2. reflexivity. Qed.
Lemma flag_old_ok : forall s, if_old_outgoing s = flag_old_outgoing s.
Proof. intros s. unfold if_old_outgoing, flag_old_outgoing. rewrite Nat.testbit_odd, Nat.shiftr_div_pow2. reflexivity. Qed.

Lemma C23_lemma : forall iface g vs, graph_ok g vs ->
  exists gi, add_interface_edges iface g = Ok gi /\ graph_ok gi vs /\
    forall u v, arc gi u v <->
      arc g u v \/
      (In u vs /\ In v vs /\ u <> v /\
       ((flag_old_outgoing (iface u) = true /\ flag_old_outgoing (iface v) = true) \/
        (flag_outgoing (iface u) = true /\ flag_outgoing (iface v) = true))).
Proof.
  intros iface g vs H. destruct (interface_ok vs iface g H) as (gi & E & O & A).
  exists gi. split; auto. split; auto. intros u v.
  assert (B : forall i j, nth_error vs i = Some u -> nth_error vs j = Some v ->
     (both_iface iface (nth i vs 0) (nth j vs 0) = true <->
      (flag_old_outgoing (iface u) = true /\ flag_old_outgoing (iface v) = true) \/
      (flag_outgoing (iface u) = true /\ flag_outgoing (iface v) = true))).
  { intros i j Hi Hj. rewrite (nth_error_nth_eq _ _ _ Hi), (nth_error_nth_eq _ _ _ Hj).
    unfold both_iface. rewrite !flag_old_ok, !flag_ok. rewrite orb_true_iff, !andb_true_iff. tauto. }
  split.
  - intros Q. destruct (arc_inv vs gi O u v Q) as (i & j & Hi & Hj & C).
    apply A in C; [|eapply nth_error_lt; eauto..]. destruct C as [C|(NE & C)].
    + left. apply (arc_adj vs g H i j); auto.
    + right. split; [eapply nth_error_In; eauto|]. split; [eapply nth_error_In; eauto|].
      split; [|apply (B i j); auto].
      intros ->. apply NE. eapply nodup_nth_error; eauto. apply H.
  - intros [Q|(Iu & Iv & NE & Q)].
    + destruct (arc_inv vs g H u v Q) as (i & j & Hi & Hj & C).
      apply (arc_adj vs gi O i j); auto. apply A; auto; eapply nth_error_lt; eauto.
    + apply In_nth_error in Iu. destruct Iu as (i & Hi).
      apply In_nth_error in Iv. destruct Iv as (j & Hj).
      apply (arc_adj vs gi O i j); auto. apply A; [eapply nth_error_lt; eauto..|].
      right. split; [intros ->; congruence|]. apply (B i j); auto.
Qed.

Lemma C24_lemma : forall g vs, graph_ok g vs ->
  exists gu, make_graph_undirected g = Ok gu /\ graph_ok gu vs /\
    forall u v, arc gu u v <-> arc g u v \/ arc g v u.
Proof.
  intros g vs H. destruct (undirected_ok vs g H) as (gu & E & O & A).
  exists gu. split; auto. split; auto. intros u v. split.
  - intros Q. destruct (arc_inv vs gu O u v Q) as (i & j & Hi & Hj & C).
    rewrite A in C by (eapply nth_error_lt; eauto). apply orb_true_iff in C.
    destruct C; [left; apply (arc_adj vs g H i j)|right; apply (arc_adj vs g H j i)]; auto.
  - intros [Q|Q].
    + destruct (arc_inv vs g H u v Q) as (i & j & Hi & Hj & C).
      apply (arc_adj vs gu O i j); auto. rewrite A by (eapply nth_error_lt; eauto).
      now rewrite C.
    + destruct (arc_inv vs g H v u Q) as (j & i & Hj & Hi & C).
      apply (arc_adj vs gu O i j); auto. rewrite A by (eapply nth_error_lt; eauto).
      now rewrite C, orb_true_r.
Qed.
