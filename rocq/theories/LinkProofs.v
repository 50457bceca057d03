(** * Proofs about graphs built step by step *)
From Coq Require Import Permutation.
From Verif Require Import Base BaseProofs PotentialModel VariableModel HeapModel JoinTreeModel GraphModel GraphSpec GraphProofs LinkSpec LinkModel.
Import ListNotations.
Open Scope nat_scope.
Local Open Scope res_scope.
Local Notation len := List.length.

(** The identifiers that the index is made for. *)
Definition bounds (g : graph) (nodes : list nat) : Prop :=
  match g_min g, g_max g with
  | Some a, Some b => In a nodes /\ In b nodes /\ forall v, In v nodes -> a <= v <= b
  | None, None => nodes = []
  | _, _ => False
  end.
Definition ind_ok (g : graph) (nodes : list nat) (ind : list nat) : Prop :=
  match g_min g, g_max g with
  | Some a, Some b => len ind = b - a + 1 /\ (forall k x, nth_error ind k = Some x -> x < len nodes) /\
      forall i v, nth_error nodes i = Some v -> nth_error ind (v - a) = Some i
  | _, _ => len ind = 1
  end.
Record built (n : nat) (g : graph) (nodes : list nat) (arcs : list (nat * nat)) : Prop := {
  b_size : g_size g = n;
  b_top : g_top g = len nodes;
  b_le : len nodes <= n;
  b_nodup : NoDup nodes;
  b_vars : g_vars g = (map Some nodes ++ repeat None (n - len nodes))%list;
  b_adj : len (g_adj g) = n * n;
  b_bounds : bounds g nodes;
  b_ind : forall ind, g_ind g = Some ind -> ind_ok g nodes ind;
  b_in : forall i j u v, nth_error nodes i = Some u -> nth_error nodes j = Some v -> adj g i j = is_arc arcs u v;
  b_out : forall i j, i < n -> j < n -> len nodes <= i \/ len nodes <= j -> adj g i j = false;
  b_arcs : forall u v, is_arc arcs u v = true -> In u nodes /\ In v nodes
}.

Lemma is_node_in : forall nodes v, is_node nodes v = true <-> In v nodes.
Proof.
  intros. unfold is_node. rewrite existsb_exists. split.
  - intros (x & H & E). apply Nat.eqb_eq in E. now subst.
  - intros H. exists v. split; [auto|apply Nat.eqb_refl].
Qed.

Lemma vars_at : forall n g nodes arcs, built n g nodes arcs -> forall i v, nth_error nodes i = Some v ->
  rd (g_vars g) i = Ok (Some v).
Proof.
  intros n g nodes arcs H i v E. apply rd_some. rewrite (b_vars _ _ _ _ H).
  rewrite nth_error_app1 by (rewrite map_length; eapply nth_error_lt; eauto). rewrite nth_error_map, E. reflexivity.
Qed.

Lemma build_any : forall n g nodes arcs, built n g nodes arcs ->
  exists ind, build_graph_index g = Ok (set_ind g (Some ind)) /\ ind_ok g nodes ind.
Proof.
  intros n g nodes arcs H. unfold build_graph_index, ind_ok. rewrite (b_top _ _ _ _ H). assert (B := b_bounds _ _ _ _ H). unfold bounds in B.
  destruct (g_min g) as [a|] eqn:EA, (g_max g) as [b|] eqn:EB; try contradiction.
  2:{ subst nodes. cbn. eexists. split; reflexivity. }
  destruct B as (Ba & Bb & BV).
  assert (NE : 0 < len nodes) by (destruct nodes; [contradiction|cbn; lia]).
  match goal with |- context [for_up 0 ?m ?b0 ?s0] =>
    destruct (for_up_inv (list nat)
      (fun t ind => len ind = b - a + 1 /\ (forall k x, nth_error ind k = Some x -> x < len nodes) /\
         forall i v, i < t -> nth_error nodes i = Some v -> nth_error ind (v - a) = Some i) b0 0 m s0) as (ind & E & L & HX & HI)
  end.
  - lia.
  - split; [apply repeat_length|]. split; [|intros; lia]. intros k x E. apply nth_error_In, repeat_spec in E. lia.
  - intros t ind Ht (L & HX & HI). cbn beta.
    destruct (nth_error_ex _ nodes t ltac:(lia)) as (v & Hv). rewrite (vars_at _ _ _ _ H t v Hv). cbn [bind].
    destruct (BV v (nth_error_In _ _ Hv)) as [V1 V2]. unfold id_offset. destruct (Nat.ltb_spec v a); [lia|]. cbn [bind].
    assert (K : v - a < len ind) by lia. rewrite wr_ok by auto. eexists; split; [reflexivity|].
    assert (Q : forall k, nth_error (set_nth ind (v - a) t) k = if Nat.eqb k (v - a) then Some t else nth_error ind k).
    { intros k. destruct (Nat.eqb_spec k (v - a)) as [->|NK].
      - rewrite (nth_error_nth' _ 0) by (rewrite set_nth_length; auto). now rewrite nth_set_nth_eq.
      - destruct (Nat.lt_ge_cases k (len ind)) as [l|l].
        + rewrite !(nth_error_nth' _ 0) by (try rewrite set_nth_length; auto). now rewrite nth_set_nth_neq.
        + rewrite !(proj2 (nth_error_None _ _)); auto. now rewrite set_nth_length. }
    split; [now rewrite set_nth_length|]. split.
    + intros k x. rewrite Q. destruct (Nat.eqb k (v - a)); [intros X; injection X as <-; lia|apply HX].
    + intros i w Hi Hw. rewrite Q. destruct (BV w (nth_error_In _ _ Hw)) as [W1 W2].
      destruct (Nat.eqb_spec (w - a) (v - a)) as [e|e].
      * assert (w = v) by lia. subst w. f_equal. eapply nodup_nth_error; [apply (b_nodup _ _ _ _ H)|eauto|eauto].
      * apply HI; auto. destruct (Nat.eq_dec i t); [|lia]. subst i. exfalso. apply e. rewrite Hw in Hv. congruence.
  - rewrite E. cbn [bind]. exists ind. split; [reflexivity|]. split; [exact L|]. split; [exact HX|].
    intros i v Hi. apply HI; [eapply nth_error_lt; eauto|auto].
Qed.

Lemma set_ind_built : forall n g nodes arcs ind, built n g nodes arcs -> ind_ok g nodes ind -> built n (set_ind g (Some ind)) nodes arcs.
Proof. intros n g nodes arcs ind H I. destruct H. constructor; auto. intros ind' E. injection E as <-. exact I. Qed.

Lemma index_any : forall n g nodes arcs, built n g nodes arcs ->
  exists g' ind, (match g_ind g with None => build_graph_index g | Some _ => Ok g end) = Ok g' /\
    built n g' nodes arcs /\ g_ind g' = Some ind.
Proof.
  intros n g nodes arcs H. destruct (g_ind g) as [ind|] eqn:E; [exists g, ind; auto|].
  destruct (build_any n g nodes arcs H) as (ind & E1 & I). exists (set_ind g (Some ind)), ind. split; [exact E1|].
  split; [exact (set_ind_built _ _ _ _ _ H I)|reflexivity].
Qed.

Lemma find_any : forall n g nodes arcs, built n g nodes arcs -> forall v, between nodes v ->
  exists g' o, graph_index g v = Ok (o, g') /\ built n g' nodes arcs /\
    match o with Some i => nth_error nodes i = Some v | None => ~ In v nodes end.
Proof.
  intros n g nodes arcs H v (x & y & Hx & Hy & Hv). unfold graph_index.
  destruct (index_any n g nodes arcs H) as (g' & ind & E & H' & EI). rewrite E. cbn [bind]. rewrite EI.
  assert (I := b_ind _ _ _ _ H' ind EI). assert (B := b_bounds _ _ _ _ H'). unfold bounds in B. unfold ind_ok in I.
  destruct (g_min g') as [a|], (g_max g') as [b|]; try contradiction; [|subst nodes; contradiction].
  destruct B as (_ & _ & BV), I as (I1 & I2 & I3). destruct (BV x Hx), (BV y Hy).
  unfold id_offset. destruct (Nat.ltb_spec v a); [lia|]. cbn [bind].
  destruct (nth_error_ex _ ind (v - a) ltac:(lia)) as (i & Hi). rewrite (rd_some _ _ _ _ Hi). cbn [bind].
  destruct (nth_error_ex _ nodes i (I2 _ _ Hi)) as (w & Hw). rewrite (vars_at _ _ _ _ H' i w Hw). cbn [bind].
  unfold equal_variables. destruct (Nat.eqb_spec w v) as [->|NW].
  - exists g', (Some i). auto.
  - exists g', None. split; [reflexivity|]. split; [exact H'|]. intros HV. apply In_nth_error in HV. destruct HV as (k & Hk).
    assert (X := I3 k v Hk). rewrite Hi in X. injection X as <-. congruence.
Qed.

Lemma find_outside : forall n g nodes arcs, built n g nodes arcs -> forall v, ~ between nodes v -> graph_index g v = UB.
Proof.
  intros n g nodes arcs H v NB. unfold graph_index.
  destruct (index_any n g nodes arcs H) as (g' & ind & E & H' & EI). rewrite E. cbn [bind]. rewrite EI.
  assert (I := b_ind _ _ _ _ H' ind EI). assert (B := b_bounds _ _ _ _ H'). unfold bounds in B. unfold ind_ok in I.
  assert (R : forall k, len ind <= k -> rd ind k = UB).
  { intros k Hk. unfold rd. apply nth_error_None in Hk. now rewrite Hk. }
  destruct (g_min g') as [a|], (g_max g') as [b|]; try contradiction; unfold id_offset.
  - destruct B as (Ba & Bb & BV), I as (I1 & _). destruct (Nat.ltb_spec v a); [reflexivity|]. cbn [bind]. rewrite R; [reflexivity|].
    destruct (BV a Ba). destruct (Nat.le_gt_cases v b); [|lia]. exfalso. apply NB. exists a, b. auto.
  - cbn [bind]. rewrite R; [reflexivity|lia].
Qed.

Lemma linked_any : forall n g nodes arcs, built n g nodes arcs -> forall u v, between nodes u -> between nodes v ->
  exists g', graph_linked g u v = Ok (is_arc arcs u v, g') /\ built n g' nodes arcs.
Proof.
  intros n g nodes arcs H u v Hu Hv. unfold graph_linked.
  destruct (find_any n g nodes arcs H u Hu) as (g1 & o1 & E1 & H1 & P1). rewrite E1. cbn [bind].
  destruct (find_any n g1 nodes arcs H1 v Hv) as (g2 & o2 & E2 & H2 & P2). rewrite E2. cbn [bind].
  destruct o1 as [i|], o2 as [j|].
  - assert (Li := nth_error_lt _ _ _ _ P1). assert (Lj := nth_error_lt _ _ _ _ P2). assert (LE := b_le _ _ _ _ H2).
    exists g2. split; [|exact H2]. rewrite <- (b_in _ _ _ _ H2 i j u v P1 P2). unfold adjm, adj. rewrite (rd_ok _ _ _ false); [reflexivity|].
    rewrite (b_size _ _ _ _ H2), (b_adj _ _ _ _ H2). apply cell_lt; lia.
  - exists g2. split; [|exact H2]. destruct (is_arc arcs u v) eqn:E; [|reflexivity]. apply (b_arcs _ _ _ _ H2) in E. tauto.
  - exists g2. split; [|exact H2]. destruct (is_arc arcs u v) eqn:E; [|reflexivity]. apply (b_arcs _ _ _ _ H2) in E. tauto.
  - exists g2. split; [|exact H2]. destruct (is_arc arcs u v) eqn:E; [|reflexivity]. apply (b_arcs _ _ _ _ H2) in E. tauto.
Qed.

Lemma child_any : forall n g nodes arcs, built n g nodes arcs -> forall u v, between nodes u -> between nodes v ->
  exists g' e, graph_add_child g u v = Ok (g', e) /\
    if (is_node nodes u && is_node nodes v)%bool then is_err e = false /\ built n g' nodes ((u, v) :: arcs)
    else is_err e = true /\ built n g' nodes arcs.
Proof.
  intros n g nodes arcs H u v Hu Hv. unfold graph_add_child.
  destruct (find_any n g nodes arcs H u Hu) as (g1 & o1 & E1 & H1 & P1). rewrite E1. cbn [bind].
  destruct (find_any n g1 nodes arcs H1 v Hv) as (g2 & o2 & E2 & H2 & P2). rewrite E2. cbn [bind].
  assert (F : forall w, ~ In w nodes -> is_node nodes w = false).
  { intros w N. destruct (is_node nodes w) eqn:E; [|reflexivity]. apply is_node_in in E. contradiction. }
  destruct o1 as [i|]; [destruct o2 as [j|]|].
  - rewrite (proj2 (is_node_in nodes u) (nth_error_In _ _ P1)), (proj2 (is_node_in nodes v) (nth_error_In _ _ P2)). cbn [andb].
    assert (Li := nth_error_lt _ _ _ _ P1). assert (Lj := nth_error_lt _ _ _ _ P2). assert (LE := b_le _ _ _ _ H2).
    assert (L : i * g_size g2 + j < len (g_adj g2)) by (rewrite (b_size _ _ _ _ H2), (b_adj _ _ _ _ H2); apply cell_lt; lia).
    unfold set_adjm. rewrite wr_ok by exact L. cbn [bind]. eexists _, _. split; [reflexivity|]. split; [reflexivity|].
    assert (A : forall i' j', i' < n -> j' < n ->
      adj (set_adj g2 (set_nth (g_adj g2) (i * g_size g2 + j) true)) i' j' = if (Nat.eqb i' i && Nat.eqb j' j)%bool then true else adj g2 i' j').
    { intros i' j' Hi' Hj'. unfold adj. cbn. rewrite nth_set_nth by auto.
      destruct (Nat.eqb_spec (i' * g_size g2 + j') (i * g_size g2 + j)) as [E|E].
      - apply cell_inj in E; [|rewrite (b_size _ _ _ _ H2); lia..]. destruct E as [-> ->]. now rewrite !Nat.eqb_refl.
      - destruct (Nat.eqb_spec i' i), (Nat.eqb_spec j' j); cbn [andb]; try reflexivity; exfalso; apply E; congruence. }
    destruct H2. constructor; auto.
    + cbn. rewrite set_nth_length. auto.
    + intros i' j' u' v' Hu' Hv'. assert (Li' := nth_error_lt _ _ _ _ Hu'). assert (Lj' := nth_error_lt _ _ _ _ Hv').
      rewrite A by lia. unfold is_arc. cbn [existsb fst snd]. fold (is_arc arcs u' v'). rewrite (b_in0 i' j' u' v' Hu' Hv').
      assert (X : Nat.eqb i' i = Nat.eqb u' u).
      { destruct (Nat.eqb_spec i' i) as [->|NE], (Nat.eqb_spec u' u) as [->|NE']; auto; exfalso; [congruence|].
        apply NE. eapply nodup_nth_error; eauto. }
      assert (Y : Nat.eqb j' j = Nat.eqb v' v).
      { destruct (Nat.eqb_spec j' j) as [->|NE], (Nat.eqb_spec v' v) as [->|NE']; auto; exfalso; [congruence|].
        apply NE. eapply nodup_nth_error; eauto. }
      rewrite X, Y. destruct (Nat.eqb u' u && Nat.eqb v' v)%bool; reflexivity.
    + intros i' j' Hi' Hj' O. rewrite A by auto. rewrite (b_out0 i' j' Hi' Hj' O).
      destruct (Nat.eqb_spec i' i), (Nat.eqb_spec j' j); cbn [andb]; auto. exfalso. subst. lia.
    + intros u' v'. unfold is_arc. cbn [existsb fst snd]. fold (is_arc arcs u' v').
      destruct (Nat.eqb_spec u' u) as [->|], (Nat.eqb_spec v' v) as [->|]; cbn [andb orb]; auto.
      intros _. split; eapply nth_error_In; eauto.
  - rewrite (F v P2), Bool.andb_false_r. eexists _, _. split; [reflexivity|]. split; [reflexivity|exact H2].
  - rewrite (F u P1). cbn [andb]. destruct o2; (eexists _, _; split; [reflexivity|]; split; [reflexivity|exact H2]).
Qed.

Lemma node_full : forall n g nodes arcs, built n g nodes arcs -> n <= len nodes -> forall v, graph_add_node g v = Ok (g, GENERAL).
Proof.
  intros n g nodes arcs H F v. unfold graph_add_node. assert (LE := b_le _ _ _ _ H).
  rewrite (b_top _ _ _ _ H), (b_size _ _ _ _ H). destruct (Nat.eqb_spec (len nodes) n); [reflexivity|lia].
Qed.

Lemma node_any : forall n g nodes arcs, built n g nodes arcs -> len nodes < n -> forall v, ~ In v nodes ->
  exists g', graph_add_node g v = Ok (g', NO_ERROR) /\ built n g' (nodes ++ [v])%list arcs.
Proof.
  intros n g nodes arcs H R v NV. unfold graph_add_node.
  rewrite (b_top _ _ _ _ H), (b_size _ _ _ _ H). destruct (Nat.eqb_spec (len nodes) n); [lia|].
  assert (LV : len (g_vars g) = n) by (rewrite (b_vars _ _ _ _ H), app_length, map_length, repeat_length; lia).
  rewrite wr_ok by lia. cbn [bind].
  match goal with |- context [mkGraph ?a ?b ?c ?d ?e ?f ?h] => set (g1 := mkGraph a b c d e f h) end.
  assert (B1 : built n g1 (nodes ++ [v])%list arcs).
  { assert (AD : forall i j, adj g1 i j = adj g i j) by (intros; unfold adj, g1; cbn; now rewrite (b_size _ _ _ _ H)).
    assert (NA : forall u w, u = v \/ w = v -> is_arc arcs u w = false).
    { intros u w O. destruct (is_arc arcs u w) eqn:E; [|reflexivity]. apply (b_arcs _ _ _ _ H) in E. destruct O; subst; tauto. }
    destruct H. constructor.
    - reflexivity.
    - unfold g1. cbn. rewrite app_length. cbn. lia.
    - rewrite app_length. cbn. lia.
    - apply (Permutation_NoDup (l := v :: nodes)); [|constructor; auto]. apply Permutation_cons_append.
    - unfold g1. cbn. rewrite b_vars0, app_length, map_app. cbn [List.length map].
      destruct (n - len nodes) as [|r] eqn:ER; [lia|]. replace (n - (len nodes + 1)) with r by lia.
      rewrite <- app_assoc. cbn [repeat app]. clear. induction nodes as [|x l IH]; [reflexivity|]. cbn. f_equal. exact IH.
    - exact b_adj0.
    - unfold bounds in *. unfold g1. cbn [g_min g_max]. destruct (g_min g) as [a|], (g_max g) as [b|]; try contradiction.
      + destruct b_bounds0 as (X1 & X2 & X3). destruct (X3 a X1), (X3 b X2).
        destruct (Nat.ltb_spec v a), (Nat.ltb_spec b v); rewrite ?in_app_iff; cbn [In];
          (split; [tauto|split; [tauto|]]; intros w W; rewrite in_app_iff in W; cbn [In] in W;
           destruct W as [W|[<-|[]]]; [apply X3 in W; lia|lia]).
      + subst nodes. cbn. split; [auto|]. split; [auto|]. intros w [<-|[]]. lia.
    - discriminate.
    - intros i j u w Hu Hw. rewrite AD.
      destruct (Nat.lt_ge_cases i (len nodes)) as [Li|Li]; [rewrite nth_error_app1 in Hu by auto|].
      + destruct (Nat.lt_ge_cases j (len nodes)) as [Lj|Lj]; [rewrite nth_error_app1 in Hw by auto; auto|].
        assert (Lj2 := nth_error_lt _ _ _ _ Hw). rewrite app_length in Lj2. cbn in Lj2.
        rewrite nth_error_app2 in Hw by auto. replace (j - len nodes) with 0 in Hw by lia. cbn in Hw. injection Hw as <-.
        rewrite NA by auto. apply b_out0; lia.
      + assert (Li2 := nth_error_lt _ _ _ _ Hu). assert (Lj2 := nth_error_lt _ _ _ _ Hw). rewrite app_length in Li2, Lj2. cbn in Li2, Lj2.
        rewrite nth_error_app2 in Hu by auto. replace (i - len nodes) with 0 in Hu by lia. cbn in Hu. injection Hu as <-.
        rewrite NA by auto. apply b_out0; lia.
    - intros i j Hi Hj O. rewrite AD. rewrite app_length in O. cbn in O. apply b_out0; lia.
    - intros u w E. rewrite !in_app_iff. apply b_arcs0 in E. tauto. }
  change (g_top g1) with (S (len nodes)). change (g_size g1) with n. destruct (Nat.eqb (S (len nodes)) n).
  - destruct (build_any n g1 _ arcs B1) as (ind & E & I). rewrite E. cbn [bind]. eexists. split; [reflexivity|].
    exact (set_ind_built _ _ _ _ _ B1 I).
  - eexists. split; [reflexivity|exact B1].
Qed.

Lemma new_built : forall n, built n (new_graph n) [] [].
Proof.
  intros n. constructor; try reflexivity; try discriminate.
  - cbn. lia.
  - constructor.
  - cbn. now rewrite Nat.sub_0_r.
  - apply repeat_length.
  - intros [|i]; discriminate.
  - intros i j Hi Hj _. unfold adj. cbn. apply nth_repeat_lt. now apply cell_lt.
Qed.

Lemma acts_any : forall n l g nodes arcs, built n g nodes arcs -> proper n nodes l ->
  exists g' arcs', acts g l = Ok (expected n nodes arcs l, g') /\ built n g' (nodes_after n nodes l) arcs'.
Proof.
  intros n. induction l as [|a l IH]; intros g nodes arcs H P; [exists g, arcs; auto|].
  destruct a as [v|u v|u v]; cbn [acts expected nodes_after proper act] in *.
  - destruct (Nat.ltb_spec (len nodes) n) as [R|R].
    + destruct P as [NV P]. destruct (node_any n g nodes arcs H R v NV) as (g1 & E & H1). rewrite E. cbn [bind is_err].
      destruct (IH g1 _ arcs H1 P) as (g2 & arcs2 & E2 & H2). rewrite E2. cbn [bind]. exists g2, arcs2. auto.
    + rewrite (node_full n g nodes arcs H R v). cbn [bind is_err].
      destruct (IH g _ arcs H P) as (g2 & arcs2 & E2 & H2). rewrite E2. cbn [bind]. exists g2, arcs2. auto.
  - destruct P as (Pu & Pv & P). destruct (child_any n g nodes arcs H u v Pu Pv) as (g1 & e & E & Q). rewrite E. cbn [bind].
    destruct (is_node nodes u && is_node nodes v)%bool; destruct Q as [-> H1];
      destruct (IH g1 _ _ H1 P) as (g2 & arcs2 & E2 & H2); rewrite E2; cbn [bind]; exists g2, arcs2; auto.
  - destruct P as (Pu & Pv & P). destruct (linked_any n g nodes arcs H u v Pu Pv) as (g1 & E & H1). rewrite E. cbn [bind].
    destruct (IH g1 _ _ H1 P) as (g2 & arcs2 & E2 & H2). rewrite E2. cbn [bind]. exists g2, arcs2. auto.
Qed.

Lemma acts_ok : forall n l, proper n [] l -> exists g, acts (new_graph n) l = Ok (expected n [] [] l, g).
Proof. intros n l P. destruct (acts_any n l _ [] [] (new_built n) P) as (g & arcs & E & _). eauto. Qed.

Lemma acts_app : forall l1 l2 g, acts g (l1 ++ l2)%list =
  let* (xs, g) := acts g l1 in let* (ys, g) := acts g l2 in Ok ((xs ++ ys)%list, g).
Proof.
  induction l1 as [|a l IH]; intros l2 g; cbn [acts app bind].
  - destruct (acts g l2) as [[ys g2]| |]; reflexivity.
  - destruct (act g a) as [[x g1]| |]; [|reflexivity..]. cbn [bind]. rewrite IH.
    destruct (acts g1 l) as [[xs g2]| |]; [|reflexivity..]. cbn [bind].
    destruct (acts g2 l2) as [[ys g3]| |]; reflexivity.
Qed.

Lemma outside_undefined : forall n l u v, proper n [] l ->
  ~ between (nodes_after n [] l) u \/ between (nodes_after n [] l) u /\ ~ between (nodes_after n [] l) v ->
  acts (new_graph n) (l ++ [Linked u v])%list = UB /\ acts (new_graph n) (l ++ [Child u v])%list = UB.
Proof.
  intros n l u v P O. destruct (acts_any n l _ [] [] (new_built n) P) as (g & arcs & E & H).
  assert (X : forall A (f : _ -> res A), (let* (pi, g) := graph_index g u in let* (ci, g) := graph_index g v in f (pi, ci, g)) = UB).
  { intros A f. destruct O as [O|[O1 O2]].
    - rewrite (find_outside _ _ _ _ H u O). reflexivity.
    - destruct (find_any _ _ _ _ H u O1) as (g1 & o & E1 & H1 & _). rewrite E1. cbn [bind].
      rewrite (find_outside _ _ _ _ H1 v O2). reflexivity. }
  rewrite !acts_app, E. cbn [bind acts act]. unfold graph_linked, graph_add_child. split.
  - rewrite (X _ (fun '(pi, ci, g) => match pi, ci with Some i, Some j => let* b := adjm g i j in Ok (b, g) | _, _ => Ok (false, g) end)).
    reflexivity.
  - rewrite (X _ (fun '(pi, ci, g) => match pi, ci with Some i, Some j => let* g := set_adjm g i j true in Ok (g, NO_ERROR) | _, _ => Ok (g, EINVAL) end)).
    reflexivity.
Qed.
