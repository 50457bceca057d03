(** * Proofs about nipgraph.c: triangulation *)
From Coq Require Import Permutation.
From Verif Require Import Base BaseProofs PotentialModel VariableModel VariableProofs HeapModel
  HeapSpec HeapProofs HeapProofs2 JoinTreeModel GraphModel GraphSpec GraphProofs
  GraphTheory GraphTheory2.
Import ListNotations.
Open Scope nat_scope.
Local Open Scope res_scope.

(** ** Clusters *)
Definition nbrs (vs : list nat) (g : graph) (i : nat) : list nat :=
  map (fun j => nth j vs 0) (filter (adj g i) (seq 0 (length vs))).

Lemma seq_snoc : forall t, seq 0 (S t) = seq 0 t ++ [t].
Proof. intros t. rewrite seq_S. reflexivity. Qed.

Lemma set_nth_mid : forall {A} (l r : list A) x y, set_nth (l ++ x :: r) (length l) y = l ++ y :: r.
Proof. intros A l r x y. induction l as [|z l IH]; cbn; [reflexivity|]. now rewrite IH. Qed.

Lemma graph_cluster_ok : forall vs g, graph_ok g vs -> forall i v, nth_error vs i = Some v ->
  exists g', graph_cluster g v = Ok (Some (v :: nbrs vs g i), g') /\ graph_ok g' vs /\
    g_adj g' = g_adj g.
Proof.
  intros vs g H i v Hi. unfold graph_cluster. rewrite (gk_top _ _ H).
  assert (Li := nth_error_lt _ _ _ _ Hi).
  destruct (graph_index_ok vs g H i v Hi) as (g' & E & O & A). rewrite E. cbn [bind].
  assert (AE : forall j, adj g' i j = adj g i j) by (intros; apply (same_adj vs); auto).
  match goal with |- context [for_up 0 (length vs) ?b0 0] =>
    destruct (for_up_inv nat (fun t j => j = length (filter (adj g i) (seq 0 t))) b0 0 (length vs) 0)
      as (count & E1 & C1)
  end; [lia|auto| |].
  { intros t j Ht ->. rewrite (adjm_ok vs g' O) by lia. cbn [bind]. rewrite AE.
    eexists; split; [reflexivity|]. rewrite seq_snoc, filter_app, app_length. cbn.
    destruct (adj g i t); cbn; lia. }
  rewrite E1. cbn [bind]. rewrite wr_ok by (rewrite repeat_length; lia). cbn [bind].
  match goal with |- context [for_up 0 (length vs) ?b0 ?s0] =>
    destruct (for_up_inv (list nat * nat)
      (fun t '(cl, j) =>
         j = S (length (filter (adj g i) (seq 0 t))) /\
         cl = (v :: map (fun j => nth j vs 0) (filter (adj g i) (seq 0 t))) ++
              repeat 0 (count - length (filter (adj g i) (seq 0 t)))) b0 0 (length vs) s0)
      as ([cl j] & E2 & C2 & C3)
  end.
  - lia.
  - split; auto. cbn. now rewrite Nat.sub_0_r.
  - intros t [cl j] Ht (-> & ->). rewrite (adjm_ok vs g' O) by lia. cbn [bind]. rewrite AE.
    rewrite seq_snoc, filter_app. cbn [filter].
    destruct (adj g i t) eqn:B.
    + assert (V : nth_error (g_vars g') t = Some (Some (nth t vs 0)))
        by (apply (ok_var vs g' O), nth_error_nth'; lia).
      rewrite (rd_some _ _ _ _ V). cbn [bind].
      set (F := filter (adj g i) (seq 0 t)).
      assert (LC : length F < count).
      { rewrite C1. assert (Q : seq 0 (length vs) = seq 0 t ++ t :: seq (S t) (length vs - S t)).
        { replace (length vs) with (t + S (length vs - S t)) at 1 by lia.
          rewrite seq_app. reflexivity. }
        rewrite Q, filter_app, app_length. cbn [filter]. rewrite B. cbn. unfold F. lia. }
      rewrite wr_ok by (rewrite app_length; cbn; rewrite map_length, repeat_length; lia).
      cbn [bind]. eexists; split; [reflexivity|].
      rewrite app_length. cbn [length]. split; [lia|].
      rewrite map_app. cbn [map].
      replace (count - length F) with (S (count - (length F + 1))) by lia.
      change (repeat 0 (S (count - (length F + 1)))) with (0 :: repeat 0 (count - (length F + 1))).
      replace (S (length F)) with (length (v :: map (fun j => nth j vs 0) F))
        by (cbn [length]; now rewrite map_length).
      rewrite set_nth_mid. cbn [app]. now rewrite <- app_assoc.
    + eexists; split; [reflexivity|]. rewrite app_nil_r. auto.
  - rewrite E2. cbn [bind]. exists g'. split; [|auto]. f_equal. f_equal.
    rewrite C3. unfold nbrs. rewrite C1, Nat.sub_diag. cbn [repeat]. now rewrite app_nil_r.
Qed.

Lemma nbrs_in : forall vs g, graph_ok g vs -> forall i v, nth_error vs i = Some v ->
  forall u, In u (nbrs vs g i) <-> In u vs /\ arc g v u.
Proof.
  intros vs g H i v Hi u. unfold nbrs. rewrite in_map_iff. split.
  - intros (j & <- & Hj). apply filter_In in Hj. destruct Hj as [Hj B]. apply in_seq in Hj.
    assert (Q : nth_error vs j = Some (nth j vs 0)) by (apply nth_error_nth'; lia).
    split; [apply nth_In; lia|]. apply (arc_adj vs g H i j); auto.
  - intros (Hu & A). destruct (arc_inv vs g H v u A) as (i' & j & Hi' & Hj & B).
    assert (i' = i) by (eapply nodup_nth_error; eauto; apply H). subst i'.
    exists j. split; [apply nth_error_nth_eq; auto|]. apply filter_In. split; auto.
    apply in_seq. assert (L := nth_error_lt _ _ _ _ Hj). lia.
Qed.

Lemma nbrs_nodup : forall vs g, graph_ok g vs -> forall i, NoDup (nbrs vs g i).
Proof.
  intros vs g H i. unfold nbrs. apply NoDup_map_on; [|apply NoDup_filter, seq_NoDup].
  intros x y Hx Hy E. apply filter_In in Hx, Hy. destruct Hx as [Hx _], Hy as [Hy _].
  apply in_seq in Hx, Hy. eapply NoDup_nth; [apply (gk_nodup _ _ H)|lia|lia|exact E].
Qed.

(** ** The heap of clusters

    The cluster of each remaining variable is in the heap: the variable first,
    then its neighbours. *)
Record cl_ok (A : rel) (rem : list nat) (M : list (list nat)) : Prop := mkClOk {
  co_nodup : NoDup (map (hd 0) M);
  co_heads : forall v, In v (map (hd 0) M) <-> In v rem;
  co_each : forall c, In c M -> NoDup c /\ exists w l, c = w :: l /\
              forall u, In u l <-> In u rem /\ A w u
}.

Lemma cl_ok_perm : forall A rem M M', Permutation M M' -> cl_ok A rem M -> cl_ok A rem M'.
Proof.
  intros A rem M M' HP [C1 C2 C3]. assert (HP2 := Permutation_map (hd 0) HP). constructor.
  - eapply Permutation_NoDup; eauto.
  - intros v. rewrite <- C2. split; apply Permutation_in; auto using Permutation_sym.
  - intros c Hc. apply C3. apply Permutation_in with M'; auto using Permutation_sym.
Qed.

Lemma build_cluster_heap_ok : forall k1 k2 vs g, graph_ok g vs -> vs <> [] ->
  (forall u, ~ arc g u u) ->
  exists h M g', build_cluster_heap k1 k2 g = Ok (Some h, g') /\ stores k1 k2 h M /\
    h_heapified h = true /\ graph_ok g' vs /\ g_adj g' = g_adj g /\
    length M = length vs /\ cl_ok (arc g) vs M.
Proof.
  intros k1 k2 vs g H NE IR. unfold build_cluster_heap. rewrite (gk_top _ _ H).
  destruct (new_heap_ok k1 k2 (length vs)) as (h0 & E0 & S0 & A0 & F0 & U0).
  { destruct vs; [congruence|cbn; lia]. }
  rewrite E0.
  match goal with |- context [for_up 0 (length vs) ?b0 ?s0] =>
    destruct (for_up_inv (heap (list nat) * graph)
      (fun t '(h, g') => stores k1 k2 h (map (fun i => nth i vs 0 :: nbrs vs g i) (seq 0 t)) /\
         h_alloc h = length vs /\ h_heapified h = false /\ h_updated h = [] /\
         graph_ok g' vs /\ g_adj g' = g_adj g) b0 0 (length vs) s0)
      as ([h g'] & E & S1 & A1 & F1 & U1 & O1 & J1)
  end.
  - lia.
  - cbn. auto 10.
  - intros t [h g'] Ht (S1 & A1 & F1 & U1 & O1 & J1).
    assert (Q : nth_error vs t = Some (nth t vs 0)) by (apply nth_error_nth'; lia).
    assert (V : nth_error (g_vars g') t = Some (Some (nth t vs 0))) by (apply (ok_var vs g' O1); auto).
    rewrite (rd_some _ _ _ _ V). cbn [bind].
    destruct (graph_cluster_ok vs g' O1 t (nth t vs 0) Q) as (g2 & E2 & O2 & J2).
    rewrite E2. cbn [bind].
    match goal with |- context [heap_insert k1 k2 true true h ?x] =>
      destruct (insert_ok k1 k2 h _ x true S1) as (h2 & E3 & S3 & A3 & F3 & U3) end.
    { rewrite map_length, seq_length. lia. }
    rewrite E3. cbn [bind]. eexists; split; [reflexivity|]. split.
    + rewrite seq_snoc, map_app. cbn [map].
      assert (NB : nbrs vs g t = nbrs vs g' t).
      { unfold nbrs. f_equal. apply filter_ext. intros j. symmetry. apply (same_adj vs); auto. }
      rewrite NB. exact S3.
    + split; [lia|]. split; [auto|]. split; [congruence|]. split; [auto|congruence].
  - rewrite E. cbn [bind].
    destruct (build_ok k1 k2 h _ S1 F1) as (h2 & M2 & E2 & S2 & P2 & _ & A2 & F2 & U2).
    rewrite E2. cbn [bind].
    exists h2, M2, g'. split; auto. split; auto. split; auto. split; auto. split; auto.
    split; [rewrite (Permutation_length P2), map_length, seq_length; auto|].
    apply cl_ok_perm with (map (fun i => nth i vs 0 :: nbrs vs g i) (seq 0 (length vs)));
      [apply Permutation_sym; auto|].
    assert (HD : map (hd 0) (map (fun i => nth i vs 0 :: nbrs vs g i) (seq 0 (length vs))) = vs).
    { rewrite map_map. cbn [hd]. clear. apply (list_ext_nth _ 0).
      - now rewrite map_length, seq_length.
      - intros i Hi. rewrite map_length, seq_length in Hi.
        rewrite (nth_map _ _ _ _ _ 0) by (now rewrite seq_length). now rewrite seq_nth. }
    constructor.
    + rewrite HD. apply H.
    + intros v. rewrite HD. tauto.
    + intros c Hc. apply in_map_iff in Hc. destruct Hc as (i & <- & Hi). apply in_seq in Hi.
      assert (Q : nth_error vs i = Some (nth i vs 0)) by (apply nth_error_nth'; lia).
      split.
      * constructor; [|apply (nbrs_nodup vs g H)].
        intros B. apply (nbrs_in vs g H i _ Q) in B. destruct B as [_ B]. exact (IR _ B).
      * exists (nth i vs 0), (nbrs vs g i). split; auto. apply (nbrs_in vs g H i _ Q).
Qed.

(** ** nip_update_cluster_heap *)
Lemma remove_ok : forall v c,
  remove_from_cluster v c (length c) = Ok (filter (fun x => negb (Nat.eqb v x)) c).
Proof.
  intros v c. unfold remove_from_cluster.
  match goal with |- context [for_up 0 (length c) ?b0 ?s0] =>
    destruct (for_up_inv (list nat * nat)
      (fun t '(d, k) => length d = length c /\ k <= t /\
         firstn k d = filter (fun x => negb (Nat.eqb v x)) (firstn t c) /\
         forall j, t <= j -> nth j d 0 = nth j c 0) b0 0 (length c) s0)
      as ([d k] & E & L & K & F & _)
  end.
  - lia.
  - cbn. auto.
  - intros t [d k] Ht (L & K & F & T). rewrite (rd_ok _ _ _ 0) by lia. cbn [bind].
    rewrite T by lia.
    assert (FS : firstn (S t) c = firstn t c ++ [nth t c 0]).
    { clear -Ht. destruct Ht as [_ Ht]. revert t Ht. induction c as [|x c IH]; intros [|t] Ht; cbn in *; try lia; auto.
      f_equal. apply IH; lia. }
    rewrite FS, filter_app. cbn [filter]. unfold equal_variables.
    destruct (Nat.eqb v (nth t c 0)) eqn:B; cbn [negb].
    + eexists; split; [reflexivity|]. rewrite app_nil_r. split; [auto|]. split; [lia|].
      split; [auto|]. intros j Hj. apply T; lia.
    + rewrite wr_ok by lia. cbn [bind]. eexists; split; [reflexivity|].
      cbv beta iota. rewrite set_nth_length. split; [auto|]. split; [lia|]. split.
      * rewrite <- F. clear -K L Ht. assert (Hk : k < length d) by lia. clear -Hk.
        revert k Hk. induction d as [|x d IH]; intros [|k] Hk; cbn in *; try lia; auto.
        f_equal. apply IH; lia.
      * intros j Hj. rewrite nth_set_nth_neq by lia. apply T; lia.
  - rewrite E. cbn [bind]. rewrite F, firstn_all. reflexivity.
Qed.

(** The new cluster of a neighbour. *)
Definition merged (c old : list nat) : list nat :=
  filter (fun x => negb (Nat.eqb (hd 0 c) x)) (old ++ new_in old c).

Lemma merged_in : forall c old x, In x (merged c old) <-> x <> hd 0 c /\ (In x old \/ In x c).
Proof.
  intros c old x. unfold merged. rewrite filter_In, union_in, negb_true_iff, Nat.eqb_neq.
  intuition.
Qed.

Lemma merged_nodup : forall c old, NoDup c -> NoDup old -> NoDup (merged c old).
Proof. intros. apply NoDup_filter, union_nodup; auto. Qed.

Lemma merged_head : forall c w l, w <> hd 0 c -> exists l', merged c (w :: l) = w :: l'.
Proof.
  intros c w l NE. unfold merged. cbn [app filter].
  destruct (Nat.eqb_spec (hd 0 c) w); [congruence|]. cbn [negb]. eauto.
Qed.

Lemma update_cluster_heap_ok : forall k1 k2 A rem v l h M A' rem',
  (forall u, ~ A u u) -> (forall u w, A u w -> A w u) ->
  step A rem v l A' rem' ->
  stores k1 k2 h M -> h_heapified h = true ->
  cl_ok A rem ((v :: l) :: M) ->
  exists h' M', update_cluster_heap k1 k2 h (v :: l) = Ok h' /\ stores k1 k2 h' M' /\
    h_heapified h' = true /\ length M' = length M /\ cl_ok A' rem' M'.
Proof.
  intros k1 k2 A rem v l h M A' rem' IR SY ST HS HH [C1 C2 C3].
  set (c := v :: l) in *.
  assert (NDc : NoDup c) by apply (st_nodup _ _ _ _ _ _ ST).
  assert (NDl : NoDup l) by (inversion NDc; auto).
  assert (VL : ~ In v l) by (inversion NDc; auto).
  cbn [map] in C1. inversion C1 as [|? ? NV NDM]; subst. cbn [hd] in NV. change (hd 0 c) with v in NV.
  assert (LM : forall w, In w l -> exists p, p < length M /\ hd 0 (nth p M []) = w).
  { intros w Hw. assert (R : In w rem) by (apply (st_nbrs _ _ _ _ _ _ ST); auto).
    apply C2 in R. cbn [map] in R. destruct R as [R|R]; [cbn in R; subst; contradiction|].
    apply in_map_iff in R. destruct R as (d & E & Hd). apply (In_nth _ _ []) in Hd.
    destruct Hd as (p & Hp & <-). eauto. }
  assert (EM : forall p, p < length M -> NoDup (nth p M []) /\ exists w l', nth p M [] = w :: l' /\
            forall u, In u l' <-> In u rem /\ A w u).
  { intros p Hp. apply C3. right. apply nth_In; auto. }
  set (fM := fun t => map (fun d => if memb (hd 0 d) (firstn t l) then merged c d else d) M).
  unfold update_cluster_heap. change (rd c 0) with (Ok v). cbn [bind].
  match goal with |- context [for_up 1 (length c) ?b0 ?s0] =>
    destruct (for_up_inv (heap (list nat))
      (fun t h' => stores k1 k2 h' (fM (t - 1)) /\ h_heapified h' = true) b0 1 (length c) s0)
      as (h1 & E & S1 & H1)
  end.
  - cbn; lia.
  - split; auto. replace (fM (1 - 1)) with M; auto. unfold fM. cbn. symmetry. apply map_id.
  - intros i h' Hi (S1 & H1). cbn [length c] in Hi.
    assert (Hl : i - 1 < length l) by lia.
    set (w := nth (i - 1) l 0).
    assert (Ec : nth_error c i = Some w).
    { unfold c. destruct i as [|i]; [lia|]. cbn. unfold w. cbn. rewrite Nat.sub_0_r.
      apply nth_error_nth'. lia. }
    rewrite (rd_some _ _ _ _ Ec). cbn [bind].
    assert (Wl : In w l) by (apply nth_In; auto).
    destruct (LM w Wl) as (p & Hp & HW).
    destruct (EM p Hp) as (NDp & w' & l' & Ep & Hl').
    assert (w' = w) by (rewrite Ep in HW; auto). subst w'.
    assert (WV : w <> v) by (intros Q; rewrite Q in Wl; contradiction).
    assert (LfM : length (fM (i - 1)) = length M) by apply map_length.
    assert (NW : memb w (firstn (i - 1) l) = false).
    { apply memb_notin. intros Q. apply (In_nth _ _ 0) in Q. destruct Q as (q & Hq & Eq).
      rewrite firstn_length in Hq. rewrite nth_firstn in Eq by lia. unfold w in Eq.
      apply (NoDup_nth l 0) in Eq; auto; lia. }
    assert (Np : nth p (fM (i - 1)) [] = w :: l').
    { unfold fM. rewrite (nth_map _ _ _ _ _ []) by auto. rewrite Ep. cbn [hd]. now rewrite NW. }
    assert (HDS : forall q, q < length M -> hd 0 (nth q (fM (i - 1)) []) = hd 0 (nth q M [])).
    { intros q Hq. unfold fM. rewrite (nth_map _ _ _ _ _ []) by auto.
      destruct (EM q Hq) as (_ & x & lx & Ex & _). rewrite Ex. cbn [hd].
      destruct (memb x (firstn (i - 1) l)) eqn:B; auto.
      apply memb_in in B.
      assert (x <> v).
      { intros ->. apply VL. clear -B. revert B. generalize (i - 1). induction l; intros [|n] B; cbn in *; auto.
        - destruct B.
        - destruct B; auto. right; eauto. }
      destruct (merged_head c x lx) as (l2 & E2); [exact H|]. now rewrite E2. }
    rewrite (search_ok k1 k2 h' (fM (i - 1)) (family_cluster w) S1 p []); [|lia|..].
    2:{ rewrite Np. cbn. unfold equal_variables. apply Nat.eqb_refl. }
    2:{ intros q Hq. assert (Hq' : q < length M) by lia.
        specialize (HDS q Hq'). destruct (nth q (fM (i - 1)) []) as [|x lx]; [reflexivity|].
        cbn [family_cluster hd] in *. unfold equal_variables. apply Nat.eqb_neq.
        intros ->. assert (q = p); [|lia].
        apply (NoDup_nth (map (hd 0) M) 0); auto; [rewrite map_length; lia..|].
        rewrite !(nth_map _ _ _ _ _ []) by auto. congruence. }
    cbn [bind].
    rewrite (get_item_ok k1 k2 h' (fM (i - 1)) p [] S1) by lia. cbn [bind]. rewrite Np.
    change (arr (w :: l')) with (Some (w :: l')). change (arr c) with (Some c).
    rewrite union_ok; [|cbn; lia|rewrite <- Ep; auto|auto]. cbn [bind].
    change (rd ((w :: l') ++ new_in (w :: l') c) 0) with (Ok w). cbn [bind].
    change (rd (w :: l') 0) with (Ok w). cbn [bind]. rewrite Nat.eqb_refl. cbn [negb].
    rewrite Nat2Z.id, remove_ok. cbn [bind].
    change (filter (fun x => negb (Nat.eqb v x)) ((w :: l') ++ new_in (w :: l') c))
      with (merged c (w :: l')).
    destruct (merged_head c w l') as (l2 & E2); [exact WV|].
    assert (SZ : Nat.ltb 0 (length (merged c (w :: l'))) = true) by (rewrite E2; reflexivity).
    rewrite SZ.
    destruct (set_item_ok k1 k2 h' (fM (i - 1)) p (merged c (w :: l')) [] S1) as
      (h2 & E3 & S3 & _ & F3 & _); [lia|].
    rewrite E3. cbn [bind]. exists h2. split; auto. split; [|congruence].
    replace (fM (S i - 1)) with (set_nth (fM (i - 1)) p (merged c (w :: l'))); auto.
    apply (list_ext_nth _ []).
    + rewrite set_nth_length. unfold fM. now rewrite !map_length.
    + intros q Hq. rewrite set_nth_length, LfM in Hq. rewrite nth_set_nth by lia.
      assert (FS : firstn (S i - 1) l = firstn (i - 1) l ++ [w]).
      { replace (S i - 1) with (S (i - 1)) by lia. unfold w. clear -Hl.
        revert Hl. generalize (i - 1). induction l as [|x l0 IH]; intros [|t] Ht; cbn in *; try lia; auto.
        f_equal. apply IH; lia. }
      unfold fM. rewrite !(nth_map _ _ _ _ _ []) by auto. rewrite FS.
      destruct (Nat.eqb_spec q p) as [->|NQ].
      * rewrite Ep. cbn [hd].
        replace (memb w (firstn (i - 1) l ++ [w])) with true; auto.
        symmetry. apply memb_in. apply in_or_app. right; left; auto.
      * destruct (EM q Hq) as (_ & x & lx & Ex & _). rewrite Ex. cbn [hd].
        assert (XW : x <> w).
        { intros ->. apply NQ. apply (NoDup_nth (map (hd 0) M) 0); auto; [rewrite map_length; lia..|].
          rewrite !(nth_map _ _ _ _ _ []) by auto. rewrite Ex. cbn [hd]. congruence. }
        replace (memb x (firstn (i - 1) l ++ [w])) with (memb x (firstn (i - 1) l)); auto.
        destruct (memb x (firstn (i - 1) l)) eqn:B; symmetry.
        -- apply memb_in. apply memb_in in B. apply in_or_app; auto.
        -- apply memb_notin. apply memb_notin in B. intros Q. apply in_app_or in Q.
           destruct Q as [Q|[Q|[]]]; auto.
  - rewrite E. cbn [bind].
    destruct (rebuild_heap_any k1 k2 h1 _ S1 H1) as (h2 & M2 & E2 & S2 & P2 & F2 & _).
    exists h2, M2. split; auto. split; auto. split; auto.
    split; [rewrite (Permutation_length P2); apply map_length|].
    apply cl_ok_perm with (fM (length c - 1)); [apply Permutation_sym; auto|].
    assert (EQ : fM (length c - 1) = map (fun d => if memb (hd 0 d) l then merged c d else d) M).
    { unfold fM. replace (length c - 1) with (length l) by (cbn; lia). now rewrite firstn_all. }
    rewrite EQ.
    assert (HDS : map (hd 0) (map (fun d => if memb (hd 0 d) l then merged c d else d) M)
                  = map (hd 0) M).
    { rewrite map_map. apply map_ext_in. intros d Hd.
      destruct (C3 d (or_intror Hd)) as (_ & x & lx & -> & _). cbn [hd].
      destruct (memb x l) eqn:B; auto. apply memb_in in B.
      destruct (merged_head c x lx) as (l2 & Q); [intros Q; rewrite Q in B; contradiction|].
      now rewrite Q. }
    constructor.
    + rewrite HDS. auto.
    + intros u. rewrite HDS, (st_rem _ _ _ _ _ _ ST), <- C2. cbn [map In hd c].
      split; [intros Q; split; auto; intros ->; contradiction|]. intros [[Q|Q] N]; auto; congruence.
    + intros d Hd. apply in_map_iff in Hd. destruct Hd as (d0 & <- & Hd0).
      destruct (C3 d0 (or_intror Hd0)) as (ND0 & x & lx & -> & Hx). cbn [hd].
      assert (XV : x <> v).
      { intros ->. apply NV. apply in_map_iff. exists (v :: lx). auto. }
      destruct (memb x l) eqn:B.
      * apply memb_in in B. split; [apply merged_nodup; auto|].
        destruct (merged_head c x lx) as (l2 & Q); [exact XV|]. exists x, l2. split; auto.
        assert (ND2 : NoDup (x :: l2)) by (rewrite <- Q; apply merged_nodup; auto).
        intros u. rewrite (st_rem _ _ _ _ _ _ ST), (st_fill _ _ _ _ _ _ ST).
        assert (MI := merged_in c (x :: lx) u). rewrite Q in MI. cbn [hd c] in MI.
        split.
        -- intros Hu. assert (UX : u <> x) by (intros ->; inversion ND2; contradiction).
           assert (G : u <> v /\ (In u (x :: lx) \/ In u c)) by (apply MI; right; auto).
           destruct G as [UV [[G|G]|[G|G]]]; try congruence.
           ++ apply Hx in G. split; [tauto|]. left; tauto.
           ++ split; [split; auto; apply (st_nbrs _ _ _ _ _ _ ST) in G; tauto|].
              right. split; auto. split; right; auto.
        -- intros ((Ru & UV) & G).
           assert (UX : u <> x).
           { intros ->. destruct G as [G|G]; [exact (IR _ G)|tauto]. }
           assert (G2 : In u (x :: l2)).
           { apply MI. split; auto. destruct G as [G|(_ & _ & G)]; [left; right; apply Hx; auto|right; auto]. }
           destruct G2; [congruence|auto].
      * apply memb_notin in B. split; auto. exists x, lx. split; auto.
        intros u. rewrite Hx, (st_rem _ _ _ _ _ _ ST), (st_fill _ _ _ _ _ _ ST).
        assert (NX : ~ A x v).
        { intros Q. apply B. apply (st_nbrs _ _ _ _ _ _ ST). split; auto.
          apply C2. cbn [map In]. right. apply in_map_iff. exists (x :: lx). auto. }
        split.
        -- intros [Ru Q]. split; [split; auto; intros ->; contradiction|]. left; auto.
        -- intros [[Ru UV] [Q|(_ & Q & _)]]; auto. destruct Q; congruence || contradiction.
Qed.

(** ** Joining the members of a cluster *)
Lemma arc_same : forall vs g g', graph_ok g vs -> graph_ok g' vs -> g_adj g' = g_adj g ->
  forall u w, arc g' u w <-> arc g u w.
Proof.
  intros vs g g' H H' A u w. split; intros Q.
  - destruct (arc_inv vs g' H' u w Q) as (i & j & Hi & Hj & B).
    apply (arc_adj vs g H i j); auto. rewrite <- B. symmetry. apply (same_adj vs); auto.
  - destruct (arc_inv vs g H u w Q) as (i & j & Hi & Hj & B).
    apply (arc_adj vs g' H' i j); auto. rewrite <- B. apply (same_adj vs); auto.
Qed.

Lemma join_ok : forall vs g, graph_ok g vs -> forall i j u w,
  nth_error vs i = Some u -> nth_error vs j = Some w ->
  exists g', (let* g := set_adjm g i j true in set_adjm g j i true) = Ok g' /\ graph_ok g' vs /\
    forall x y, arc g' x y <-> arc g x y \/ (x = u /\ y = w) \/ (x = w /\ y = u).
Proof.
  intros vs g H i j u w Hi Hj.
  assert (Li := nth_error_lt _ _ _ _ Hi). assert (Lj := nth_error_lt _ _ _ _ Hj).
  destruct (set_adjm_ok vs g H i j true) as (g1 & E1 & O1 & _ & A1); [lia..|]. rewrite E1. cbn [bind].
  destruct (set_adjm_ok vs g1 O1 j i true) as (g2 & E2 & O2 & _ & A2); [lia..|]. rewrite E2.
  exists g2. split; auto. split; auto. intros x y. split.
  - intros Q. destruct (arc_inv vs g2 O2 x y Q) as (a & b & Ha & Hb & B).
    assert (La := nth_error_lt _ _ _ _ Ha). assert (Lb := nth_error_lt _ _ _ _ Hb).
    rewrite A2, A1 in B by lia.
    destruct ((Nat.eqb a j && Nat.eqb b i)%bool) eqn:B1.
    { apply andb_prop in B1. destruct B1 as [B1 B2]. apply Nat.eqb_eq in B1, B2. subst a b.
      right; right. split; congruence. }
    destruct ((Nat.eqb a i && Nat.eqb b j)%bool) eqn:B2.
    { apply andb_prop in B2. destruct B2 as [B2 B3]. apply Nat.eqb_eq in B2, B3. subst a b.
      right; left. split; congruence. }
    left. apply (arc_adj vs g H a b); auto.
  - intros [Q|[[-> ->]|[-> ->]]].
    + destruct (arc_inv vs g H x y Q) as (a & b & Ha & Hb & B).
      apply (arc_adj vs g2 O2 a b); auto. rewrite A2, A1.
      2-5: eapply nth_error_lt; eauto.
      destruct (Nat.eqb a j && Nat.eqb b i)%bool; auto.
      destruct (Nat.eqb a i && Nat.eqb b j)%bool; auto.
    + apply (arc_adj vs g2 O2 i j); auto. rewrite A2, A1 by lia.
      rewrite !Nat.eqb_refl. cbn. destruct (Nat.eqb i j && Nat.eqb j i)%bool; auto.
    + apply (arc_adj vs g2 O2 j i); auto. rewrite A2 by lia.
      rewrite !Nat.eqb_refl. reflexivity.
Qed.

Definition set_of (vs c : list nat) : list bool := map (fun v => memb v c) vs.

Lemma fill_cluster_ok : forall vs g c, graph_ok g vs -> NoDup c -> incl c vs ->
  exists g', for_up 0 (length c)
      (fun j '(g, set) =>
         let* vj := rd c j in
         let* (ji, g) := graph_index g vj in
         match ji with
         | None => UB
         | Some ji =>
             let* set := wr set ji true in
             let* g :=
               for_up (S j) (length c)
                 (fun k g =>
                    let* vk := rd c k in
                    let* (ki, g) := graph_index g vk in
                    match ki with
                    | None => UB
                    | Some ki =>
                        let* g := set_adjm g ji ki true in
                        set_adjm g ki ji true
                    end)
                 g in
             Ok (g, set)
         end)
      (g, repeat false (length vs)) = Ok (g', set_of vs c) /\
    graph_ok g' vs /\ forall x y, arc g' x y <-> fill (arc g) c x y.
Proof.
  intros vs g c H ND INC.
  assert (NV : NoDup vs) by apply H.
  assert (POS : forall j u, nth_error c j = Some u -> exists p, nth_error vs p = Some u).
  { intros j u Hj. apply In_nth_error. apply INC. eapply nth_error_In; eauto. }
  match goal with |- context [for_up 0 (length c) ?b0 ?s0] =>
    destruct (for_up_inv (graph * list bool)
      (fun t '(g', set) => graph_ok g' vs /\ length set = length vs /\
         (forall p, p < length vs -> nth p set false = memb (nth p vs 0) (firstn t c)) /\
         (forall x y, arc g' x y <-> arc g x y \/ exists a b, nth_error c a = Some x /\
            nth_error c b = Some y /\ a <> b /\ (a < t \/ b < t))) b0 0 (length c) s0)
      as ([g' set] & E & O & L & S & A)
  end.
  - lia.
  - split; [auto|]. split; [apply repeat_length|]. split.
    + intros p Hp. rewrite nth_repeat_lt by auto. reflexivity.
    + intros x y. split; auto. intros [Q|(a & b & _ & _ & _ & Q)]; auto. lia.
  - intros j [g1 set] Hj (O & L & S & A).
    destruct (nth_error_ex _ c j) as (vj & Ej); [lia|].
    rewrite (rd_some _ _ _ _ Ej). cbn [bind].
    destruct (POS j vj Ej) as (p & Hp). assert (Lp := nth_error_lt _ _ _ _ Hp).
    destruct (graph_index_ok vs g1 O p vj Hp) as (g2 & E2 & O2 & J2). rewrite E2. cbn [bind].
    rewrite wr_ok by lia. cbn [bind].
    match goal with |- context [for_up (Datatypes.S j) (length c) ?b0 g2] =>
      destruct (for_up_inv graph
        (fun t g' => graph_ok g' vs /\ forall x y, arc g' x y <-> arc g1 x y \/
           exists b, j < b < t /\ ((x = vj /\ nth_error c b = Some y) \/
                                   (y = vj /\ nth_error c b = Some x)))
        b0 (Datatypes.S j) (length c) g2) as (g3 & E3 & O3 & A3)
    end.
    + lia.
    + split; auto. intros x y. rewrite (arc_same vs g1 g2) by auto.
      split; auto. intros [Q|(b & Q & _)]; auto. lia.
    + intros k g4 Hk (O4 & A4).
      destruct (nth_error_ex _ c k) as (vk & Ek); [lia|].
      rewrite (rd_some _ _ _ _ Ek). cbn [bind].
      destruct (POS k vk Ek) as (q & Hq).
      destruct (graph_index_ok vs g4 O4 q vk Hq) as (g5 & E5 & O5 & J5). rewrite E5. cbn [bind].
      destruct (join_ok vs g5 O5 p q vj vk Hp Hq) as (g6 & E6 & O6 & A6). rewrite E6.
      exists g6. split; auto. split; auto. intros x y.
      rewrite A6, (arc_same vs g4 g5), A4 by auto. split.
      * intros [[Q|(b & Hb & Q)]|[[-> ->]|[-> ->]]]; auto.
        -- right. exists b. split; [lia|auto].
        -- right. exists k. split; [lia|auto].
        -- right. exists k. split; [lia|auto].
      * intros [Q|(b & Hb & Q)]; auto.
        destruct (Nat.eq_dec b k) as [->|NB].
        -- right. rewrite Ek in Q. destruct Q as [[-> Q]|[-> Q]]; inversion Q; auto.
        -- left. right. exists b. split; [lia|auto].
    + rewrite E3. cbn [bind]. eexists; split; [reflexivity|]. cbv beta iota.
      split; [auto|]. split; [now rewrite set_nth_length|].
      assert (FS : firstn (Datatypes.S j) c = firstn j c ++ [vj]).
      { clear -Ej. revert j Ej. induction c as [|x c IH]; intros [|j] Ej; cbn in *; try discriminate.
        - congruence.
        - f_equal. apply IH; auto. }
      split.
      * intros q Hq. rewrite nth_set_nth by lia. rewrite FS.
        assert (Q : memb (nth q vs 0) (firstn j c ++ [vj]) =
                    (memb (nth q vs 0) (firstn j c) || Nat.eqb (nth q vs 0) vj)%bool).
        { unfold memb. rewrite existsb_app. cbn. now rewrite orb_false_r. }
        rewrite Q. destruct (Nat.eqb_spec q p) as [->|NQ].
        -- rewrite (nth_error_nth_eq _ _ _ Hp), Nat.eqb_refl. now rewrite orb_true_r.
        -- rewrite S by auto. destruct (Nat.eqb_spec (nth q vs 0) vj) as [EQ|]; [|now rewrite orb_false_r].
           exfalso. apply NQ. eapply nodup_nth_error; eauto.
           rewrite <- EQ. apply nth_error_nth'. auto.
      * intros x y. rewrite A3, A. split.
        -- intros [[Q|(a & b & Ha & Hb & N & Q)]|(b & Hb & [[-> Q]|[-> Q]])]; auto; right.
           ++ exists a, b. repeat split; auto. lia.
           ++ exists j, b. repeat split; auto; lia.
           ++ exists b, j. repeat split; auto; lia.
        -- intros [Q|(a & b & Ha & Hb & N & Q)]; auto.
           destruct (lt_dec a j) as [|NA]; [left; right; exists a, b; auto|].
           destruct (lt_dec b j) as [|NB]; [left; right; exists a, b; auto|].
           right. destruct (Nat.eq_dec a j) as [->|NA2].
           ++ exists b. assert (LB := nth_error_lt _ _ _ _ Hb). split; [lia|]. left. split; congruence.
           ++ assert (b = j) by lia. subst b. exists a. assert (LA := nth_error_lt _ _ _ _ Ha). split; [lia|]. right. split; congruence.
  - exists g'. split; [|split].
    + rewrite E. f_equal. f_equal. unfold set_of. apply (list_ext_nth _ false).
      * now rewrite map_length.
      * intros p Hp. rewrite L in Hp. rewrite (nth_map _ _ _ _ _ 0) by auto.
        rewrite S, firstn_all by auto. reflexivity.
    + auto.
    + intros x y. rewrite A. unfold fill. split.
      * intros [Q|(a & b & Ha & Hb & N & _)]; auto. right. split.
        -- intros ->. apply N. exact (nodup_nth_error c a b y ND Ha Hb).
        -- split; eapply nth_error_In; eauto.
      * intros [Q|(N & Ha & Hb)]; auto. right.
        apply In_nth_error in Ha, Hb. destruct Ha as (a & Ha), Hb as (b & Hb).
        exists a, b. repeat split; auto; [intros ->; congruence|].
        left. eapply nth_error_lt; eauto.
Qed.

(** ** nip_int_array_list_contains_subset *)
Lemma find_none_all : forall n (f : nat -> bool) (test : nat -> res bool),
  (forall v, v < n -> test v = Ok (f v)) ->
  exists o, find_up 0 n test = Ok o /\ (o = None <-> forall v, v < n -> f v = false).
Proof.
  intros n f test. unfold find_up. rewrite Nat.sub_0_r.
  assert (G : forall lo, (forall v, lo <= v < lo + n -> test v = Ok (f v)) ->
    exists o, find_loop n lo test = Ok o /\
      (o = None <-> forall v, lo <= v < lo + n -> f v = false)).
  { induction n as [|n IH]; intros lo HT; cbn [find_loop].
    - exists None. split; auto. split; auto. intros _ v Hv. lia.
    - rewrite HT by lia. cbn [bind]. destruct (f lo) eqn:B.
      + eexists; split; [reflexivity|]. split; [intros Q; discriminate Q|].
        intros Q. rewrite Q in B by lia. discriminate B.
      + destruct (IH (S lo)) as (o & E & Q); [intros; apply HT; lia|].
        exists o. split; auto. rewrite Q. split; intros R v Hv.
        * destruct (Nat.eq_dec v lo) as [->|]; auto. apply R; lia.
        * apply R; lia. }
  intros HT. destruct (G 0) as (o & E & Q); [intros; apply HT; lia|].
  exists o. split; auto. rewrite Q. split; intros R v Hv; apply R; lia.
Qed.

Lemma contains_subset_ok : forall n set l, n <= length set ->
  (forall x, In x l -> n <= length x) ->
  exists b, contains_subset l set n = Ok b /\
    (b = true <-> exists x, In x l /\ forall i, i < n -> nth i set false = true -> nth i x false = true).
Proof.
  intros n set l HS. induction l as [|x l IH]; intros HL; cbn [contains_subset].
  - exists false. split; auto. split; [intros Q; discriminate Q|]. intros (x & [] & _).
  - destruct (find_none_all n (fun v => (nth v set false && negb (nth v x false))%bool)
      (fun v => let* b := rd set v in if (b : bool) then let* c := rd x v in Ok (negb c) else Ok false))
      as (o & E & Q).
    { intros v Hv. assert (n <= length x) by (apply HL; left; auto).
      rewrite (rd_ok _ _ _ false) by lia. cbn [bind].
      destruct (nth v set false); auto. rewrite (rd_ok _ _ _ false) by lia. reflexivity. }
    rewrite E. cbn [bind]. destruct o as [o|].
    + destruct IH as (b & E2 & Q2); [intros; apply HL; right; auto|].
      exists b. split; auto. rewrite Q2. split.
      * intros (y & Hy & R). exists y. split; [right|]; auto.
      * intros (y & [<-|Hy] & R); [|eauto]. exfalso.
        assert (Some o = None); [|discriminate]. apply Q. intros v Hv.
        destruct (nth v set false) eqn:B; auto. cbn. rewrite R; auto.
    + exists true. split; auto. split; auto. intros _. exists x. split; [left; auto|].
      intros i Hi B. assert (R := proj1 Q eq_refl i Hi). cbv beta in R. rewrite B in R. cbn in R.
      destruct (nth i x false); auto.
Qed.

Lemma set_of_incl : forall vs c d, incl c vs ->
  ((forall i, i < length vs -> nth i (set_of vs c) false = true -> nth i (set_of vs d) false = true)
   <-> incl c d).
Proof.
  intros vs c d INC. unfold set_of. split.
  - intros Q x Hx. destruct (In_nth _ _ 0 (INC x Hx)) as (i & Hi & Ei).
    specialize (Q i Hi). rewrite !(nth_map _ _ _ _ _ 0) in Q by auto. rewrite Ei in Q.
    apply memb_in. apply Q. apply memb_in; auto.
  - intros Q i Hi. rewrite !(nth_map _ _ _ _ _ 0) by auto. rewrite !memb_in. apply Q.
Qed.

(** ** nip_triangulate_graph *)
Lemma keeps_ext : forall K K' t kl, keeps K t kl -> (forall i, i < t -> K i = K' i) ->
  keeps K' t kl.
Proof.
  intros K K' t kl HK. induction HK as [|t kl a HK IH Ha Hi|t kl HK IH Hn]; intros Q.
  - constructor.
  - apply keeps_drop with a; auto. rewrite <- !Q; auto.
    apply (keeps_lt _ _ _ HK) in Ha. lia.
  - apply keeps_keep; auto. intros a Ha. rewrite <- !Q; auto.
    apply (keeps_lt _ _ _ HK) in Ha. lia.
Qed.

Lemma eliminate_ok : forall k1 k2 vs g h M, graph_ok g vs ->
  (forall u, ~ arc g u u) -> (forall u w, arc g u w -> arc g w u) ->
  stores k1 k2 h M -> h_heapified h = true -> length M = length vs -> cl_ok (arc g) vs M ->
  exists cs kl g', eliminate k1 k2 (length vs) h g =
      Ok (map (fun a => set_of vs (nth a cs [])) (rev kl), g') /\
    graph_ok g' vs /\ run (arc g) vs cs (arc g') [] /\
    length cs = length vs /\ keeps (fun a => nth a cs []) (length cs) kl.
Proof.
  intros k1 k2 vs g h M H IR SY HS HH LM HC. unfold eliminate.
  match goal with |- context [for_up 0 (length vs) ?b0 ?s0] =>
    destruct (for_up_inv (heap (list nat) * graph * list (list bool))
      (fun t '(h', g', clusters) => exists cs kl M' rem,
         graph_ok g' vs /\ (forall u, ~ arc g' u u) /\ (forall u w, arc g' u w -> arc g' w u) /\
         stores k1 k2 h' M' /\ h_heapified h' = true /\ t + length M' = length vs /\
         cl_ok (arc g') rem M' /\ incl rem vs /\
         length cs = t /\ run (arc g) vs cs (arc g') rem /\
         keeps (fun a => nth a cs []) t kl /\
         clusters = map (fun a => set_of vs (nth a cs [])) (rev kl)) b0 0 (length vs) s0)
      as ([[h' g'] clusters] & E & cs & kl & M' & rem & O & _ & _ & _ & _ & LN & C & _ & LC & R & KP & ->)
  end.
  - lia.
  - exists [], [], M, vs.
    repeat (split; [first [assumption|reflexivity|apply run_nil|constructor|intros x Hx; exact Hx]|]).
    reflexivity.
  - intros t [[h1 g1] clusters] Ht (cs & kl & M1 & rem & O & IR1 & SY1 & S1 & H1 & LN & C & IN & LC & R & KP & ->).
    destruct M1 as [|c M1]; [cbn in LN; lia|].
    destruct (extract_any k1 k2 h1 _ _ S1) as (h2 & M2 & E2 & S2 & P2 & F2 & _).
    rewrite E2. cbn [bind].
    assert (C' : cl_ok (arc g1) rem (c :: M2)).
    { apply cl_ok_perm with (c :: M1); auto. constructor. apply Permutation_sym; auto. }
    destruct (co_each _ _ _ C' c (or_introl eq_refl)) as (NDc & v & l & -> & Hl).
    assert (Vr : In v rem) by (apply (co_heads _ _ _ C'); left; auto).
    assert (INC : incl (v :: l) vs).
    { intros x [<-|Hx]; apply IN; auto. apply Hl; auto. }
    destruct (fill_cluster_ok vs g1 (v :: l) O NDc INC) as (g3 & E3 & O3 & A3).
    rewrite E3. cbn [bind].
    set (rem' := filter (fun x => negb (Nat.eqb x v)) rem).
    assert (ST : step (arc g1) rem v l (arc g3) rem').
    { constructor; auto. intros u. unfold rem'. rewrite filter_In, negb_true_iff, Nat.eqb_neq. tauto. }
    destruct (update_cluster_heap_ok k1 k2 (arc g1) rem v l h2 M2 (arc g3) rem')
      as (h4 & M4 & E4 & S4 & F4 & L4 & C4); auto; [congruence|].
    rewrite E4. cbn [bind].
    destruct (contains_subset_ok (length vs) (set_of vs (v :: l))
      (map (fun a => set_of vs (nth a cs [])) (rev kl))) as (b & E5 & Q5).
    { unfold set_of. rewrite map_length. lia. }
    { intros x Hx. apply in_map_iff in Hx. destruct Hx as (a & <- & _). unfold set_of.
      rewrite map_length. lia. }
    rewrite E5. cbn [bind]. eexists; split; [reflexivity|]. cbv beta iota.
    assert (KE : forall a, a < t -> nth a cs [] = nth a (cs ++ [v :: l]) []).
    { intros a Ha. rewrite app_nth1 by lia. reflexivity. }
    assert (KT : nth t (cs ++ [v :: l]) [] = v :: l).
    { rewrite app_nth2 by lia. now rewrite LC, Nat.sub_diag. }
    assert (KP' : keeps (fun a => nth a (cs ++ [v :: l]) []) t kl) by (eapply keeps_ext; eauto).
    assert (KC : map (fun a => set_of vs (nth a cs [])) (rev kl) =
                 map (fun a => set_of vs (nth a (cs ++ [v :: l]) [])) (rev kl)).
    { apply map_ext_in. intros a Ha. apply in_rev in Ha. rewrite KE; auto.
      apply (keeps_lt _ _ _ KP); auto. }
    exists (cs ++ [v :: l]), (if b then kl else kl ++ [t]), M4, rem'.
    split; [auto|]. split.
    { intros u Q. apply A3 in Q. destruct Q as [Q|Q]; [exact (IR1 _ Q)|tauto]. }
    split.
    { intros u w Q. apply A3 in Q. apply A3. destruct Q as [Q|(N & Q1 & Q2)]; [left; auto|].
      right. auto. }
    split; [auto|]. split; [auto|].
    split; [rewrite L4, (Permutation_length P2); cbn [length] in LN; lia|].
    split; [auto|]. split.
    { intros x Hx. apply filter_In in Hx. apply IN; tauto. }
    split; [rewrite app_length; cbn [length]; lia|].
    split; [eapply run_snoc; eauto|].
    assert (SUB : b = true <-> exists a, In a kl /\ incl (v :: l) (nth a (cs ++ [v :: l]) [])).
    { rewrite Q5, KC. split.
      - intros (x & Hx & Q). apply in_map_iff in Hx. destruct Hx as (a & <- & Ha).
        exists a. split; [apply in_rev; auto|]. apply (set_of_incl vs (v :: l)); auto.
      - intros (a & Ha & Q). eexists; split; [apply in_map, in_rev; rewrite rev_involutive; exact Ha|].
        apply set_of_incl; auto. }
    destruct b.
    + split; auto. destruct (proj1 SUB eq_refl) as (a & Ha & Q).
      apply keeps_drop with a; auto. cbv beta. now rewrite KT.
    + split.
      * apply keeps_keep; auto. intros a Ha Q. cbv beta in Q. rewrite KT in Q.
        assert (false = true) by (apply SUB; eauto). discriminate.
      * rewrite rev_app_distr. cbn [rev app map]. rewrite KT, KC. reflexivity.
  - rewrite E. cbn [bind]. exists cs, kl, g'. split; auto. split; auto.
    assert (M' = []) as -> by (destruct M'; auto; cbn in LN; lia).
    assert (rem = []) as ->.
    { destruct rem as [|x rem]; auto. exfalso.
      apply (co_heads _ _ _ C x). left; auto. }
    split; auto. split; auto. now rewrite LC.
Qed.
