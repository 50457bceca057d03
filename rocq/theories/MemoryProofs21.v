(** * Memory of the triangulation (for C91) *)
From Coq Require Import Permutation.
From Verif Require Import Base BaseProofs PotentialModel VariableModel VariableProofs JoinTreeModel HeapModel HeapSpec HeapProofs HeapProofs2 GraphModel GraphSpec GraphProofs GraphProofs2 MemoryModel MemorySpec MemoryProofs MemoryProofs2 MemoryModel3 MemoryProofs19 MemoryProofs20.
Import ListNotations.
Open Scope nat_scope.
Local Open Scope res_scope.

(** The program with the memory does what the other does. *)
Lemma for_up_sim : forall S T (R : nat -> S -> T -> Prop) (f : nat -> S -> res S) (F : nat -> T -> res T) lo hi s t s',
  lo <= hi -> R lo s t ->
  (forall i s t s', lo <= i < hi -> R i s t -> f i s = Ok s' -> exists t', F i t = Ok t' /\ R (Datatypes.S i) s' t') ->
  for_up lo hi f s = Ok s' -> exists t', for_up lo hi F t = Ok t' /\ R hi s' t'.
Proof.
  intros S T R f F lo hi s t s' L. unfold for_up. remember (hi - lo) as n eqn:En. revert lo s t En L.
  induction n as [|n IH]; intros lo s t En L H0 ST E.
  - cbn in *. injection E as <-. exists t. split; [reflexivity|]. replace hi with lo by lia. exact H0.
  - cbn [loop_up] in *. destruct (f lo s) as [s1| |] eqn:E1; cbn [bind] in E; try discriminate.
    destruct (ST lo s t s1 ltac:(lia) H0 E1) as (t1 & F1 & R1). rewrite F1. cbn [bind]. apply (IH (Datatypes.S lo) s1 t1); try lia; auto.
    intros i s2 t2 s3 Hi. apply ST. lia.
Qed.
Tactic Notation "binv" hyp(E) ident(r) :=
  match type of E with
  | bind ?x _ = Ok _ => let K := fresh "K" in destruct x as [r| |] eqn:K; cbn [bind] in E; [|discriminate E|discriminate E]
  end.

Lemma find_some : forall n lo t i, find_loop n lo t = Ok (Some i) -> lo <= i < lo + n /\ t i = Ok true.
Proof.
  induction n as [|n IH]; intros lo t i E; cbn [find_loop] in E; [discriminate|]. destruct (t lo) as [b| |] eqn:K; cbn [bind] in E; try discriminate. destruct b.
  - injection E as <-. split; [lia|exact K].
  - apply IH in E. destruct E as [E1 E2]. split; [lia|exact E2].
Qed.
Lemma search_some : forall A (k1 k2 : A -> Z) h M p i d, stores k1 k2 h M -> search_heap_item h p = Ok (Some i) -> i < length M /\ p (nth i M d) = true.
Proof.
  intros A k1 k2 h M p i d S E. pose proof S as (S1 & S2 & S3 & _). unfold search_heap_item, find_up in E. apply find_some in E. destruct E as [L E]. assert (Li : i < length M) by lia. split; [exact Li|].
  rewrite (rd_ok _ (h_cells h) i None) in E by lia. cbn [bind] in E. rewrite (stores_at k1 k2 h M i d S Li) in E. cbn [cell_of content] in E. injection E as E. exact E.
Qed.
Lemma set_split : forall A (M : list A) i d, i < length M -> exists l1 l2, M = l1 ++ nth i M d :: l2 /\ forall x, set_nth M i x = l1 ++ x :: l2.
Proof.
  induction M as [|y M IH]; intros [|i] d L; cbn in L; try lia.
  - exists [], M. auto.
  - destruct (IH i d ltac:(lia)) as (l1 & l2 & E1 & E2). exists (y :: l1), l2. cbn. rewrite <- E1. split; [reflexivity|]. intros x. rewrite E2. reflexivity.
Qed.

(** The heap of clusters: its contents, and the blocks of the clusters. *)
Definition cf (x : nat * (nat * list nat)) : list nat := snd (snd x).
Definition cblocks (M : list (nat * (nat * list nat))) : list nat := map (fun x => fst (snd x)) M.
Definition clean (M : list (nat * (nat * list nat))) : Prop := Forall (fun x => NoDup (cf x)) M.

Section Tri.
Variables k1 k2 : list nat -> Z.
Notation ok := (hok (key1 k1) (key2 k2)).

Lemma insert_cf : forall H M c L' h' e hi, ok H M -> length M < h_alloc (mh H) ->
  heap_insert (fun x => key1 k1 (snd x)) (fun x => key2 k2 (snd x)) true true (mh H) (hi, c) = Ok (NO_ERROR, L') ->
  heap_insert k1 k2 true true (hmap cf (mh H)) (snd c) = Ok (e, h') -> h' = hmap cf L'.
Proof.
  intros H M c L' h' e hi S LT E1 E2. assert (SZ : h_size (mh H) = length M) by exact (proj1 S).
  assert (X := insert_map cf k1 k2 (mh H) (hi, c) ltac:(lia)). change (cf (hi, c)) with (snd c) in X. rewrite X in E2.
  change (fun x : nat * (nat * list nat) => k1 (cf x)) with (fun x : nat * (nat * list nat) => key1 k1 (snd x)) in E2.
  change (fun x : nat * (nat * list nat) => k2 (cf x)) with (fun x : nat * (nat * list nat) => key2 k2 (snd x)) in E2.
  rewrite E1 in E2. cbn in E2. injection E2 as _ <-. reflexivity.
Qed.

Lemma m_build_cluster_heap_ok : forall vs m G L f h g, graph_ok (mg G) vs -> vs <> [] -> (forall u, ~ arc (mg G) u u) -> owns m (gblocks G ++ L) f ->
  build_cluster_heap k1 k2 (mg G) = Ok (Some h, g) ->
  exists m' H G' M, m_build_cluster_heap k1 k2 m G = Ok (m', Some H, G') /\ ok H M /\ clean M /\ hmap cf (mh H) = h /\ mg G' = g /\ graph_ok g vs /\
    owns m' (hblocks H M ++ cblocks M ++ gblocks G' ++ L) f.
Proof.
  intros vs m G L f h g OK NE IR O E. unfold build_cluster_heap in E. unfold m_build_cluster_heap. rewrite (gk_top _ _ OK) in *.
  assert (POS : 0 < length vs) by (destruct vs; [congruence|cbn; lia]).
  destruct (m_new_heap_ok (key1 k1) (key2 k2) m (length vs) _ f POS O) as (m1 & H1 & E1 & S1 & O1 & N1 & A1 & B1). rewrite E1.
  assert (N2 := new_map cf (length vs)). rewrite N1 in N2. cbn [option_map] in N2. rewrite N2 in E. binv E p. destruct p as [h2 g2]. binv E u. injection E as <- <-.
  match type of K with for_up _ _ ?b ?s0 = Ok ?r => match goal with |- context [for_up 0 (length vs) ?B (m1, H1, G)] =>
    destruct (for_up_sim _ _ (fun i (s : heap (list nat) * graph) (t : memory * mheap (nat * list nat) * mgraph) =>
      let '(h, g) := s in let '(m, H, G') := t in exists M, ok H M /\ length M = i /\ h_alloc (mh H) = length vs /\ clean M /\ hmap cf (mh H) = h /\ mg G' = g /\
        graph_ok g vs /\ g_adj g = g_adj (mg G) /\ owns m (hblocks H M ++ cblocks M ++ gblocks G' ++ L) f) b B 0 (length vs) s0 (m1, H1, G) r) as (T & ET & RT) end end; [lia| | |exact K|].
  - exists []. do 8 (split; [first [exact S1|exact A1|reflexivity|exact OK|constructor]|]). exact O1.
  - intros i [h3 g3] [[m3 H3] G3] [h4 g4] Hi (M & S3 & LM & A3 & C3 & <- & <- & OK3 & J3 & O3) E3.
    assert (Q : nth_error vs i = Some (nth i vs 0)) by (apply nth_error_nth'; lia).
    assert (V : nth_error (g_vars (mg G3)) i = Some (Some (nth i vs 0))) by (apply (ok_var vs _ OK3); auto).
    rewrite (rd_some _ _ _ _ V) in *. cbn [bind] in *.
    destruct (graph_cluster_ok vs _ OK3 i _ Q) as (g5 & E5 & OK5 & J5). rewrite E5 in E3. cbn [bind] in E3. binv E3 p. destruct p as [e5 h5]. injection E3 as <- <-.
    destruct (m_cluster_ok m3 G3 (nth i vs 0) (hblocks H3 M ++ cblocks M ++ L) f g5 _ ltac:(eapply owns_perm; [exact O3|]; perm) E5) as (m6 & G6 & a & E6 & O6 & <-).
    rewrite E6. cbn [bind].
    destruct (m_insert_ok (key1 k1) (key2 k2) m6 H3 M (a, nth i vs 0 :: nbrs vs (mg G3) i) (gblocks G6 ++ a :: cblocks M ++ L) f S3 ltac:(lia)) as (m7 & H7 & hi & E7 & S7 & O7 & A7 & _ & F7).
    { eapply owns_perm; [exact O6|]. perm. }
    rewrite E7. cbn [bind]. eexists. split; [reflexivity|]. cbv beta iota. exists (M ++ [(hi, (a, nth i vs 0 :: nbrs vs (mg G3) i))]).
    split; [exact S7|]. split; [rewrite app_length; cbn; lia|]. split; [congruence|]. split.
    { apply Forall_app. split; [exact C3|]. constructor; [|constructor]. cbn. constructor; [|apply (nbrs_nodup vs _ OK3)].
      intros B. apply (nbrs_in vs _ OK3 i _ Q) in B. destruct B as [_ B]. apply (IR (nth i vs 0)). apply (arc_same vs (mg G) (mg G3)); auto. }
    split; [symmetry; eapply insert_cf; [exact S3|lia|exact F7|exact K1]|]. split; [reflexivity|]. split; [exact OK5|]. split; [congruence|].
    unfold cblocks in *. rewrite map_app. cbn [map fst snd]. eapply owns_perm; [exact O7|]. perm.
  - destruct T as [[m3 H3] G3]. destruct RT as (M & S3 & LM & A3 & C3 & <- & <- & OK3 & J3 & O3). rewrite ET. cbn [bind].
    destruct (m_build_ok (key1 k1) (key2 k2) m3 H3 M _ f S3 O3) as (m4 & H4 & M4 & E4 & S4 & P4 & O4 & F4 & _). rewrite E4. cbn [bind].
    rewrite build_map, F4 in K0. cbn in K0. injection K0 as <-. exists m4, H4, G3, M4. split; [reflexivity|]. split; [exact S4|]. split.
    { unfold clean. eapply Permutation_Forall; [apply Permutation_sym; exact P4|exact C3]. }
    split; [reflexivity|]. split; [reflexivity|]. split; [exact OK3|]. eapply owns_perm; [exact O4|]. apply Permutation_app_head. apply Permutation_app_tail.
    unfold cblocks. apply Permutation_map. apply Permutation_sym. exact P4.
Qed.

Lemma m_update_cluster_heap_ok : forall m H M a c L f h', ok H M -> clean M -> NoDup c -> owns m (hblocks H M ++ cblocks M ++ a :: L) f ->
  update_cluster_heap k1 k2 (hmap cf (mh H)) c = Ok h' ->
  exists m' H' M', m_update_cluster_heap k1 k2 m H a c = Ok (m', H') /\ ok H' M' /\ clean M' /\ hmap cf (mh H') = h' /\
    owns m' (hblocks H' M' ++ cblocks M' ++ a :: L) f.
Proof.
  intros m H M a c L f h' S0 C0 ND O E. unfold update_cluster_heap in E. unfold m_update_cluster_heap. us O.
  destruct c as [|v0 c0]; [discriminate E|]. set (c := v0 :: c0) in *. change (rd c 0) with (Ok v0) in *. cbn [bind] in *. binv E u.
  match type of K with for_up _ _ ?b ?s0 = Ok ?r => match goal with |- context [for_up 1 (length c) ?B (m, H)] =>
    destruct (for_up_sim _ _ (fun i (s : heap (list nat)) (t : memory * mheap (nat * list nat)) =>
      let '(m, H) := t in exists M, ok H M /\ clean M /\ hmap cf (mh H) = s /\ owns m (hblocks H M ++ cblocks M ++ a :: L) f) b B 1 (length c) s0 (m, H) r) as (T & ET & RT) end end; [cbn; lia| | |exact K|].
  - exists M. auto.
  - intros i h3 [m3 H3] h4 Hi (M3 & S3 & C3 & <- & O3) E3. us O3. rewrite (use_heap_ok m3 H3 M3 _ f O3). cbn [bind].
    binv E3 v. cbn [bind]. rewrite search_map in E3. unfold cf in E3 at 1. binv E3 o. cbn [bind]. destruct o as [index|]; [|discriminate E3].
    destruct (search_some _ _ _ _ _ _ index (0, (0, [])) S3 K1) as (LI & FC).
    assert (GI := get_item_ok _ _ (mh H3) M3 index (0, (0, [])) S3 LI). rewrite GI. cbn [bind]. rewrite get_map, GI in E3. cbn [rmap bind option_map] in E3.
    destruct (nth index M3 (0, (0, []))) as [hi [b old]] eqn:EN. cbn [cf snd] in E3, FC.
    destruct (set_split _ M3 index (0, (0, [])) LI) as (l1 & l2 & EM & SET). rewrite EN in EM.
    assert (NDo : NoDup old). { rewrite EM in C3. apply Forall_app in C3. destruct C3 as [_ C3]. inversion C3; assumption. }
    assert (UB_ : use m3 b = Ok tt). { eapply use_owns; [exact O3|]. rewrite EM. unfold cblocks. rewrite map_app. cbn [map fst snd]. inl. }
    rewrite UB_. cbn [bind].
    destruct old as [|w old0]; [discriminate FC|]. cbn [family_cluster] in FC. unfold equal_variables in FC. apply Nat.eqb_eq in FC. subst w.
    change (arr (v :: old0)) with (Some (v :: old0)) in *. change (arr c) with (Some c) in *.
    rewrite union_ok in * by (cbn; auto; lia). cbn [bind] in *.
    change (rd ((v :: old0) ++ new_in (v :: old0) c) 0) with (Ok v) in *. change (rd (v :: old0) 0) with (Ok v) in *. tk O3. cbn [bind] in *. rewrite Nat.eqb_refl in *. cbn [negb] in *.
    rewrite Nat2Z.id, remove_ok in *. cbn [bind] in *.
    change (filter (fun x => negb (Nat.eqb v0 x)) ((v :: old0) ++ new_in (v :: old0) c)) with (merged c (v :: old0)) in *.
    assert (VV : v <> hd 0 c).
    { cbn [c hd]. intros ->. destruct i as [|i]; [lia|]. unfold rd in K0. cbn in K0. destruct (nth_error c0 i) eqn:EC; [|discriminate]. injection K0 as ->.
      apply NoDup_cons_iff in ND. apply (proj1 ND). eapply nth_error_In. exact EC. }
    destruct (merged_head c v old0 VV) as (l3 & EH).
    assert (SZ : Nat.ltb 0 (length (merged c (v :: old0))) = true) by (rewrite EH; reflexivity). rewrite SZ in *.
    unfold cblocks in O3. rewrite EM in O3. rewrite map_app in O3. cbn [map fst snd] in O3. frl O3. rewrite <- EM in O3. binv E3 p. destruct p as [e5 h5]. injection E3 as <-.
    destruct (m_set_ok (key1 k1) (key2 k2) m1 H3 M3 index (a0, merged c (v :: old0)) (a0 :: (map (fun x : nat * (nat * list nat) => fst (snd x)) l1 ++ map (fun x : nat * (nat * list nat) => fst (snd x)) l2) ++ a :: L) f (0, (0, [])) S3 LI) as (m6 & H6 & E6 & S6 & O6 & A6 & F6).
    { eapply owns_perm; [exact O3|]. perm. }
    rewrite E6. eexists. split; [reflexivity|]. cbv beta iota. eexists. split; [exact S6|].
    rewrite SET in O6 |- *. rewrite EN in *. cbn [fst] in *. split.
    { rewrite EM in C3. apply Forall_app in C3. destruct C3 as [C31 C32]. inversion C32; subst. apply Forall_app. split; [exact C31|]. constructor; [|assumption].
      cbn [cf snd]. apply merged_nodup; assumption. }
    split.
    { assert (X := set_map cf k1 k2 (mh H3) (Z.of_nat index) (hi, (a0, merged c (v :: old0))) true). change (cf (hi, (a0, merged c (v :: old0)))) with (merged c (v :: old0)) in X.
      rewrite K2 in X. change (fun x : nat * (nat * list nat) => k1 (cf x)) with (fun x : nat * (nat * list nat) => key1 k1 (snd x)) in X.
      change (fun x : nat * (nat * list nat) => k2 (cf x)) with (fun x : nat * (nat * list nat) => key2 k2 (snd x)) in X. rewrite F6 in X. cbn in X. injection X as _ X. symmetry. exact X. }
    unfold cblocks. rewrite map_app. cbn [map fst snd]. eapply owns_perm; [exact O6|]. perm.
  - destruct T as [m3 H3]. destruct RT as (M3 & S3 & C3 & <- & O3). rewrite ET. cbn [bind].
    destruct (m_build_ok (key1 k1) (key2 k2) m3 H3 M3 _ f S3 O3) as (m4 & H4 & M4 & E4 & S4 & P4 & O4 & F4 & _).
    rewrite build_map, F4 in E. cbn in E. injection E as <-. exists m4, H4, M4. split; [exact E4|]. split; [exact S4|]. split.
    { unfold clean. eapply Permutation_Forall; [apply Permutation_sym; exact P4|exact C3]. }
    split; [reflexivity|]. eapply owns_perm; [exact O4|]. apply Permutation_app_head. apply Permutation_app_tail.
    unfold cblocks. apply Permutation_map. apply Permutation_sym. exact P4.
Qed.

(** The list of clusters. *)
Definition lblocks (cl : list (nat * nat * list bool)) : list nat := flat_map (fun x => [fst (fst x); snd (fst x)]) cl.

Lemma m_eliminate_ok : forall n m H M G L f cs g, ok H M -> clean M -> owns m (hblocks H M ++ cblocks M ++ gblocks G ++ L) f ->
  eliminate k1 k2 n (hmap cf (mh H)) (mg G) = Ok (cs, g) ->
  exists m' H' G' cl M', m_eliminate k1 k2 n m H G = Ok (m', H', G', cl) /\ ok H' M' /\ mg G' = g /\ map snd cl = cs /\
    owns m' (hblocks H' M' ++ cblocks M' ++ gblocks G' ++ lblocks cl ++ L) f.
Proof.
  intros n m H M G L f cs g S0 C0 O E. unfold eliminate in E. unfold m_eliminate. binv E p. destruct p as [[h1 g1] cs1]. injection E as <- <-.
  match type of K with for_up _ _ ?b ?s0 = Ok ?r => match goal with |- context [for_up 0 n ?B ?T0] =>
    destruct (for_up_sim _ _ (fun i (s : heap (list nat) * graph * list (list bool)) (t : memory * mheap (nat * list nat) * mgraph * list (nat * nat * list bool)) =>
      let '(h, g, cs) := s in let '(m, H, G, cl) := t in exists M, ok H M /\ clean M /\ hmap cf (mh H) = h /\ mg G = g /\ map snd cl = cs /\
        owns m (hblocks H M ++ cblocks M ++ gblocks G ++ lblocks cl ++ L) f) b B 0 n s0 T0 r) as (T & ET & RT) end end; [lia| | |exact K|].
  - exists M. do 5 (split; [first [assumption|reflexivity]|]). exact O.
  - intros i [[h3 g3] cs3] [[[m3 H3] G3] cl3] s4 Hi (M3 & S3 & C3 & <- & <- & <- & O3) E3. binv E3 p. destruct p as [o h5]. rewrite extract_map in K0.
    destruct M3 as [|x M3].
    { rewrite (proj2 (m_extract_none (key1 k1) (key2 k2) m3 H3 _ f S3 O3)) in K0. cbn in K0. injection K0 as <- <-. discriminate E3. }
    destruct (m_extract_ok (key1 k1) (key2 k2) m3 H3 x M3 _ f S3 O3) as (m4 & H4 & M4 & E4 & S4 & P4 & O4 & F4 & _). rewrite E4. cbn [bind].
    rewrite F4 in K0. cbn in K0. injection K0 as <- <-. destruct x as [hi [a c]]. cbn [snd]. cbn [cf snd] in E3.
    assert (NDc : NoDup c) by (inversion C3; assumption).
    assert (C4 : clean M4). { unfold clean. eapply Permutation_Forall; [apply Permutation_sym; exact P4|]. inversion C3; assumption. }
    assert (O5 : owns m4 (hblocks H4 M4 ++ cblocks M4 ++ a :: gblocks G3 ++ lblocks cl3 ++ L) f).
    { eapply owns_perm; [exact O4|]. apply Permutation_app_head. cbn [cblocks map fst snd app]. eapply perm_trans; [apply Permutation_middle|].
      apply Permutation_app_tail. unfold cblocks. apply Permutation_map. apply Permutation_sym. exact P4. }
    clear O4. tk O5. us O5. rewrite (use_graph_ok m0 G3 (a0 :: hblocks H4 M4 ++ cblocks M4 ++ a :: lblocks cl3 ++ L) f) by (eapply owns_perm; [exact O5|]; perm). cbn [bind].
    match type of E3 with bind ?x _ = _ => change x with (add_edges n (mg G3) c) in E3 end. destruct (add_edges n (mg G3) c) as [[g6 set]| |]; cbn [bind] in *; try discriminate E3.
    destruct (with_graph_ok m0 G3 g6 (a0 :: hblocks H4 M4 ++ cblocks M4 ++ a :: lblocks cl3 ++ L) f ltac:(eapply owns_perm; [exact O5|]; perm)) as (m6 & G6 & E6 & O6 & <-). rewrite E6. cbn [bind].
    binv E3 h7.
    destruct (m_update_cluster_heap_ok m6 H4 M4 a c (gblocks G6 ++ a0 :: lblocks cl3 ++ L) f h7 S4 C4 NDc ltac:(eapply owns_perm; [exact O6|]; perm) K0) as (m7 & H7 & M7 & E7 & S7 & C7 & <- & O7).
    rewrite E7. cbn [bind]. destruct (contains_subset (map snd cl3) set n) as [b| |]; cbn [bind] in *; try discriminate E3. injection E3 as <-. destruct b.
    + frl O7. frl O7. eexists. split; [reflexivity|]. cbv beta iota. exists M7. do 5 (split; [first [assumption|reflexivity]|]). eapply owns_perm; [exact O7|]. perm.
    + tk O7. cbn [bind]. frl O7. eexists. split; [reflexivity|]. cbv beta iota. exists M7. do 5 (split; [first [assumption|reflexivity]|]). eapply owns_perm; [exact O7|].
      unfold lblocks. cbn [flat_map fst snd app]. perm.
  - destruct T as [[[m3 H3] G3] cl3]. destruct RT as (M3 & S3 & C3 & <- & <- & <- & O3). exists m3, H3, G3, cl3, M3. auto.
Qed.

Lemma free_clusters_ok : forall cl m L f, owns m (lblocks cl ++ L) f -> exists m', free_clusters m cl = Ok m' /\ owns m' L f.
Proof.
  induction cl as [|[[l s] set] cl IH]; intros m L f O; [exists m; auto|]. cbn [free_clusters]. cbn [lblocks flat_map fst snd app] in O.
  destruct (IH m (l :: s :: L) f) as (m1 & E1 & O1). { eapply owns_perm; [exact O|]. unfold lblocks. perm. }
  rewrite E1. cbn [bind]. frl O1. destruct (free_owns _ _ _ _ O1) as (m3 & E3 & O3). eauto.
Qed.
End Tri.
