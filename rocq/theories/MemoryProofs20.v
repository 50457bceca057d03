(** * Blocks of heaps and graphs (for C91) *)
From Coq Require Import Permutation.
From Verif Require Import Base BaseProofs PotentialModel VariableModel JoinTreeModel HeapModel HeapSpec HeapProofs HeapProofs2 GraphModel MemoryModel MemorySpec MemoryProofs MemoryProofs2 MemoryModel3 MemoryProofs19.
Import ListNotations.
Open Scope nat_scope.
Local Open Scope res_scope.

(** The blocks at the addresses [L], and those of [f]. *)
Definition led (L : list nat) : fp := map (fun a => (a, [])) L.
Definition owns (m : memory) (L : list nat) (f : fp) : Prop := heap_is m (led L ++ f).

Lemma owns_perm : forall m L L' f, owns m L f -> Permutation L L' -> owns m L' f.
Proof. intros m L L' f H P. eapply heap_perm; [|exact H]. apply Permutation_app_tail. apply Permutation_map. exact P. Qed.
Lemma owns_frame : forall m L f g, owns m L f -> Permutation f g -> owns m L g.
Proof. intros m L f g H P. eapply heap_perm; [|exact H]. apply Permutation_app_head. exact P. Qed.
Lemma owns_nil : forall m f, owns m [] f <-> heap_is m f.
Proof. intros. reflexivity. Qed.
Lemma owns_app : forall m L L' f, owns m (L ++ L') f <-> owns m L (led L' ++ f).
Proof. intros. unfold owns, led. rewrite map_app, app_assoc. reflexivity. Qed.

Lemma take_owns : forall m L f, owns m L f -> forall m' a, take m = (m', a) -> owns m' (a :: L) f.
Proof.
  intros m L f H m' a E. unfold take in E. assert (K := allocate_ok m _ [] H). rewrite E in K. exact (proj1 K).
Qed.
Lemma free_owns : forall m a L f, owns m (a :: L) f -> exists m', free m (Some a) = Ok m' /\ owns m' L f.
Proof. intros m a L f H. destruct (free_ok m (led L ++ f) a [] H) as (m' & E & H' & _). eauto. Qed.
Lemma use_owns : forall m L f a, owns m L f -> In a L -> use m a = Ok tt.
Proof.
  intros m L f a H I. unfold use. rewrite (heap_in m _ a [] H); [reflexivity|]. apply in_or_app. left. apply in_map_iff. eauto.
Qed.

Lemma concat_perm : forall A (G G' : list (list A)), Permutation G G' -> Permutation (concat G) (concat G').
Proof.
  intros A G G' P. induction P as [|x l l' P IH|x y l|l1 l2 l3 P1 IH1 P2 IH2]; cbn [concat]; [apply Permutation_refl|apply Permutation_app_head; exact IH| |eapply perm_trans; eassumption].
  rewrite !app_assoc. apply Permutation_app_tail. apply Permutation_app_comm.
Qed.

(** Tactics: use, take and free of known addresses. *)
Ltac inl := first [assumption | apply in_eq | apply in_cons; inl | apply in_or_app; first [left; solve [inl] | right; solve [inl]]].
Ltac bring H a :=
  match type of H with
  | owns ?m ?L ?f => eapply (owns_perm m L (a :: _) f) in H; [|pull]
  end.
Ltac us H :=
  match goal with
  | |- context [use ?m ?a] => rewrite (use_owns m _ _ a H) by inl; cbn [bind]
  end.
Ltac tk H :=
  match goal with
  | |- context [take ?m] =>
      let m' := fresh "m" in let a := fresh "a" in let E := fresh "E" in let K := fresh "K" in
      destruct (take m) as [m' a] eqn:E; assert (K := take_owns _ _ _ H _ _ E); clear H E; rename K into H
  end.
Ltac frl H :=
  match goal with
  | |- context [free ?m (Some ?a)] =>
      bring H a;
      let m' := fresh "m" in let E := fresh "E" in let K := fresh "K" in
      destruct (free_owns _ _ _ _ H) as (m' & E & K); rewrite E; cbn [bind]; clear H E; rename K into H
  end.

Lemma free_all_owns : forall l m L f, owns m (l ++ L) f -> exists m', free_all m l = Ok m' /\ owns m' L f.
Proof.
  induction l as [|a l IH]; intros m L f H; [exists m; auto|]. cbn [free_all].
  destruct (IH m (a :: L) f) as (m1 & E & H1). { eapply owns_perm; [exact H|]. cbn [app]. perm. }
  rewrite E. cbn [bind]. destruct (free_owns _ _ _ _ H1) as (m2 & E2 & H2). eauto.
Qed.

(** ** Heaps *)
Section Heaps.
Context {A : Type} (k1 k2 : A -> Z).
Definition hok (H : mheap A) (M : list (nat * A)) : Prop := stores (fun x => k1 (snd x)) (fun x => k2 (snd x)) (mh H) M.
(** Its struct and arrays, links, and items. *)
Definition hbase (H : mheap A) : list nat := [b_heap H; b_items H; b_updated H].
Definition hblocks (H : mheap A) (M : list (nat * A)) : list nat := hbase H ++ b_links H ++ map fst M.

Lemma use_heap_ok : forall m (H : mheap A) M L f, owns m (hblocks H M ++ L) f -> use_heap m H = Ok tt.
Proof.
  intros m H M L f O. unfold use_heap. unfold hblocks, hbase in O. cbn [app] in O. us O. us O. us O. reflexivity.
Qed.

Lemma m_new_heap_ok : forall m n L f, 0 < n -> owns m L f ->
  exists m' H, @m_new_heap A m n = (m', Some H) /\ hok H [] /\ owns m' (hblocks H [] ++ L) f /\ new_heap n = Some (mh H) /\ h_alloc (mh H) = n /\ h_heapified (mh H) = false.
Proof.
  intros m n L f Hn O. unfold m_new_heap. destruct (new_heap_ok (fun x => k1 (snd x)) (fun x : nat * A => k2 (snd x)) n Hn) as (h & E & S & Al & HF & _).
  rewrite E. tk O. tk O. tk O. eexists _, _. split; [reflexivity|]. split; [exact S|]. split; [|auto].
  eapply owns_perm; [exact O|]. cbn. perm.
Qed.

Lemma m_insert_ok : forall m H M c L f, hok H M -> length M < h_alloc (mh H) -> owns m (hblocks H M ++ L) f ->
  exists m' H' hi, m_heap_insert k1 k2 m H c = Ok (m', H') /\ hok H' (M ++ [(hi, c)]) /\ owns m' (hblocks H' (M ++ [(hi, c)]) ++ L) f /\
    h_alloc (mh H') = h_alloc (mh H) /\ h_heapified (mh H') = false /\
    heap_insert (fun x => k1 (snd x)) (fun x => k2 (snd x)) true true (mh H) (hi, c) = Ok (NO_ERROR, mh H').
Proof.
  intros m H M c L f S LT O. unfold m_heap_insert. rewrite (use_heap_ok m H M L f O). cbn [bind]. tk O.
  destruct (insert_ok _ _ (mh H) M (a, c) true S LT) as (h' & E & S' & Al & HF & _). rewrite E. cbn [bind].
  assert (SZ : h_size (mh H) = length M) by exact (proj1 S).
  destruct (Nat.eqb_spec (h_size (mh H)) (h_alloc (mh H))); [lia|]. eexists _, _, a. split; [reflexivity|]. split; [exact S'|]. split.
  - eapply owns_perm; [exact O|]. unfold hblocks, hbase. cbn [with_heap b_heap b_items b_updated b_links mh]. rewrite map_app. cbn [map fst app]. perm.
  - cbn. auto.
Qed.

Lemma m_set_ok : forall m H M i c L f d, hok H M -> i < length M -> owns m (hblocks H M ++ L) f ->
  exists m' H', m_set_heap_item k1 k2 m H i c true = Ok (m', H') /\ hok H' (set_nth M i (fst (nth i M d), c)) /\
    owns m' (hblocks H' (set_nth M i (fst (nth i M d), c)) ++ L) f /\ h_alloc (mh H') = h_alloc (mh H) /\
    set_heap_item (fun x => k1 (snd x)) (fun x => k2 (snd x)) (mh H) (Z.of_nat i) (fst (nth i M d), c) true = Ok (NO_ERROR, mh H').
Proof.
  intros m H M i c L f d S LT O. unfold m_set_heap_item. rewrite (use_heap_ok m H M L f O). cbn [bind].
  assert (SZ : h_size (mh H) = length M) by exact (proj1 S). rewrite SZ. destruct (Nat.leb_spec (length M) i); [lia|]. cbn [orb negb].
  assert (LC : i < length (h_cells (mh H))). { destruct S as (S1 & S2 & S3 & _). rewrite <- S3. lia. }
  rewrite (rd_ok _ (h_cells (mh H)) i None) by exact LC. cbn [bind]. rewrite (stores_at _ _ (mh H) M i d S LT). cbn [cell_of content].
  assert (IA : In (fst (nth i M d)) (map fst M)). { apply in_map. apply nth_In. exact LT. }
  rewrite (use_owns m _ _ (fst (nth i M d)) O).
  2:{ apply in_or_app. left. unfold hblocks. apply in_or_app. right. apply in_or_app. right. exact IA. }
  cbn [bind].
  destruct (set_item_ok _ _ (mh H) M i (fst (nth i M d), c) d S LT) as (h' & E & S' & Al & _). rewrite E. cbn [bind]. tk O.
  eexists _, _. split; [reflexivity|]. split; [exact S'|]. split; [|auto].
  eapply owns_perm; [exact O|]. unfold hblocks, hbase. cbn [b_heap b_items b_updated b_links mh].
  assert (EM : map fst (set_nth M i (fst (nth i M d), c)) = map fst M).
  { clear. revert i. induction M as [|x M IH]; intros [|i]; cbn; try reflexivity. rewrite IH. reflexivity. }
  rewrite EM. perm.
Qed.

Lemma build_stores : forall h M, stores (fun x : nat * A => k1 (snd x)) (fun x => k2 (snd x)) h M ->
  exists h' M', build_min_heap h = Ok h' /\ stores (fun x => k1 (snd x)) (fun x => k2 (snd x)) h' M' /\ Permutation M' M /\ (h_heapified h = false -> is_heap h').
Proof.
  intros h M S. destruct (h_heapified h) eqn:HH.
  - destruct (rebuild_heap_any _ _ h M S HH) as (h' & M' & E & S' & P & _). exists h', M'. split; [exact E|]. split; [exact S'|]. split; [exact P|]. discriminate.
  - destruct (build_ok _ _ h M S HH) as (h' & M' & E & S' & P & IH & _). exists h', M'. auto.
Qed.

Lemma m_build_ok : forall m H M L f, hok H M -> owns m (hblocks H M ++ L) f ->
  exists m' H' M', m_build_min_heap m H = Ok (m', H') /\ hok H' M' /\ Permutation M' M /\ owns m' (hblocks H' M' ++ L) f /\
    build_min_heap (mh H) = Ok (mh H') /\ (h_heapified (mh H) = false -> is_heap (mh H')).
Proof.
  intros m H M L f S O. unfold m_build_min_heap. rewrite (use_heap_ok m H M L f O). cbn [bind].
  destruct (build_stores (mh H) M S) as (h' & M' & E & S' & P & IH). rewrite E. cbn [bind].
  destruct (free_all_owns (b_links H) m (hbase H ++ map fst M ++ L) f) as (m1 & E1 & O1).
  { eapply owns_perm; [exact O|]. unfold hblocks, hbase. cbn [app]. perm. }
  rewrite E1. cbn [bind]. eexists _, _, M'. split; [reflexivity|]. split; [exact S'|]. split; [exact P|]. split.
  - eapply owns_perm; [exact O1|]. unfold hblocks, hbase. cbn [b_heap b_items b_updated b_links app].
    do 3 apply perm_skip. apply Permutation_app_tail. apply Permutation_map. apply Permutation_sym. exact P.
  - auto.
Qed.

Lemma m_extract_ok : forall m H x M L f, hok H (x :: M) -> owns m (hblocks H (x :: M) ++ L) f ->
  exists m' H' M', m_heap_extract_min m H = Ok (m', Some (snd x), H') /\ hok H' M' /\ Permutation M' M /\ owns m' (hblocks H' M' ++ L) f /\
    heap_extract_min (mh H) = Ok (Some x, mh H') /\
    (is_heap (mh H) -> is_heap (mh H') /\ forall y, In y M -> (k1 (snd x) <= k1 (snd y))%Z).
Proof.
  intros m H x M L f S O. unfold m_heap_extract_min. rewrite (use_heap_ok m H _ L f O). cbn [bind].
  destruct (extract_any _ _ (mh H) x M S) as (h' & M' & E & S' & P & _). rewrite E. cbn [bind]. destruct x as [hi c]. cbn [snd].
  unfold hblocks, hbase in O. cbn [map fst app] in O. frl O. eexists _, _, M'. split; [reflexivity|]. split; [exact S'|]. split; [exact P|]. split; [|split; [reflexivity|]].
  2:{ intros IH. destruct (extract_ok _ _ (mh H) (hi, c) M S IH) as (h2 & M2 & E2 & _ & _ & I2 & _ & _ & _ & MIN). rewrite E in E2. injection E2 as <-. split; [exact I2|].
      intros y Hy. assert (X := MIN y Hy). unfold key_le in X. cbn [snd] in *. lia. }
  eapply owns_perm; [exact O|]. unfold hblocks, hbase. cbn [with_heap b_heap b_items b_updated b_links app]. do 3 apply perm_skip.
  apply Permutation_app_tail. apply Permutation_app_head. apply Permutation_map. apply Permutation_sym. exact P.
Qed.
Lemma m_extract_none : forall m H L f, hok H [] -> owns m (hblocks H [] ++ L) f ->
  m_heap_extract_min m H = Ok (m, None, with_heap H (mh H)) /\ heap_extract_min (mh H) = Ok (None, mh H).
Proof.
  intros m H L f S O. assert (E := extract_empty (mh H) (proj1 S)). split; [|exact E].
  unfold m_heap_extract_min. rewrite (use_heap_ok m H _ L f O). cbn [bind]. rewrite E. reflexivity.
Qed.

(** Releasing everything: [Z] are the items and the blocks of their contents. *)
Lemma m_drain_ok : forall (R : A -> fp -> Prop) release,
  (forall m c g f, R c g -> heap_is m (g ++ f) -> exists m', release m c = Ok m' /\ heap_is m' f) ->
  forall fuel m H Z L f, hok H (map fst Z) -> Forall (fun z => R (snd (fst z)) (snd z)) Z -> length Z < fuel ->
  owns m (hblocks H (map fst Z) ++ L) (concat (map snd Z) ++ f) ->
  exists m' H', m_drain fuel release m H = Ok (m', H') /\ hok H' [] /\ owns m' (hblocks H' [] ++ L) f.
Proof.
  intros R release REL. induction fuel as [|fuel IH]; intros m H Z L f S HR LT O; [lia|]. cbn [m_drain]. destruct Z as [|[x g] Z].
  - destruct (m_extract_none m H L _ S O) as (E & _). rewrite E. cbn [bind]. exists m, (with_heap H (mh H)). auto.
  - cbn [map fst snd concat] in *. destruct (m_extract_ok m H x (map fst Z) L _ S O) as (m1 & H1 & M1 & E & S1 & P1 & O1 & _). rewrite E. cbn [bind].
    inversion HR as [|? ? HR1 HR2]; subst. cbn [fst snd] in HR1.
    destruct (REL m1 (snd x) g (led (hblocks H1 M1 ++ L) ++ concat (map snd Z) ++ f) HR1) as (m2 & E2 & O2).
    { eapply heap_perm; [|exact O1]. perm. }
    rewrite E2. cbn [bind]. destruct (Permutation_map_inv _ _ P1) as (Z1 & EZ & PZ). subst M1. apply (IH m2 H1 Z1 L f S1).
    + eapply Permutation_Forall; [exact PZ|exact HR2].
    + rewrite <- (Permutation_length PZ). cbn in LT. lia.
    + eapply owns_frame; [exact O2|]. apply Permutation_app_tail. apply concat_perm. apply Permutation_map. exact PZ.
Qed.

Lemma m_free_heap_ok : forall m H L f, hok H [] -> owns m (hblocks H [] ++ L) f -> exists m', m_free_heap m H = Ok m' /\ owns m' L f.
Proof.
  intros m H L f S O. unfold m_free_heap. rewrite (use_heap_ok m H _ L f O). cbn [bind].
  assert (SZ : h_size (mh H) = 0) by exact (proj1 S). rewrite SZ. unfold for_up. cbn [Nat.sub loop_up bind].
  unfold hblocks, hbase in O. cbn [map app] in O. frl O.
  destruct (free_all_owns (b_links H) m0 (b_heap H :: b_updated H :: L) f) as (m1 & E1 & O1). { eapply owns_perm; [exact O|]. perm. }
  rewrite E1. cbn [bind]. frl O1. destruct (free_owns _ _ _ _ O1) as (m3 & E3 & O3). eauto.
Qed.
End Heaps.

(** ** Graphs *)
Definition gblocks (G : mgraph) : list nat := b_graph G :: b_adj G :: b_vars G :: opt (b_ind G).

Lemma use_graph_ok : forall m G L f, owns m (gblocks G ++ L) f -> use_graph m G = Ok tt.
Proof.
  intros m G L f O. unfold use_graph. unfold gblocks in O. cbn [app] in O. us O. us O. us O.
  destruct (b_ind G) as [a|]; [|reflexivity]. cbn [opt app] in O. rewrite (use_owns m _ _ a O) by inl. reflexivity.
Qed.
Lemma m_new_graph_ok : forall m g L f, owns m L f ->
  exists m' G, m_new_graph m g = (m', G) /\ owns m' (gblocks G ++ L) f /\ mg G = g.
Proof.
  intros m g L f O. unfold m_new_graph. tk O. tk O. tk O. eexists _, _. split; [reflexivity|]. split; [|reflexivity].
  eapply owns_perm; [exact O|]. unfold gblocks. cbn. perm.
Qed.
Lemma m_free_graph_ok : forall m G L f, owns m (gblocks G ++ L) f -> exists m', m_free_graph m G = Ok m' /\ owns m' L f.
Proof.
  intros m G L f O. unfold m_free_graph. unfold gblocks in O. cbn [app] in O. frl O. frl O.
  destruct (b_ind G) as [a|]; cbn [opt app] in O.
  - frl O. destruct (free_owns _ _ _ _ O) as (m3 & E3 & O3). eauto.
  - rewrite free_null. cbn [bind]. destruct (free_owns _ _ _ _ O) as (m3 & E3 & O3). eauto.
Qed.
Lemma with_graph_ok : forall m G g L f, owns m (gblocks G ++ L) f ->
  exists m' G', with_graph m G g = (m', G') /\ owns m' (gblocks G' ++ L) f /\ mg G' = g.
Proof.
  intros m G g L f O. unfold with_graph. destruct (b_ind G) as [a|] eqn:EI.
  - eexists _, _. split; [reflexivity|]. split; [|reflexivity]. unfold gblocks in *. rewrite EI in O. exact O.
  - destruct (g_ind g).
    + tk O. eexists _, _. split; [reflexivity|]. split; [|reflexivity]. unfold gblocks in *. rewrite EI in O. cbn in *. eapply owns_perm; [exact O|]. perm.
    + eexists _, _. split; [reflexivity|]. split; [|reflexivity]. unfold gblocks in *. rewrite EI in O. exact O.
Qed.
Lemma m_add_node_ok : forall m G v L f g e, owns m (gblocks G ++ L) f -> graph_add_node (mg G) v = Ok (g, e) ->
  exists m' G', m_graph_add_node m G v = Ok (m', G', e) /\ owns m' (gblocks G' ++ L) f /\ mg G' = g.
Proof.
  intros m G v L f g e O EG. unfold m_graph_add_node. rewrite (use_graph_ok m G L f O). cbn [bind]. rewrite EG. cbn [bind].
  destruct (is_err e). { eexists _, _. split; [reflexivity|]. auto. }
  assert (X : exists m1, free m (b_ind G) = Ok m1 /\ owns m1 (gblocks (mkMgraph (b_graph G) (b_adj G) (b_vars G) None g) ++ L) f).
  { unfold gblocks in *. cbn in *. destruct (b_ind G) as [a|]; cbn [opt app] in O.
    - bring O a. destruct (free_owns _ _ _ _ O) as (m1 & E1 & O1). exists m1. split; [exact E1|]. exact O1.
    - exists m. auto. }
  destruct X as (m1 & E1 & O1). rewrite E1. cbn [bind].
  destruct (with_graph_ok m1 _ g L f O1) as (m2 & G2 & E2 & O2 & EQ). rewrite E2. eauto.
Qed.
Lemma m_add_child_ok : forall m G u v L f g e, owns m (gblocks G ++ L) f -> graph_add_child (mg G) u v = Ok (g, e) ->
  exists m' G', m_graph_add_child m G u v = Ok (m', G', e) /\ owns m' (gblocks G' ++ L) f /\ mg G' = g.
Proof.
  intros m G u v L f g e O EG. unfold m_graph_add_child. rewrite (use_graph_ok m G L f O). cbn [bind]. rewrite EG. cbn [bind].
  destruct (with_graph_ok m G g L f O) as (m2 & G2 & E2 & O2 & EQ). rewrite E2. eauto.
Qed.
Lemma m_cluster_ok : forall m G v L f g c, owns m (gblocks G ++ L) f -> graph_cluster (mg G) v = Ok (Some c, g) ->
  exists m' G' a, m_graph_cluster m G v = Ok (m', Some (a, c), G') /\ owns m' (gblocks G' ++ a :: L) f /\ mg G' = g.
Proof.
  intros m G v L f g c O EG. unfold m_graph_cluster. rewrite (use_graph_ok m G L f O). cbn [bind]. rewrite EG. cbn [bind].
  destruct (with_graph_ok m G g L f O) as (m2 & G2 & E2 & O2 & EQ). rewrite E2. tk O2. eexists _, _, a. split; [reflexivity|]. split; [|exact EQ].
  eapply owns_perm; [exact O2|]. perm.
Qed.
