(** * Memory of building a join tree (for C91) *)
From Coq Require Import Permutation.
From Verif Require Import Base BaseProofs PotentialModel VariableModel VariableProofs JoinTreeModel HeapModel HeapSpec HeapProofs HeapProofs2 GraphModel GraphSpec GraphProofs GraphProofs2 MemoryModel MemorySpec MemoryProofs MemoryProofs2 MemoryProofs3 MemoryProofs4 MemoryProofs5 MemoryProofs6 MemoryProofs7 MemoryProofs8 MemoryProofs9 GatherProofs MemoryModel3 MemoryProofs19 MemoryProofs20 MemoryProofs21 MemoryProofs22.
Import ListNotations.
Open Scope nat_scope.
Local Open Scope res_scope.

Lemma inv_owns : forall m vs cl live t L f, inv m vs cl live t (led L ++ f) -> owns m L (blocks_of t ++ f).
Proof. intros m vs cl live t L f (_ & _ & _ & H). eapply heap_perm; [|exact H]. perm. Qed.
Lemma owns_inv : forall m m' vs cl live t rest L f, inv m vs cl live t rest -> owns m' L (blocks_of t ++ f) -> inv m' vs cl live t (led L ++ f).
Proof. intros m m' vs cl live t rest L f (A & B & C & _) H. split; [exact A|]. split; [exact B|]. split; [exact C|]. eapply heap_perm; [|exact H]. unfold owns. perm. Qed.
Lemma inv_perm : forall m vs cl live t r r', inv m vs cl live t r -> Permutation r r' -> inv m vs cl live t r'.
Proof. intros m vs cl live t r r' (A & B & C & D) P. split; [exact A|]. split; [exact B|]. split; [exact C|]. eapply heap_perm; [|exact D]. apply Permutation_app_head. exact P. Qed.
Lemma led_perm : forall L L' f, Permutation L L' -> Permutation (led L ++ f) (led L' ++ f).
Proof. intros. apply Permutation_app_tail. apply Permutation_map. assumption. Qed.
Lemma led_in : forall L f a, In a L -> In (a, []) (led L ++ f).
Proof. intros. apply in_or_app. left. apply in_map_iff. eauto. Qed.
Lemma led_app : forall L L', led (L ++ L') = led L ++ led L'.
Proof. intros. apply map_app. Qed.

Lemma index_size : forall g v o g', graph_index g v = Ok (o, g') -> g_size g' = g_size g.
Proof.
  intros g v o g' E. unfold graph_index in E. binv E g1.
  assert (S1 : g_size g1 = g_size g).
  { destruct (g_ind g); [injection K as <-; reflexivity|]. unfold build_graph_index in K. repeat (let q := fresh "q" in binv K q). injection K as <-. reflexivity. }
  destruct (g_ind g1); [|discriminate E]. binv E k. binv E i. binv E o1. destruct o1 as [w|]; [destruct (VariableModel.equal_variables w v)|]; injection E as <- <-; exact S1.
Qed.
Lemma adjm_size : forall g i j b g', set_adjm g i j b = Ok g' -> g_size g' = g_size g.
Proof. intros g i j b g' E. unfold set_adjm in E. binv E a. injection E as <-. reflexivity. Qed.
Lemma add_edges_size : forall n g c g' set, add_edges n g c = Ok (g', set) -> g_size g' = g_size g.
Proof.
  intros n g c g' set E. unfold add_edges in E.
  apply (for_up_back _ (fun _ s => g_size (fst s) = g_size g)) in E; [exact E|lia|reflexivity|].
  intros j [g1 s1] [g2 s2] Hj EQ E1. cbn [fst] in *. binv E1 vj. binv E1 p. destruct p as [[ji|] g3]; [|discriminate E1]. binv E1 s3. binv E1 g4. injection E1 as <- <-.
  apply index_size in K0. apply (for_up_back _ (fun _ s => g_size s = g_size g)) in K2; [exact K2| |congruence|].
  { lia. }
  intros k g5 g6 Hk EQ5 E5. binv E5 vk. binv E5 p. destruct p as [[ki|] g7]; [|discriminate E5]. binv E5 g8.
  apply index_size in K4. apply adjm_size in K5. apply adjm_size in E5. congruence.
Qed.
Lemma eliminate_size : forall k1 k2 n h g cs g', eliminate k1 k2 n h g = Ok (cs, g') -> g_size g' = g_size g.
Proof.
  intros k1 k2 n h g cs g' E. unfold eliminate in E. binv E p. destruct p as [[h1 g1] cs1]. injection E as <- <-.
  apply (for_up_back _ (fun _ s => g_size (snd (fst s)) = g_size g)) in K; [exact K|lia|reflexivity|].
  intros i [[h2 g2] cs2] [[h3 g3] cs3] Hi EQ E. cbn [fst snd] in *. binv E p. destruct p as [[c|] h4]; [|discriminate E]. binv E p. destruct p as [g5 set].
  binv E h6. binv E b. injection E as <- <- <-. change (add_edges n g2 c = Ok (g5, set)) in K1. apply add_edges_size in K1. congruence.
Qed.

(** The second half of a call of Connect: the sepset exists. *)
Lemma run_confirm : forall m vs cl w t rest a b s gs, inv m vs cl (w_vars w) t (gs ++ rest) -> rep w cl t ->
  nth a (t_members t) None <> None -> nth b (t_members t) None <> None -> a <> b -> sep s (nth a cl 0) (nth b cl 0) gs ->
  exists m' t', confirm_sepset m (Some s) = Ok m' /\ inv m' vs cl (w_vars w) t' rest /\ rep (with_neighbour b a (with_neighbour a b w)) cl t' /\
    t_members t' = t_members t.
Proof.
  intros m1 vs cl w t rest a b s gs INV R NA NB AB SP.
  destruct (nth a (t_members t) None) as [ma|] eqn:MA; [|congruence]. destruct (nth b (t_members t) None) as [mb|] eqn:MB; [|congruence]. clear NA NB.
  assert (LA := inv_member_lt _ _ _ _ _ _ _ _ INV MA). assert (LB := inv_member_lt _ _ _ _ _ _ _ _ INV MB).
  destruct INV as (HV & (K1 & K2 & K3 & HC) & HE & H1).
  assert (XA := HC a LA). rewrite MA in XA. destruct XA as (FA & QA & SA). assert (XB := HC b LB). rewrite MB in XB. destruct XB as (FB & QB & SB).
  set (R0 := concat (set_nth (set_nth (t_cliques t) a []) b [])).
  apply (heap_perm m1 _ (gs ++ nth a (t_cliques t) [] ++ nth b (t_cliques t) [] ++ R0 ++ concat (t_vars t) ++ flat_map e_fp (t_edges t) ++ rest)) in H1.
  2:{ unfold blocks_of. eapply perm_trans.
      - apply Permutation_app_tail. apply Permutation_app_head. apply Permutation_app_tail. apply (two_cliques _ a b); try lia; exact AB.
      - fold R0. perm. }
  destruct (confirm_sepset_ok m1 _ s _ _ _ _ _ _ _ _ gs QA QB SP H1) as (m2 & l1 & l2 & ga & gb & E2 & QA' & QB' & H2).
  set (e := mkEdge s a b gs).
  exists m2, (mkTree (t_vars t) (set_nth (set_nth (t_cliques t) a ga) b gb) (t_members t)
    (set_nth (set_nth (t_links t) a ((l1, s) :: nth a (t_links t) [])) b ((l2, s) :: nth b (t_links t) [])) (e :: t_edges t)).
  split; [exact E2|].
  assert (TK : forall k, touches k e = (Nat.eqb a k || Nat.eqb b k)%bool) by reflexivity.
  split; [|split; [|reflexivity]].
  - split; [exact HV|]. cbn [t_vars t_members t_edges t_links t_cliques]. split; [|split].
    + unfold cliques_ok. cbn [t_vars t_members t_edges t_links t_cliques]. rewrite !set_nth_length. split; [exact K1|]. split; [exact K2|]. split; [exact K3|].
      intros k Lk. rewrite !nth_set by (rewrite ?set_nth_length; lia). unfold at_. cbn [filter]. rewrite TK.
      destruct (Nat.eqb_spec k b) as [Db|Db].
      * subst k. rewrite MB, Nat.eqb_refl, Bool.orb_true_r. split; [exact FB|]. split; [exact QB'|]. cbn [map snd e_ptr]. rewrite SB. reflexivity.
      * destruct (Nat.eqb_spec k a) as [Da|Da].
        -- subst k. rewrite MA, Nat.eqb_refl. cbn [orb]. split; [exact FA|]. split; [exact QA'|]. cbn [map snd e_ptr]. rewrite SA. reflexivity.
        -- destruct (Nat.eqb_spec a k); [congruence|]. destruct (Nat.eqb_spec b k); [congruence|]. cbn [orb]. exact (HC k Lk).
    + constructor; [|exact HE]. split; [exact AB|]. split; [eauto|]. split; [eauto|exact SP].
    + eapply heap_perm; [|exact H2]. unfold blocks_of. cbn [t_vars t_members t_edges t_links t_cliques flat_map e_fp].
      apply (@perm_trans _ _ ((ga ++ gb ++ R0) ++ gs ++ concat (t_vars t) ++ flat_map e_fp (t_edges t) ++ rest)); [perm|].
      eapply perm_trans; [apply Permutation_app_tail; apply two_set; try lia; exact AB|]. perm.
  - destruct R as (R1 & R2). split; [unfold with_neighbour; rewrite !change_length; exact R1|]. cbn [t_members t_edges]. intros k.
    unfold with_neighbour. rewrite !clique_of_change, R2. destruct (nth k (t_members t) None) as [mem|]; [|reflexivity].
    unfold neighbours, at_. cbn [filter]. rewrite TK. destruct (Nat.eqb_spec k a) as [Da|Da]; destruct (Nat.eqb_spec k b) as [Db|Db]; [congruence| | |].
    + subst k. rewrite Nat.eqb_refl. cbn [orb map fst snd]. unfold other at 2. cbn [e_a e_b]. rewrite Nat.eqb_refl. reflexivity.
    + subst k. rewrite Nat.eqb_refl, Bool.orb_true_r. cbn [map fst snd]. unfold other at 2. change (e_a e) with a.
      destruct (Nat.eqb_spec a b); [congruence|]. reflexivity.
    + destruct (Nat.eqb_spec a k); [congruence|]. destruct (Nat.eqb_spec b k); [congruence|]. reflexivity.
Qed.

Section Build.
Variables (k1 k2 : list nat -> Z) (card : nat -> nat) (vs : list nat).

Lemma m_clique_array_ok : forall m cl w t clusters G L f n out,
  inv m vs cl (w_vars w) t (led (gblocks G ++ lblocks clusters ++ L) ++ f) -> rep w cl t ->
  cluster_list_to_clique_array card (map snd clusters) (g_vars (mg G)) n [] = Ok out ->
  Forall (fun c => forallb (exists_var w) (c_vars c) = true) out ->
  exists m' array t' new adr, m_clique_array card (nth_error vs) m clusters G n = Ok (m', array, out, map Some (rev adr)) /\
    out = rev new /\ length adr = length new /\
    inv m' vs (cl ++ adr) (w_vars w) t' (led (array :: gblocks G ++ lblocks clusters ++ L) ++ f) /\ rep (with_cliques w new) (cl ++ adr) t'.
Proof.
  intros m cl w t clusters G L f n out I R E V. unfold m_clique_array. assert (O := inv_owns _ _ _ _ _ _ _ I).
  rewrite (use_graph_ok m G _ _ O). cbn [bind]. tk O. tk O. assert (I2 := owns_inv _ _ _ _ _ _ _ _ _ I O).
  destruct (m_cliques_ok card vs clusters m1 cl w t _ (g_vars (mg G)) n [] [] out I2 R) as (m' & t' & new & adr & E' & EO & LA & I' & R'); auto.
  { intros x Hx. apply led_in. right. right. apply in_or_app. right. apply in_or_app. left. exact Hx. }
  rewrite E'. cbn [bind]. rewrite app_nil_r in *. assert (O' := inv_owns _ _ _ _ _ _ _ I'). frl O'.
  exists m2, a, t', new, adr. split; [reflexivity|]. split; [exact EO|]. split; [exact LA|]. split; [|exact R']. eapply owns_inv; eassumption.
Qed.

Lemma m_triangulate_ok : forall gvs m cl w t G L f out g, graph_ok (mg G) gvs -> gvs <> [] -> (forall u, ~ arc (mg G) u u) ->
  inv m vs cl (w_vars w) t (led (gblocks G ++ L) ++ f) -> rep w cl t ->
  triangulate_graph k1 k2 card (mg G) = Ok (out, g) ->
  Forall (fun c => forallb (exists_var w) (c_vars c) = true) out ->
  exists m' array t' new adr G', m_triangulate_graph k1 k2 card (nth_error vs) m G = Ok (m', array, out, map Some (rev adr), G') /\
    out = rev new /\ length adr = length new /\
    inv m' vs (cl ++ adr) (w_vars w) t' (led (array :: gblocks G' ++ L) ++ f) /\ rep (with_cliques w new) (cl ++ adr) t'.
Proof.
  intros gvs m cl w t G L f out g OK NE IR I R E V. unfold triangulate_graph in E. unfold m_triangulate_graph. assert (O := inv_owns _ _ _ _ _ _ _ I).
  binv E p. destruct p as [[h|] g1]; [|discriminate E]. binv E p. destruct p as [clusters g2]. binv E cs. injection E as <- <-.
  destruct (m_build_cluster_heap_ok k1 k2 gvs m G L _ h g1 OK NE IR O K) as (m1 & H1 & G1 & M1 & E1 & S1 & C1 & <- & <- & OK1 & O1). rewrite E1. cbn [bind]. tk O1.
  assert (SZ := eliminate_size _ _ _ _ _ _ _ K0). rewrite SZ in K1. rewrite (gk_size _ _ OK1) in *. rewrite (gk_size _ _ OK).
  destruct (m_eliminate_ok k1 k2 (length gvs) m0 H1 M1 G1 (a :: L) (blocks_of t ++ f) clusters g2 S1 C1 ltac:(eapply owns_perm; [exact O1|]; perm) K0) as (m2 & H2 & G2 & cl2 & M2 & E2 & S2 & <- & <- & O2).
  rewrite E2. cbn [bind].
  assert (I2 := owns_inv _ _ _ _ _ _ _ _ _ I (owns_perm _ _ (gblocks G2 ++ lblocks cl2 ++ hblocks H2 M2 ++ cblocks M2 ++ a :: L) _ O2 ltac:(perm))).
  destruct (m_clique_array_ok m2 cl w t cl2 G2 _ f (length gvs) cs I2 R K1 V) as (m3 & array & t3 & new & adr & E3 & EO & LA & I3 & R3). rewrite E3. cbn [bind].
  assert (O3 := inv_owns _ _ _ _ _ _ _ I3).
  set (Z := map (fun x : nat * (nat * list nat) => (x, [(fst (snd x), [])] : fp)) M2).
  assert (EZ : map fst Z = M2). { unfold Z. rewrite map_map. cbn. apply map_id. }
  assert (EC : concat (map snd Z) = led (cblocks M2)).
  { unfold Z, cblocks, led. rewrite !map_map. clear. induction M2 as [|x M IH]; cbn; [reflexivity|]. f_equal. exact IH. }
  assert (REL : forall m c g f, g = [(fst c, [] : block)] -> heap_is m (g ++ f) -> exists m', (fun m (c : nat * list nat) => free m (Some (fst c))) m c = Ok m' /\ heap_is m' f).
  { intros m5 c g5 f5 -> H5. destruct (free_ok m5 f5 (fst c) [] H5) as (m6 & E6 & H6 & _). eauto. }
  destruct (m_drain_ok (key1 k1) (key2 k2) (fun c g => g = [(fst c, [])]) _ REL (S (h_size (mh H2))) m3 H2 Z (array :: gblocks G2 ++ lblocks cl2 ++ a :: L) (blocks_of t3 ++ f)) as (m4 & H4 & E4 & S4 & O4).
  { rewrite EZ. exact S2. }
  { unfold Z. apply Forall_forall. intros z Hz. apply in_map_iff in Hz. destruct Hz as (x & <- & _). reflexivity. }
  { unfold Z. rewrite map_length. assert (SZ2 : h_size (mh H2) = length M2) by exact (proj1 S2). lia. }
  { rewrite EZ, EC. rewrite <- (owns_app m3 _ (cblocks M2)). eapply owns_perm; [exact O3|]. perm. }
  rewrite E4. cbn [bind]. destruct (m_free_heap_ok _ _ m4 H4 _ _ S4 O4) as (m5 & E5 & O5). rewrite E5. cbn [bind].
  destruct (free_clusters_ok cl2 m5 (array :: gblocks G2 ++ a :: L) (blocks_of t3 ++ f)) as (m6 & E6 & O6). { eapply owns_perm; [exact O5|]. perm. }
  rewrite E6. cbn [bind]. frl O6. exists m7, array, t3, new, adr, G2. split; [reflexivity|]. split; [exact EO|]. split; [exact LA|]. split; [|exact R3].
  eapply owns_inv; [exact I3|]. eapply owns_perm; [exact O6|]. perm.
Qed.
End Build.
