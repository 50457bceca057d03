(** * Proofs about memory: programs (C82), continued *)
From Coq Require Import Permutation.
From Verif Require Import Base BaseProofs HeapProofs MemoryModel MemorySpec MemoryProofs MemoryProofs2 MemoryProofs3 MemoryProofs4 MemoryProofs5 MemoryProofs6 MemoryProofs7 MemoryProofs8.
Import ListNotations.
Open Scope nat_scope.
Local Open Scope res_scope.

Lemma rep_some : forall w cl t k mem nb, rep w cl t -> clique_of w k = Some (mem, nb) ->
  nth k (t_members t) None = Some mem /\ nb = neighbours k (t_edges t).
Proof.
  intros w cl t k mem nb (_ & R) H. rewrite R in H. destruct (nth k (t_members t) None); [|discriminate]. injection H as <- <-. auto.
Qed.

Lemma run_connect : forall m vs cl w t rest a b ma mb na nb, inv m vs cl (w_vars w) t rest -> rep w cl t ->
  clique_of w a = Some (ma, na) -> clique_of w b = Some (mb, nb) -> a <> b ->
  forallb (exists_var w) ma = true -> forallb (exists_var w) mb = true ->
  goal (with_neighbour b a (with_neighbour a b w)) (run_call (m, vs, cl) (Connect a b)) rest.
Proof.
  intros m vs cl w t rest a b ma mb na nb INV R CA CB AB VA VB. unfold run_call.
  destruct (rep_some w cl t a ma na R CA) as (MA & _). destruct (rep_some w cl t b mb nb R CB) as (MB & _).
  assert (LA := inv_member_lt _ _ _ _ _ _ _ _ INV MA). assert (LB := inv_member_lt _ _ _ _ _ _ _ _ INV MB).
  destruct INV as (HV & (K1 & K2 & K3 & HC) & HE & H).
  rewrite (rd_nth _ cl a 0 LA), (rd_nth _ cl b 0 LB). cbn [bind].
  assert (XA := HC a LA). rewrite MA in XA. destruct XA as (FA & QA & SA). assert (XB := HC b LB). rewrite MB in XB. destruct XB as (FB & QB & SB).
  destruct (live_members vs (w_vars w) (t_vars t) ma HV VA) as (A1 & _ & _). destruct (live_members vs (w_vars w) (t_vars t) mb HV VB) as (B1 & _ & _).
  assert (IV : incl (concat (t_vars t)) (blocks_of t ++ rest)) by (intros x Hx; apply in_or_app; left; apply in_or_app; left; exact Hx).
  assert (IC : forall k, k < length cl -> incl (nth k (t_cliques t) []) (blocks_of t ++ rest)).
  { intros k Lk x Hx. apply in_or_app. left. apply in_or_app. right. apply in_or_app. left. apply in_concat. exists (nth k (t_cliques t) []).
    split; [apply nth_In; lia|exact Hx]. }
  destruct (new_sepset_ok m _ _ _ _ _ _ _ _ _ QA QB H (IC a LA) (IC b LB)) as (m1 & s & gs & E1 & SP & H1).
  { eapply Forall_impl; [|exact A1]. intros v. apply has_var_incl. exact IV. }
  { eapply Forall_impl; [|exact B1]. intros v. apply has_var_incl. exact IV. }
  rewrite E1. cbn [bind].
  set (R0 := concat (set_nth (set_nth (t_cliques t) a []) b [])).
  apply (heap_perm m1 _ (gs ++ nth a (t_cliques t) [] ++ nth b (t_cliques t) [] ++ R0 ++ concat (t_vars t) ++ flat_map e_fp (t_edges t) ++ rest)) in H1.
  2:{ apply Permutation_app_head. unfold blocks_of. eapply perm_trans.
      - apply Permutation_app_tail. apply Permutation_app_head. apply Permutation_app_tail. apply (two_cliques _ a b); try lia; exact AB.
      - fold R0. perm. }
  destruct (confirm_sepset_ok m1 _ s _ _ _ _ _ _ _ _ gs QA QB SP H1) as (m2 & l1 & l2 & ga & gb & E2 & QA' & QB' & H2).
  rewrite E2. cbn [bind].
  set (e := mkEdge s a b gs).
  exists m2, vs, cl, (mkTree (t_vars t) (set_nth (set_nth (t_cliques t) a ga) b gb) (t_members t)
    (set_nth (set_nth (t_links t) a ((l1, s) :: nth a (t_links t) [])) b ((l2, s) :: nth b (t_links t) [])) (e :: t_edges t)).
  split; [reflexivity|].
  assert (TK : forall k, touches k e = (Nat.eqb a k || Nat.eqb b k)%bool) by reflexivity.
  split.
  - split; [exact HV|]. cbn [t_vars t_members t_edges t_links t_cliques]. split; [|split].
    + unfold cliques_ok. cbn [t_vars t_members t_edges t_links t_cliques]. rewrite !set_nth_length. split; [exact K1|]. split; [exact K2|]. split; [exact K3|].
      intros k Lk. rewrite !nth_set by (rewrite ?set_nth_length; lia). unfold at_. cbn [filter]. rewrite TK.
      destruct (Nat.eqb_spec k b) as [Db|Db].
      * subst k. rewrite MB, Nat.eqb_refl, Bool.orb_true_r. split; [exact FB|]. split; [exact QB'|]. cbn [map snd e_ptr]. rewrite SB. reflexivity.
      * destruct (Nat.eqb_spec k a) as [Da|Da].
        -- subst k. rewrite MA, Nat.eqb_refl. cbn [orb]. split; [exact FA|]. split; [exact QA'|]. cbn [map snd e_ptr]. rewrite SA. reflexivity.
        -- destruct (Nat.eqb_spec a k); [congruence|]. destruct (Nat.eqb_spec b k); [congruence|]. cbn [orb]. exact (HC k Lk).
    + constructor; [|exact HE]. split; [exact AB|]. split; [eauto|]. split; [eauto|exact SP].
    + eapply heap_perm; [|exact H2]. unfold blocks_of. cbn [t_vars t_members t_edges t_links t_cliques flat_map e_fp].
      apply (@perm_trans _ _ ((ga ++ gb ++ R0) ++ gs ++ concat (t_vars t) ++ flat_map e_fp (t_edges t) ++ rest)); [perm|].
      eapply perm_trans; [apply Permutation_app_tail; apply two_set; try lia; exact AB|]. perm.
  - destruct R as (R1 & R2). split; [unfold with_neighbour; rewrite !change_length; exact R1|]. cbn [t_members t_edges]. intros k.
    unfold with_neighbour. rewrite !clique_of_change, R2. destruct (nth k (t_members t) None) as [mem|]; [|reflexivity].
    unfold neighbours, at_. cbn [filter]. rewrite TK. destruct (Nat.eqb_spec k a) as [Da|Da]; destruct (Nat.eqb_spec k b) as [Db|Db]; [congruence| | |].
    + subst k. rewrite Nat.eqb_refl. cbn [orb map fst snd]. unfold other at 2. cbn [e_a e_b]. rewrite Nat.eqb_refl. reflexivity.
    + subst k. rewrite Nat.eqb_refl, Bool.orb_true_r. cbn [map fst snd]. unfold other at 2. change (e_a e) with a.
      destruct (Nat.eqb_spec a b); [congruence|]. reflexivity.
    + destruct (Nat.eqb_spec a k); [congruence|]. destruct (Nat.eqb_spec b k); [congruence|]. reflexivity.
Qed.

Lemma filter_neighbours : forall cl ms k a es, Forall (edge_ok cl ms) es -> k <> a ->
  filter (fun b => negb (Nat.eqb b a)) (neighbours k es) = neighbours k (apart a es).
Proof.
  intros cl ms k a es H D. induction H as [|e es (AB & _) H IH]; [reflexivity|]. unfold neighbours, at_, apart in *. cbn [filter].
  destruct (touches k e) eqn:TK; destruct (touches a e) eqn:TA; cbn [negb filter map]; rewrite ?TK; cbn [map filter].
  - assert (O : other k e = a).
    { unfold other. unfold touches in *. destruct (Nat.eqb_spec (e_a e) k); destruct (Nat.eqb_spec (e_b e) k); destruct (Nat.eqb_spec (e_a e) a);
        destruct (Nat.eqb_spec (e_b e) a); cbn in *; congruence. }
    rewrite O, Nat.eqb_refl. cbn [negb]. exact IH.
  - assert (O : other k e <> a).
    { unfold other. unfold touches in *. destruct (Nat.eqb_spec (e_a e) k); destruct (Nat.eqb_spec (e_b e) k); destruct (Nat.eqb_spec (e_a e) a);
        destruct (Nat.eqb_spec (e_b e) a); cbn in *; congruence. }
    destruct (Nat.eqb_spec (other k e) a); [congruence|]. cbn [negb]. f_equal. exact IH.
  - exact IH.
  - exact IH.
Qed.

Lemma run_free_clique : forall m vs cl w t rest a c, inv m vs cl (w_vars w) t rest -> rep w cl t -> clique_of w a = Some c ->
  goal (without a w) (run_call (m, vs, cl) (FreeClique a)) rest.
Proof.
  intros m vs cl w t rest a (ma & na) INV R CA. unfold run_call.
  destruct (rep_some w cl t a ma na R CA) as (MA & _). assert (LA := inv_member_lt _ _ _ _ _ _ _ _ INV MA).
  rewrite (rd_nth _ cl a 0 LA). cbn [bind].
  destruct (free_clique_ok m vs cl (w_vars w) t rest a ma INV MA) as (m' & t' & E & INV' & Q1 & Q2 & Q3). rewrite E. cbn [bind].
  exists m', vs, cl, t'. split; [reflexivity|]. split; [exact INV'|]. destruct R as (R1 & R2).
  split; [unfold without; rewrite change_length; exact R1|]. intros k. unfold without. rewrite clique_of_change, R2, Q2, Q3.
  destruct INV as (_ & (K1 & K2 & K3 & HC) & HE & H). rewrite nth_set by lia.
  destruct (Nat.eqb_spec k a) as [D|D].
  - subst k. rewrite MA. reflexivity.
  - destruct (nth k (t_members t) None) as [mem|]; [|reflexivity]. cbn [fst snd]. rewrite (filter_neighbours cl (t_members t) k a _ HE D). reflexivity.
Qed.

Lemma run_call_ok : forall m vs cl w w' t rest c, inv m vs cl (w_vars w) t rest -> rep w cl t -> meaning w c = Some w' ->
  goal w' (run_call (m, vs, cl) c) rest.
Proof.
  intros m vs cl w w' t rest c INV R HM. destruct c as [symbol name states|v ps|v|v|members|a b|a|v]; cbn [meaning] in HM.
  - injection HM as <-. eapply run_new_variable; eassumption.
  - destruct (exists_var w v) eqn:EV; [|discriminate]. injection HM as <-.
    apply (run_on_variable m vs cl w t rest v (fun m a => set_parents m a (map (nth_error vs) ps)) INV R EV).
    intros. eapply set_parents_ok; eassumption.
  - destruct (exists_var w v) eqn:EV; [|discriminate]. injection HM as <-.
    apply (run_on_variable m vs cl w t rest v set_prior INV R EV). intros. eapply set_prior_ok; eassumption.
  - destruct (exists_var w v) eqn:EV; [|discriminate]. injection HM as <-.
    apply (run_on_variable m vs cl w t rest v find_family_mapping INV R EV). intros. eapply find_mapping_ok; eassumption.
  - destruct (forallb (exists_var w) members) eqn:EV; [|discriminate]. injection HM as <-. eapply run_new_clique; eassumption.
  - destruct (clique_of w a) as [(ma & na)|] eqn:CA; [|discriminate]. destruct (clique_of w b) as [(mb & nb)|] eqn:CB; [|discriminate].
    destruct (Nat.eqb_spec a b) as [D|D]; [discriminate|]. cbn [negb andb] in HM.
    destruct (forallb (exists_var w) ma) eqn:VA; [|discriminate]. destruct (forallb (exists_var w) mb) eqn:VB; [|discriminate].
    injection HM as <-. eapply run_connect; eassumption.
  - destruct (clique_of w a) as [c|] eqn:CA; [|discriminate]. injection HM as <-. eapply run_free_clique; eassumption.
  - destruct (exists_var w v) eqn:EV; [|discriminate]. injection HM as <-. eapply run_free_variable; eassumption.
Qed.

Lemma run_calls_ok : forall cs m vs cl w w' t rest, inv m vs cl (w_vars w) t rest -> rep w cl t -> meanings w cs = Some w' ->
  goal w' (run_calls (m, vs, cl) cs) rest.
Proof.
  induction cs as [|c cs IH]; intros m vs cl w w' t rest INV R HM; cbn [meanings run_calls] in *.
  - injection HM as <-. exists m, vs, cl, t. auto.
  - destruct (meaning w c) as [w1|] eqn:E; [|discriminate].
    destruct (run_call_ok m vs cl w w1 t rest c INV R E) as (m1 & vs1 & cl1 & t1 & E1 & INV1 & R1). rewrite E1. cbn [bind].
    eapply IH; eassumption.
Qed.

Lemma start_ok : inv [] [] [] (w_vars nothing) (mkTree [] [] [] [] []) [] /\ rep nothing [] (mkTree [] [] [] [] []).
Proof.
  split.
  - split; [split; [reflexivity|split; [reflexivity|intros i Hi; cbn in Hi; lia]]|]. split; [|split; [constructor|exact heap_empty]].
    split; [reflexivity|split; [reflexivity|split; [reflexivity|intros i Hi; cbn in Hi; lia]]].
  - split; [reflexivity|]. intros k. unfold clique_of. cbn. destruct k; reflexivity.
Qed.

Lemma program_ok : forall cs w, meanings nothing cs = Some w -> goal w (run_calls start cs) [].
Proof. intros cs w H. destruct start_ok as (A & B). exact (run_calls_ok cs [] [] [] nothing w _ [] A B H). Qed.

(** ** What the invariant says *)
Lemma seg_chain : forall m f x bk, heap_is m f -> incl (seg bk x None) f -> chain m bk (hd_or x None) (map snd x).
Proof.
  intros m f x. induction x as [|(l, s) x IH]; intros bk H I; [constructor|]. cbn [hd_or map snd].
  apply (chain_link m bk l s (hd_or x None)).
  - apply (heap_in m f); [exact H|]. apply I. left. reflexivity.
  - apply IH; [exact H|]. intros y Hy. apply I. right. exact Hy.
Qed.

Lemma inv_neighbours : forall m vs cl live t rest k mem, inv m vs cl live t rest -> nth k (t_members t) None = Some mem ->
  has_neighbours m (nth k cl 0) (map (fun b => nth b cl 0) (neighbours k (t_edges t))).
Proof.
  intros m vs cl live t rest k mem INV HM. assert (LK := inv_member_lt _ _ _ _ _ _ _ _ INV HM).
  destruct INV as (_ & (K1 & K2 & K3 & HC) & HE & H). assert (X := HC k LK). rewrite HM in X. destruct X as (_ & C & EL).
  assert (IC : incl (nth k (t_cliques t) []) (blocks_of t ++ rest)).
  { intros x Hx. apply in_or_app. left. apply in_or_app. right. apply in_or_app. left. apply in_concat. exists (nth k (t_cliques t) []).
    split; [apply nth_In; lia|exact Hx]. }
  destruct C as (p & o & va & gp & go & E & _). rewrite E in IC.
  exists (clq_block p o va (hd_or (nth k (t_links t) []) None)), (hd_or (nth k (t_links t) []) None), (map snd (nth k (t_links t) [])).
  split; [apply (heap_in m _ _ _ H); apply IC; left; reflexivity|]. split; [reflexivity|]. split.
  - apply (seg_chain m _ _ None H). intros x Hx. apply IC. right. right. apply in_or_app. right. apply in_or_app. right. exact Hx.
  - rewrite EL. unfold neighbours, at_. rewrite map_map.
    assert (IE : forall e, In e (filter (touches k) (t_edges t)) -> between m (e_ptr e) (nth k cl 0) (nth (other k e) cl 0)).
    { intros e He. apply filter_In in He. destruct He as (I & T). destruct (proj1 (Forall_forall _ _) HE e I) as (AB & _ & _ & SP).
      destruct SP as (old & new & vars & d & gp' & gn & gv & ES & _). exists (P (Some old)), (P (Some new)), (P vars), (nth (e_a e) cl 0), (nth (e_b e) cl 0).
      split.
      - apply (heap_in m _ _ _ H). apply in_or_app. left. apply in_or_app. right. apply in_or_app. right. apply in_flat_map. exists e.
        split; [exact I|]. rewrite ES. left. reflexivity.
      - unfold other. unfold touches in T. destruct (Nat.eqb_spec (e_a e) k) as [D|D]; [left; subst; auto|].
        destruct (Nat.eqb_spec (e_b e) k) as [D'|D']; [right; subst; auto|discriminate]. }
    revert IE. generalize (filter (touches k) (t_edges t)) as l. induction l as [|e l IH]; intros IE; [constructor|]. cbn [map]. constructor.
    + apply IE. left. reflexivity.
    + apply IH. intros e' He'. apply IE. right. exact He'.
Qed.

Lemma inv_empty : forall m vs cl live t rest, inv m vs cl live t rest -> (forall v, nth v live false = false) ->
  (forall k, nth k (t_members t) None = None) -> heap_is m rest.
Proof.
  intros m vs cl live t rest ((L1 & L2 & HV) & (K1 & K2 & K3 & HC) & HE & H) NV NC. unfold blocks_of in H.
  assert (Z1 : concat (t_vars t) = []).
  { apply concat_nil. intros k. destruct (Nat.lt_ge_cases k (length vs)) as [L|L]; [|apply nth_overflow; lia].
    assert (X := HV k L). rewrite NV in X. exact X. }
  assert (Z2 : concat (t_cliques t) = []).
  { apply concat_nil. intros k. destruct (Nat.lt_ge_cases k (length cl)) as [L|L]; [|apply nth_overflow; lia].
    assert (X := HC k L). rewrite NC in X. exact X. }
  assert (Z3 : t_edges t = []).
  { destruct (t_edges t) as [|e es]; [reflexivity|]. inversion HE as [|? ? (_ & (x & MA) & _) _]; subst. rewrite NC in MA. discriminate. }
  rewrite Z1, Z2, Z3 in H. exact H.
Qed.

Lemma C82_lemma : forall cs w, meanings nothing cs = Some w ->
  exists m vs cl, run_calls start cs = Ok (m, vs, cl) /\ length vs = length (w_vars w) /\ length cl = length (w_cliques w) /\
    (forall a mem nb, clique_of w a = Some (mem, nb) -> has_neighbours m (nth a cl 0) (map (fun b => nth b cl 0) nb)) /\
    ((forall v, exists_var w v = false) -> (forall a, clique_of w a = None) -> all_free m).
Proof.
  intros cs w H. destruct (program_ok cs w H) as (m & vs & cl & t & E & INV & R). exists m, vs, cl. split; [exact E|].
  split; [symmetry; exact (proj1 (proj1 INV))|]. split; [symmetry; exact (proj1 R)|]. split.
  - intros a mem nb CA. destruct (rep_some w cl t a mem nb R CA) as (MA & ->). eapply inv_neighbours; eassumption.
  - intros NV NC. apply heap_none. apply (inv_empty m vs cl (w_vars w) t [] INV NV). intros k. destruct R as (_ & R2). assert (X := NC k). rewrite R2 in X.
    destruct (nth k (t_members t) None); [discriminate|reflexivity].
Qed.
