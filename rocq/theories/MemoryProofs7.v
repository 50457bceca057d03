(** * Proofs about memory: freeing cliques *)
From Coq Require Import Permutation.
From Verif Require Import Base BaseProofs HeapProofs MemoryModel MemorySpec MemoryProofs MemoryProofs2 MemoryProofs3 MemoryProofs4 MemoryProofs5 MemoryProofs6.
Import ListNotations.
Open Scope nat_scope.
Local Open Scope res_scope.

Lemma at_drop : forall k e es, In e es -> NoDup (map e_ptr es) -> touches k e = false -> at_ k (drop_edge (e_ptr e) es) = at_ k es.
Proof.
  intros k e es I ND T. destruct (split_edge es e I ND) as (es1 & es2 & E & ED & _ & _). rewrite ED, E. unfold at_.
  rewrite !filter_app. cbn [filter]. rewrite T. reflexivity.
Qed.
Lemma flat_drop : forall e es, In e es -> NoDup (map e_ptr es) -> Permutation (flat_map e_fp es) (e_fp e ++ flat_map e_fp (drop_edge (e_ptr e) es)).
Proof.
  intros e es I ND. destruct (split_edge es e I ND) as (es1 & es2 & E & ED & _ & _). rewrite ED, E. rewrite !flat_map_app. cbn [flat_map].
  rewrite !app_assoc. apply Permutation_app_tail. apply Permutation_app_comm.
Qed.
Lemma two_cliques : forall (G : list fp) a b, a < length G -> b < length G -> a <> b ->
  Permutation (concat G) (nth a G [] ++ nth b G [] ++ concat (set_nth (set_nth G a []) b [])).
Proof.
  intros G a b LA LB D. eapply perm_trans; [apply (concat_pull G a LA)|]. apply Permutation_app_head.
  eapply perm_trans; [apply (concat_pull _ b); rewrite set_nth_length; exact LB|]. rewrite nth_set by exact LA.
  destruct (Nat.eqb_spec b a); [congruence|]. apply Permutation_refl.
Qed.
Lemma set_swap : forall A (l : list A) i j x y, i <> j -> set_nth (set_nth l i x) j y = set_nth (set_nth l j y) i x.
Proof. induction l as [|z l IH]; intros [|i] [|j] x y D; cbn; try reflexivity; try congruence. rewrite IH by congruence. reflexivity. Qed.
Lemma two_set : forall (G : list fp) a b ga gb, a < length G -> b < length G -> a <> b ->
  Permutation (ga ++ gb ++ concat (set_nth (set_nth G a []) b [])) (concat (set_nth (set_nth G a ga) b gb)).
Proof.
  intros G a b ga gb LA LB D. apply Permutation_sym. eapply perm_trans; [apply (two_cliques _ a b); rewrite ?set_nth_length; assumption|].
  rewrite !nth_set by (rewrite ?set_nth_length; assumption). rewrite Nat.eqb_refl. destruct (Nat.eqb_spec a b); [congruence|]. rewrite Nat.eqb_refl.
  rewrite (set_swap _ (set_nth G a ga) b a) by congruence. rewrite !set_set. apply Permutation_refl.
Qed.

(** One round of the loop in nip_free_clique. *)
Lemma drop_ok : forall m vs cl live t rest e, inv m vs cl live t rest -> In e (t_edges t) ->
  exists ca cb m1 m2 m' t', ptr m (Some (e_ptr e)) X_first = Ok (Some ca) /\ remove_sepset m (Some ca) (Some (e_ptr e)) = Ok m1 /\
    ptr m1 (Some (e_ptr e)) X_second = Ok (Some cb) /\ remove_sepset m1 (Some cb) (Some (e_ptr e)) = Ok m2 /\
    free_sepset m2 (Some (e_ptr e)) = Ok m' /\ inv m' vs cl live t' rest /\
    t_vars t' = t_vars t /\ t_members t' = t_members t /\ t_edges t' = drop_edge (e_ptr e) (t_edges t) /\
    forall k l r es, nth k (t_links t) [] = (l, e_ptr e) :: r -> at_ k (t_edges t) = e :: es -> nth k (t_links t') [] = r.
Proof.
  intros m vs cl live t rest e INV I. assert (ND := inv_distinct _ _ _ _ _ _ INV).
  destruct INV as (HV & (L1 & L2 & L3 & HC) & HE & H).
  assert (EO := proj1 (Forall_forall _ _) HE e I). destruct EO as (AB & (ma & MA) & (mb & MB) & SP).
  assert (LA : e_a e < length cl) by (rewrite <- L2; eapply nth_some; exact MA).
  assert (LB : e_b e < length cl) by (rewrite <- L2; eapply nth_some; exact MB).
  assert (CA := HC _ LA). rewrite MA in CA. destruct CA as (FA & CA & KA).
  assert (CB := HC _ LB). rewrite MB in CB. destruct CB as (FB & CB & KB).
  set (a := e_a e) in *. set (b := e_b e) in *. set (s := e_ptr e) in *.
  set (R := concat (set_nth (set_nth (t_cliques t) a []) b [])).
  assert (TA : touches a e = true) by (unfold touches; subst a; rewrite Nat.eqb_refl; reflexivity).
  assert (TB : touches b e = true) by (unfold touches; subst b; rewrite Nat.eqb_refl; apply Bool.orb_true_r).
  assert (H0 : heap_is m (e_fp e ++ nth a (t_cliques t) [] ++ nth b (t_cliques t) [] ++ R ++ concat (t_vars t) ++ flat_map e_fp (drop_edge s (t_edges t)) ++ rest)).
  { eapply heap_perm; [|exact H]. unfold blocks_of. eapply perm_trans.
    - apply Permutation_app_tail. apply Permutation_app_head. apply Permutation_app; [apply (two_cliques _ a b); lia|apply (flat_drop e _ I ND)].
    - fold R s. rewrite <- !app_assoc. perm. }
  clear H. rename H0 into H.
  assert (SP' := SP). destruct SP' as (old & new & vars & d & gp & gn & gv & ES & _).
  assert (F1 : ptr m (Some s) X_first = Ok (Some (nth a cl 0))).
  { eapply ptr_ok; [exact H|apply in_or_app; left; rewrite ES; left; reflexivity|reflexivity]. }
  apply (heap_perm m _ (nth a (t_cliques t) [] ++ e_fp e ++ nth b (t_cliques t) [] ++ R ++ concat (t_vars t) ++ flat_map e_fp (drop_edge s (t_edges t)) ++ rest)) in H.
  2:{ rewrite !app_assoc. do 5 apply Permutation_app_tail. apply Permutation_app_comm. }
  destruct (unlink m _ _ _ _ _ (t_edges t) e a CA KA I TA ND H) as (m1 & la & ga & E1 & CA' & KA' & H1 & PA).
  fold s in E1, KA', PA.
  assert (F2 : ptr m1 (Some s) X_second = Ok (Some (nth b cl 0))).
  { eapply ptr_ok; [exact H1|apply in_or_app; right; apply in_or_app; left; rewrite ES; left; reflexivity|reflexivity]. }
  apply (heap_perm m1 _ (nth b (t_cliques t) [] ++ e_fp e ++ ga ++ R ++ concat (t_vars t) ++ flat_map e_fp (drop_edge s (t_edges t)) ++ rest)) in H1.
  2:{ perm. }
  destruct (unlink m1 _ _ _ _ _ (t_edges t) e b CB KB I TB ND H1) as (m2 & lb & gb & E2 & CB' & KB' & H2 & PB).
  fold s in E2, KB', PB.
  apply (heap_perm m2 _ (e_fp e ++ ga ++ gb ++ R ++ concat (t_vars t) ++ flat_map e_fp (drop_edge s (t_edges t)) ++ rest)) in H2.
  2:{ perm. }
  destruct (free_sepset_ok m2 _ _ _ _ _ SP H2) as (m' & E3 & H3). fold s in E3.
  exists (nth a cl 0), (nth b cl 0), m1, m2, m',
    (mkTree (t_vars t) (set_nth (set_nth (t_cliques t) a ga) b gb) (t_members t) (set_nth (set_nth (t_links t) a la) b lb) (drop_edge s (t_edges t))).
  split; [exact F1|]. split; [exact E1|]. split; [exact F2|]. split; [exact E2|]. split; [exact E3|]. cbn [t_vars t_members t_edges t_links t_cliques].
  split; [|split; [reflexivity|split; [reflexivity|split; [reflexivity|]]]].
  - split; [exact HV|]. split; [|split].
    + unfold cliques_ok. cbn [t_vars t_members t_edges t_links t_cliques]. rewrite !set_nth_length. split; [exact L1|]. split; [exact L2|]. split; [exact L3|].
      intros k Lk. rewrite !nth_set by (rewrite ?set_nth_length; lia).
      destruct (Nat.eqb_spec k b) as [Db|Db]; [subst k; rewrite MB; auto|].
      destruct (Nat.eqb_spec k a) as [Da|Da]; [subst k; rewrite MA; auto|].
      assert (X := HC k Lk). destruct (nth k (t_members t) None) as [mem|]; [|exact X]. destruct X as (X1 & X2 & X3). split; [exact X1|]. split; [exact X2|].
      rewrite X3. f_equal. symmetry. apply at_drop; [exact I|exact ND|]. unfold touches. fold a b.
      destruct (Nat.eqb_spec a k); [congruence|]. destruct (Nat.eqb_spec b k); [congruence|]. reflexivity.
    + apply Forall_forall. intros x Hx. unfold drop_edge in Hx. apply filter_In in Hx. apply (proj1 (Forall_forall _ _) HE). tauto.
    + eapply heap_perm; [|exact H3]. unfold blocks_of. cbn [t_vars t_members t_edges t_links t_cliques].
      apply (@perm_trans _ _ ((ga ++ gb ++ R) ++ concat (t_vars t) ++ flat_map e_fp (drop_edge s (t_edges t)) ++ rest)); [rewrite <- !app_assoc; apply Permutation_refl|].
      eapply perm_trans; [apply Permutation_app_tail; apply two_set; try lia; exact AB|]. perm.
  - intros k l r es EL EA. rewrite !nth_set by (rewrite ?set_nth_length; lia). unfold at_ in EA.
    assert (TK : touches k e = true).
    { assert (X : In e (filter (touches k) (t_edges t))) by (rewrite EA; left; reflexivity). apply filter_In in X. tauto. }
    destruct (Nat.eqb_spec k b) as [Db|Db]; [subst k; exact (PB l es r EL EA)|].
    destruct (Nat.eqb_spec k a) as [Da|Da]; [subst k; exact (PA l es r EL EA)|].
    unfold touches in TK. fold a b in TK. destruct (Nat.eqb_spec a k); [congruence|]. destruct (Nat.eqb_spec b k); [congruence|]. discriminate.
Qed.

Definition apart (k : nat) (es : list edge) : list edge := filter (fun e => negb (touches k e)) es.
Lemma apart_drop : forall k e es, In e es -> NoDup (map e_ptr es) -> touches k e = true -> apart k (drop_edge (e_ptr e) es) = apart k es.
Proof.
  intros k e es I ND T. destruct (split_edge es e I ND) as (es1 & es2 & E & ED & _ & _). rewrite ED, E. unfold apart.
  rewrite !filter_app. cbn [filter]. rewrite T. reflexivity.
Qed.

(** The loop in nip_free_clique. *)
Lemma free_sepsets_ok : forall n fuel m vs cl live t rest k mem, inv m vs cl live t rest -> nth k (t_members t) None = Some mem ->
  length (nth k (t_links t) []) = n -> n < fuel ->
  exists m' t', free_sepsets fuel m (hd_or (nth k (t_links t) []) None) = Ok m' /\ inv m' vs cl live t' rest /\
    t_vars t' = t_vars t /\ t_members t' = t_members t /\ t_edges t' = apart k (t_edges t) /\ nth k (t_links t') [] = [].
Proof.
  induction n as [|n IH]; intros fuel m vs cl live t rest k mem INV HM HN HF; (destruct fuel as [|fuel]; [lia|]).
  - destruct (nth k (t_links t) []) as [|x r] eqn:EL; [|discriminate]. exists m, t. split; [reflexivity|]. split; [exact INV|].
    split; [reflexivity|]. split; [reflexivity|]. split; [|exact EL].
    destruct INV as (_ & (L1 & L2 & L3 & HC) & _ & _). assert (LK : k < length cl) by (rewrite <- L2; eapply nth_some; exact HM).
    assert (X := HC k LK). rewrite HM, EL in X. destruct X as (_ & _ & X). cbn in X. symmetry in X. apply map_eq_nil in X.
    unfold apart. unfold at_ in X. revert X. generalize (t_edges t) as es. induction es as [|e es IHe]; intros X; [reflexivity|].
    cbn in X |- *. destruct (touches k e); [discriminate|]. cbn. rewrite <- IHe by exact X. reflexivity.
  - destruct (nth k (t_links t) []) as [|(l, s) r] eqn:EL; [discriminate|]. cbn in HN.
    assert (INV' := INV). destruct INV as (_ & (L1 & L2 & L3 & HC) & _ & H). assert (LK : k < length cl) by (rewrite <- L2; eapply nth_some; exact HM).
    assert (X := HC k LK). rewrite HM, EL in X. destruct X as (_ & C & X).
    destruct (at_ k (t_edges t)) as [|e es] eqn:EA; [discriminate|]. cbn in X. injection X as XS XR. subst s.
    assert (I : In e (t_edges t) /\ touches k e = true) by (apply filter_In; unfold at_ in EA; rewrite EA; left; reflexivity).
    destruct I as (I & T).
    assert (IB : In (l, [P (Some (e_ptr e)); P (hd_or r None); P None]) (blocks_of t ++ rest)).
    { apply in_or_app. left. unfold blocks_of. apply in_or_app. right. apply in_or_app. left. apply in_concat. exists (nth k (t_cliques t) []).
      split; [apply nth_In; lia|]. destruct C as (p & o & vs0 & gp & go & E & _). rewrite E. right. right. apply in_or_app. right.
      apply in_or_app. right. left. reflexivity. }
    cbn [hd_or free_sepsets]. rewrite (ptr_ok m _ l _ L_fwd _ H IB eq_refl). cbn [bind]. rewrite (ptr_ok m _ l _ L_data _ H IB eq_refl). cbn [bind].
    destruct (drop_ok m vs cl live t rest e INV' I) as (ca & cb & m1 & m2 & m' & t' & E1 & E2 & E3 & E4 & E5 & INV2 & QV & QM & QE & QL).
    rewrite E1. cbn [bind]. rewrite E2. cbn [bind]. rewrite E3. cbn [bind]. rewrite E4. cbn [bind]. rewrite E5. cbn [bind].
    assert (R := QL k l r es EL EA). rewrite <- R.
    destruct (IH fuel m' vs cl live t' rest k mem INV2) as (m'' & t'' & E6 & INV3 & QV3 & QM3 & QE3 & QL3).
    + rewrite QM. exact HM.
    + rewrite R. lia.
    + lia.
    + exists m'', t''. split; [exact E6|]. split; [exact INV3|]. split; [congruence|]. split; [congruence|]. split; [|exact QL3].
      rewrite QE3, QE. apply apart_drop; [exact I|exact (inv_distinct _ _ _ _ _ _ INV')|exact T].
Qed.

Lemma free_clique_ok : forall m vs cl live t rest k mem, inv m vs cl live t rest -> nth k (t_members t) None = Some mem ->
  exists m' t', free_clique m (Some (nth k cl 0)) = Ok m' /\ inv m' vs cl live t' rest /\
    t_vars t' = t_vars t /\ t_members t' = set_nth (t_members t) k None /\ t_edges t' = apart k (t_edges t).
Proof.
  intros m vs cl live t rest k mem INV HM. assert (INV' := INV). destruct INV as (_ & (L1 & L2 & L3 & HC) & _ & H).
  assert (LK : k < length cl) by (rewrite <- L2; eapply nth_some; exact HM).
  assert (X := HC k LK). rewrite HM in X. destruct X as (_ & C & X).
  assert (LL : length (nth k (t_links t) []) < S (length m)).
  { assert (HL := heap_length m _ H). destruct C as (p & o & vs0 & gp & go & E & _).
    assert (Z : length (nth k (t_cliques t) []) <= length (blocks_of t ++ rest)).
    { unfold blocks_of. rewrite !app_length. assert (PP := Permutation_length (concat_pull (t_cliques t) k ltac:(lia))). rewrite app_length in PP. lia. }
    rewrite E in Z. cbn [length] in Z. rewrite app_length in HL. rewrite !app_length, seg_length in Z. lia. }
  unfold free_clique.
  assert (PH : ptr m (Some (nth k cl 0)) C_sepsets = Ok (hd_or (nth k (t_links t) []) None)).
  { destruct C as (p & o & vs0 & gp & go & E & _). apply (ptr_ok m _ _ (clq_block p o vs0 (hd_or (nth k (t_links t) []) None)) _ _ H); [|reflexivity].
    apply in_or_app. left. unfold blocks_of. apply in_or_app. right. apply in_or_app. left. apply in_concat. exists (nth k (t_cliques t) []).
    split; [apply nth_In; lia|]. rewrite E. left. reflexivity. }
  rewrite PH. cbn [bind].
  destruct (free_sepsets_ok _ (S (length m)) m vs cl live t rest k mem INV' HM eq_refl LL) as (m1 & t1 & E1 & INV1 & QV & QM & QE & QL).
  rewrite E1. cbn [bind]. destruct INV1 as (HV1 & (L1' & L2' & L3' & HC1) & HE1 & H1).
  assert (Y := HC1 k LK). rewrite QM, HM, QL in Y. destruct Y as (F1 & C1 & _).
  apply (heap_perm m1 _ (nth k (t_cliques t1) [] ++ (concat (t_vars t1) ++ concat (set_nth (t_cliques t1) k []) ++ flat_map e_fp (t_edges t1)) ++ rest)) in H1.
  2:{ unfold blocks_of. rewrite !app_assoc. do 2 apply Permutation_app_tail.
      eapply perm_trans; [apply Permutation_app_head; apply (concat_pull (t_cliques t1) k); lia|].
      rewrite app_assoc. apply Permutation_app_tail. apply Permutation_app_comm. }
  destruct (free_empty_clique m1 _ _ _ _ C1 H1) as (m2 & E2 & H2).
  exists m2, (mkTree (t_vars t1) (set_nth (t_cliques t1) k []) (set_nth (t_members t1) k None) (t_links t1) (t_edges t1)).
  split; [exact E2|]. cbn [t_vars t_members t_edges t_links t_cliques]. split; [|split; [exact QV|split; [rewrite QM; reflexivity|exact QE]]].
  split; [exact HV1|]. split; [|split; [|exact H2]].
  - unfold cliques_ok. cbn [t_vars t_members t_edges t_links t_cliques]. rewrite !set_nth_length. split; [exact L1'|]. split; [exact L2'|]. split; [exact L3'|].
    intros j Lj. rewrite !nth_set by lia. destruct (Nat.eqb_spec j k) as [D|D]; [reflexivity|]. exact (HC1 j Lj).
  - apply Forall_forall. intros e He. assert (EO := proj1 (Forall_forall _ _) HE1 e He). rewrite QE in He. unfold apart in He. apply filter_In in He.
    destruct He as (_ & T). unfold touches in T. apply Bool.negb_true_iff in T. apply Bool.orb_false_iff in T. destruct T as (T1 & T2).
    destruct EO as (AB & MA & MB & SP). split; [exact AB|]. cbn [t_members]. rewrite !nth_set by lia. rewrite T1, T2. split; [exact MA|]. split; [exact MB|exact SP].
Qed.
