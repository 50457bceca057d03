(** * Proofs about the installation of the parsed tables *)
From Coq Require Import Permutation Sorted String Field.
From Verif Require Import Base BaseProofs PotentialModel PotentialSpec PotentialProofs
  PotentialProofs2 PotentialProofs3 PotentialProofs4 VariableModel VariableProofs JoinTreeModel
  AssignSpec AssignProofs JoinTreeSpec JoinTreeProofs JoinTreeProofs2 JoinTreeProofs3
  JoinTreeProofs4 JoinTreeProofs5 JoinTreeProofs6 JoinTreeProofs7 NipModel NipSpec NipProofs
  NipProofs2 NipProofs3 NipProofs4 GatherProofs SliceModel SliceSpec SliceProofs4 LearnModel LearnSpec LearnProofs LearnProofs2
  LearnProofs3 GraphModel GraphSpec GraphTheory ReorderProofs HeapProofs ParseModel ParseSpec ParseProofs ParseProofs2 ParseProofs3
  ParseProofs4.
Import ListNotations.
Open Scope nat_scope.
Local Open Scope res_scope.
Local Notation len := List.length.

Add Field Qcfield_parse5 : Qcft.

Lemma Qc_div_pos : forall x y : Qc, (0 < x)%Qc -> (0 < y)%Qc -> (0 < x / y)%Qc.
Proof.
  intros x y Hx Hy. unfold Qcdiv. 
  assert (N : y <> 0%Qc) by (intros ->; now apply Qclt_not_eq in Hy).
  assert (I : (0 <= / y)%Qc) by (apply Qc_inv_nonneg; now apply Qclt_le_weak).
  assert (P : (0 <= x * / y)%Qc) by (apply Qc_mul_nonneg; auto; now apply Qclt_le_weak).
  apply Qcle_lt_or_eq in P. destruct P as [P|P]; auto. exfalso.
  assert (X : x = (x * / y * y)%Qc) by (field; auto). rewrite <- P in X. rewrite X in Hx. ring_simplify (0 * y)%Qc in Hx.
  now apply Qclt_not_eq in Hx.
Qed.

(** ** Stored priors *)
Lemma store_prior_ok : forall card m v p, model_ok card m -> v < len (m_vars m) -> table card [v] p ->
  store_prior m v (data p) = Ok (putv m v (set_prior (var m v) (Some (data p)))).
Proof.
  intros card m v p HM Hv (_ & (_ & L & _) & D). unfold store_prior. rewrite rd_var by auto. cbn [bind].
  destruct (mo_var _ _ HM v Hv) as (-> & _). rewrite D in L. cbn in L. rewrite Nat.mul_1_r in L.
  match goal with |- context [for_up 0 ?k ?b0 ?s0] =>
    destruct (for_up_inv (list Qc) (fun t l => len l = card v /\ forall j, j < t -> nth j l 0%Qc = nth j (data p) 0%Qc) b0 0 k s0)
      as (l & E & Ll & Q) end.
  - lia.
  - rewrite repeat_length. split; auto. intros; lia.
  - intros i l Hi (Ll & Q). rewrite (rd_ok _ (data p) i 0%Qc) by lia. cbn [bind]. rewrite wr_ok by lia.
    eexists. split; [reflexivity|]. rewrite set_nth_length. split; auto. intros j Hj. rewrite nth_set_nth by lia.
    destruct (Nat.eqb_spec j i) as [->|]; auto. apply Q. lia.
  - rewrite E. cbn [bind]. replace l with (data p).
    + now apply put_var_ok.
    + apply (list_ext_nth _ 0%Qc); [lia|]. intros j Hj. symmetry. apply Q. lia.
Qed.
Lemma data_den : forall card v p a, table card [v] p -> at_state (data p) v a = den [v] p a.
Proof.
  intros card v p a (_ & _ & D). unfold at_state, den, cell. rewrite D. cbn. f_equal. lia.
Qed.

Section Install.
Variable t : net.
Hypothesis NO : net_ok t.
Local Notation card := (card_in t).

Definition rooted (d : pot_decl) : bool := match parents_of t d with [] => true | _ => false end.

Lemma rooted_bar : forall d, decl_ok t d -> (parents_of t d = [] <-> pd_parents d = None).
Proof.
  intros d (_ & _ & B & _). unfold parents_of, given_symbols. destruct (pd_parents d) as [l|].
  - split; [|discriminate]. intros H. exfalso. apply B. apply map_eq_nil in H.
    rewrite <- (rev_involutive l), H. reflexivity.
  - tauto.
Qed.

(** Some state of a parentless variable has a positive prior. *)
Lemma root_positive : forall d, In d (n_potentials t) -> parents_of t d = [] ->
  exists a, valid card a /\ (0 < factor_of t d a)%Qc.
Proof.
  intros d Hd HP. assert (OK := no_decl t NO d Hd). assert (POS := card_in_pos t NO).
  assert (BN := proj1 (rooted_bar d OK) HP). unfold factor_of. rewrite BN.
  destruct (pd_data d) as [l|] eqn:ED.
  - destruct (no_priors t NO d Hd BN) as (x & Hx & Px).
    destruct (table_of_table t NO d OK) as (TT & TN).
    apply (In_nth _ _ 0%Qc) in Hx. destruct Hx as (j & Hj & Ej).
    destruct TT as (ND & W & D). assert (L := proj1 (proj2 W)).
    destruct (ix_assignment card (family_of t d) (unflat (dims (table_of t d)) j) (fun _ => 0)) as (a & Va & Ea & _); auto.
    { rewrite <- D. apply unflat_valid. apply W. }
    exists a. split; auto. unfold scaled.
    assert (EX : den (family_of t d) (table_of t d) a = x).
    { unfold den, cell. rewrite Ea. rewrite flat_unflat; [|apply W|lia]. exact Ej. }
    rewrite EX. apply Qc_div_pos; auto.
    assert (FD : first_declared (family_of t d) = child_of t d) by (unfold family_of; rewrite HP; reflexivity).
    rewrite FD. assert (NN : forall b, valid card b -> (0 <= den (family_of t d) (table_of t d) b)%Qc).
    { intros b Hb. eapply den_nonneg; eauto. split; auto. }
    assert (GE : (0 <= sumv card [child_of t d] (den (family_of t d) (table_of t d)) a)%Qc) by (apply sumv_nonneg; auto).
    apply Qcle_lt_or_eq in GE. destruct GE as [GE|GE]; auto. exfalso.
    symmetry in GE. apply sumv_zero_inv in GE; auto.
    + rewrite EX in GE. rewrite GE in Px. now apply Qclt_not_eq in Px.
    + apply (dep_ext (family_of t d)), den_dep.
  - exists (fun _ => 0). split; [intros v; apply POS|]. reflexivity.
Qed.

Lemma potentials_to_jtree_ok : forall ds ps, Forall2 (pot_means t) ds ps ->
  incl ds (n_potentials t) -> NoDup (map (child_of t) ds) ->
  forall m, model_ok card m -> m_indep m = [] ->
  (forall i, i < len (cls (m_jt m)) -> StronglySorted lt (c_vars (clq (m_jt m) i))) ->
  (forall d, In d ds -> child_of t d < len (m_vars m) /\ v_parents (var m (child_of t d)) = parents_of t d) ->
  exists m', potentials_to_jtree m ps = Ok (Some m') /\ model_ok card m' /\ same_structure m m' /\
    (forall a, valid card a ->
       joint (m_jt m') a = (joint (m_jt m) a * qprod (map (fun d => factor_of t d a) (filter (fun d => negb (rooted d)) ds)))%Qc /\
       original m' a = (original m a * qprod (map (fun d => factor_of t d a) (filter (fun d => negb (rooted d)) ds)))%Qc) /\
    (forall k a, k < len (cls (m_jt m)) -> valid card a ->
       den (c_vars (clq (m_jt m') k)) (c_orig (clq (m_jt m') k)) a =
       (den (c_vars (clq (m_jt m) k)) (c_orig (clq (m_jt m) k)) a *
        qprod (map (fun d => factor_of t d a)
          (filter (fun d => negb (rooted d) && Nat.eqb (home m (child_of t d)) k)%bool ds)))%Qc) /\
    (forall d, In d ds -> rooted d = true -> exists l, v_prior (var m' (child_of t d)) = Some l /\
        vector_ok card (child_of t d) l /\ forall a, valid card a -> at_state l (child_of t d) a = factor_of t d a) /\
    (forall v, (forall d, In d ds -> rooted d = true -> child_of t d <> v) -> v_prior (var m' v) = v_prior (var m v)) /\
    (forall v, v_lik (var m' v) = v_lik (var m v) /\ v_entered (var m' v) = v_entered (var m v)).
Proof.
  induction 1 as [|d p ds ps M F IH]; intros HI ND m HM IN0 SO HV; cbn [potentials_to_jtree].
  - exists m. split; auto. split; auto. split; [apply same_structure_refl|]. cbn. split; [intros; split; ring|].
    split; [intros; ring|]. split; [intros d []|]. auto.
  - destruct M as (M1 & M2 & vs & P & SS & T & NN & D).
    destruct (HV d (or_introl eq_refl)) as (Hc & HPa). rewrite M1. set (v := child_of t d) in *.
    assert (OK := no_decl t NO d (HI d (or_introl eq_refl))).
    destruct (find_family_ok card m v HM Hc) as (m1 & k & E1 & H1 & S1 & J1 & L1 & N1 & Hk & INC & _).
    rewrite E1. cbn [bind].
    assert (LV1 : len (m_vars m1) = len (m_vars m)) by apply S1.
    assert (VP1 : forall w, v_parents (var m1 w) = v_parents (var m w)) by (intros w; apply S1).
    assert (PR1 : forall w, v_prior (var m1 w) = v_prior (var m w)) by (intros w; apply S1).
    assert (IN1 : m_indep m1 = []) by (destruct S1 as (_ & _ & _ & -> & _); auto).
    assert (DIM : dimensionality (pp_data p) = S (len (parents_of t d))).
    { unfold dimensionality. destruct T as (_ & _ & ->). rewrite map_length, (Permutation_length P). reflexivity. }
    assert (ND' : NoDup (map (child_of t) ds)) by (inversion ND; auto).
    assert (NV : ~ In v (map (child_of t) ds)) by (inversion ND; auto).
    assert (HI' : incl ds (n_potentials t)) by (intros x Hx; apply HI; right; auto).
    rewrite DIM. destruct (parents_of t d) as [|q qs] eqn:EP; cbn [len Nat.ltb Nat.leb].
    + (* without parents *)
      assert (FE : family_of t d = [v]) by (unfold family_of; rewrite EP; reflexivity).
      assert (VE : vs = [v]). { rewrite FE in P. apply Permutation_sym, Permutation_length_1_inv in P. auto. } subst vs.
      rewrite (store_prior_ok card m1 v (pp_data p) H1) by (auto; lia). cbn [bind].
      set (m2 := putv m1 v (set_prior (var m1 v) (Some (data (pp_data p))))).
      assert (FR : forall w, var m2 w = if Nat.eqb w v then set_prior (var m1 v) (Some (data (pp_data p))) else var m1 w)
        by (intros w; apply var_putv; lia).
      assert (LV2 : len (m_vars m2) = len (m_vars m)) by (unfold m2; rewrite putv_len; auto).
      assert (H2 : model_ok card m2).
      { destruct H1 as [A1 A2 A3 A4 A5 A6 A7 A8]. split; auto; unfold m2; rewrite ?putv_len; auto.
        - intros w Hw. fold m2. rewrite FR. destruct (Nat.eqb_spec w v) as [->|]; [|now apply A7].
          destruct (A7 v Hw) as (X1 & X2 & X3 & X4 & X5). split; auto.
        - cbn [m_indep putv]. rewrite IN1. split; [constructor|intros w []]. }
      assert (ST : same_structure m m2).
      { eapply same_structure_trans; [apply same_structure_model, S1|]. split; auto. split; auto. split; [unfold m2; apply putv_len|].
        split; [|auto 10]. intros w. rewrite FR. destruct (Nat.eqb_spec w v) as [->|]; auto. }
      destruct (IH HI' ND' m2 H2) as (m' & E' & A1 & A2 & A3 & AF & A4 & A5 & A6); auto.
      { intros i Hi. unfold m2 in *. cbn [m_jt putv] in *. rewrite J1 in *. auto. }
      { intros x Hx. destruct (HV x (or_intror Hx)) as (X1 & X2). split; [lia|]. rewrite FR.
        destruct (Nat.eqb_spec (child_of t x) v) as [EQ|]; [|now rewrite VP1]. cbn. rewrite VP1. rewrite <- EQ. auto. }
      assert (RT : rooted d = true) by (unfold rooted; now rewrite EP).
      exists m'. split; auto. split; auto. split; [eapply same_structure_trans; eauto|]. cbn [filter]. rewrite RT. cbn [negb].
      split. { intros a Ha. destruct (A3 a Ha) as (B1 & B2). rewrite B1, B2. unfold m2. cbn [m_jt putv]. rewrite J1. split; auto.
               f_equal. change (original (putv m1 v (set_prior (var m1 v) (Some (data (pp_data p))))) a) with (original m1 a).
               now apply same_original. }
      split; [|split; [|split]].
      * intros j a Hj Ha. rewrite AF by (auto; unfold m2; cbn [m_jt putv]; rewrite J1; auto). cbn [filter negb andb].
        unfold m2. cbn [m_jt putv]. rewrite J1. f_equal. f_equal. f_equal. apply filter_ext. intros x.
        now rewrite (home_structure m m2 _ ST).
      * intros x [<-|Hx] Rx; [|now apply A4]. exists (data (pp_data p)).
        split. { fold v. rewrite A5. - rewrite FR, Nat.eqb_refl. reflexivity.
          - intros y Hy _ EQ. apply NV. rewrite <- EQ. now apply in_map. }
        split. { split; [|exact NN]. destruct T as (_ & (_ & L & _) & DD). rewrite DD in L. cbn in L. fold v. lia. }
        intros a Ha. fold v. rewrite (data_den card) by auto. now apply D.
      * intros w Hw. rewrite A5 by (intros x Hx; apply Hw; right; auto). rewrite FR.
        destruct (Nat.eqb_spec w v) as [->|]; auto. exfalso. apply (Hw d); auto. left; auto.
      * intros w. destruct (A6 w) as (-> & ->). rewrite FR. destruct (Nat.eqb_spec w v) as [->|]; cbn; auto.
    + (* with parents *)
      rewrite <- EP in *. 
      assert (FN : NoDup (v :: v_parents (var m1 v))). { rewrite VP1, HPa. apply (family_nodup t d OK). }
      destruct (init_clique_ok card m1 k v (pp_data p) vs) as (m2 & E2 & H2 & ST2 & MV & CV & JJ & KK); auto; try lia.
      { rewrite J1. auto. } { rewrite J1. auto. } { rewrite J1, VP1. auto. } { rewrite VP1, HPa. exact P. }
      rewrite E2. cbn [bind is_err].
      assert (ST : same_structure m m2) by (eapply same_structure_trans; [apply same_structure_model, S1|auto]).
      destruct (IH HI' ND' m2 H2) as (m' & E' & A1 & A2 & A3 & AF & A4 & A5 & A6); auto.
      { destruct ST2 as (_ & _ & _ & _ & -> & _). auto. }
      { intros i Hi. destruct ST as (X1 & -> & _). apply SO. lia. }
      { intros x Hx. destruct (HV x (or_intror Hx)) as (X1 & X2). rewrite MV. split; [lia|].
        unfold var. rewrite MV. fold (var m1 (child_of t x)). now rewrite VP1. }
      assert (RT : rooted d = false) by (unfold rooted; now rewrite EP).
      assert (VR : forall w, var m2 w = var m1 w) by (intros; unfold var; now rewrite MV).
      exists m'. split; auto. split; auto. split; [eapply same_structure_trans; eauto|]. cbn [filter]. rewrite RT. cbn [negb map qprod].
      split. { intros a Ha. destruct (A3 a Ha) as (B1 & B2). destruct (JJ a Ha) as (C1 & C2). rewrite B1, B2, C1, C2, J1, (same_original m m1 a S1).
               rewrite (D a Ha). split; ring. }
      split; [|split; [|split]].
      * intros j a Hj Ha. assert (LC : len (cls (m_jt m2)) = len (cls (m_jt m))) by apply ST.
        rewrite AF by (auto; lia). rewrite (KK j a Ha), J1. cbn [filter negb andb].
        assert (HH : home m v = k). { apply home_first. eapply (find_family_first card m v m1 k); eauto. } fold v. rewrite HH, (Nat.eqb_sym k j).
        rewrite (filter_ext (fun x => negb (rooted x) && Nat.eqb (home m2 (child_of t x)) j)%bool
                  (fun x => negb (rooted x) && Nat.eqb (home m (child_of t x)) j)%bool)
          by (intros x; now rewrite (home_structure m m2 _ ST)).
        destruct (Nat.eqb j k); cbn [map qprod]; [rewrite (D a Ha)|]; ring.
      * intros x [<-|Hx] Rx; [congruence|now apply A4].
      * intros w Hw. rewrite A5 by (intros x Hx; apply Hw; right; auto). rewrite VR. apply PR1.
      * intros w. destruct (A6 w) as (-> & ->). rewrite VR. auto.
Qed.
End Install.
