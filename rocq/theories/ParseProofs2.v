(** * Proofs about nip_init_clique and the normalisation of parsed tables *)
From Coq Require Import Permutation Sorted Field Relations.
From Verif Require Import Base BaseProofs PotentialModel PotentialSpec PotentialProofs
  PotentialProofs2 PotentialProofs3 PotentialProofs4 VariableModel VariableProofs JoinTreeModel
  AssignSpec AssignProofs JoinTreeSpec JoinTreeProofs JoinTreeProofs2 JoinTreeProofs3
  JoinTreeProofs4 JoinTreeProofs5 JoinTreeProofs6 JoinTreeProofs7 NipModel NipSpec NipProofs
  NipProofs2 NipProofs3 NipProofs4 GatherProofs GatherProofs2 SliceModel SliceSpec SliceProofs SliceProofs2 SliceProofs3
  SliceProofs4 SliceProofs5 LearnModel LearnSpec LearnProofs LearnProofs2 LearnProofs3 GraphTheory ReorderProofs HeapProofs.
Import ListNotations.
Open Scope nat_scope.
Local Open Scope res_scope.

Add Field Qcfield_parse2 : Qcft.

(** ** The mapping *)
Lemma inner_loop : forall var (ps mp : list nat) kk i, NoDup ps -> kk < length mp ->
  for_up 0 (length ps)
    (fun j '(mp, kk) =>
       let* pj := rd ps j in
       if equal_variables var pj then let* mp := wr mp kk i in Ok (mp, kk + 1) else Ok (mp, kk))
    (mp, kk) =
  Ok (if existsb (Nat.eqb var) ps then (set_nth mp kk i, kk + 1) else (mp, kk)).
Proof.
  intros var ps mp kk i ND Hk.
  match goal with |- context [for_up 0 (length ps) ?b0 ?s0] =>
    destruct (for_up_inv (list nat * nat)
      (fun t st => st = if existsb (Nat.eqb var) (firstn t ps) then (set_nth mp kk i, kk + 1) else (mp, kk))
      b0 0 (length ps) s0) as (st & E & ->) end.
  - lia.
  - reflexivity.
  - intros t st Ht ->. rewrite (firstn_S_nth _ ps t 0) by lia. rewrite existsb_app. cbn [existsb].
    rewrite (rd_ok _ ps t 0) by lia. unfold equal_variables.
    destruct (existsb (Nat.eqb var) (firstn t ps)) eqn:B; cbn [bind orb].
    + destruct (Nat.eqb_spec var (nth t ps 0)) as [EQ|N]; [|eexists; split; reflexivity].
      exfalso. apply existsb_exists in B. destruct B as (x & Hx & Ex). apply Nat.eqb_eq in Ex. subst x.
      apply (In_nth _ _ 0) in Hx. destruct Hx as (s & Hs & Es). rewrite firstn_length in Hs.
      rewrite nth_firstn in Es by lia. rewrite EQ in Es. apply (NoDup_nth ps 0) in Es; auto; lia.
    + rewrite orb_false_r. destruct (Nat.eqb var (nth t ps 0)); [|eexists; split; reflexivity].
      rewrite wr_ok by lia. cbn [bind]. eexists; split; reflexivity.
  - rewrite E. now rewrite firstn_all.
Qed.

Lemma filter_firstn_S : forall (f : nat -> bool) l i, i < length l ->
  filter f (firstn (S i) l) = filter f (firstn i l) ++ (if f (nth i l 0) then [nth i l 0] else []).
Proof.
  intros f l i Hi. rewrite (firstn_S_nth _ l i 0 Hi), filter_app. cbn [filter].
  destruct (f (nth i l 0)); reflexivity.
Qed.
Lemma sorted_filter : forall (f : nat -> bool) l, StronglySorted lt l -> StronglySorted lt (filter f l).
Proof.
  induction 1 as [|x l S IH F]; cbn; [constructor|]. destruct (f x); auto. constructor; auto.
  rewrite Forall_forall in *. intros y Hy. apply filter_In in Hy. now apply F.
Qed.
(** The members of a family inside a sorted clique are the sorted family. *)
Lemma sorted_members : forall C fam vs, StronglySorted lt C -> incl fam C -> Permutation vs fam ->
  StronglySorted lt vs -> filter (fun v => existsb (Nat.eqb v) fam) C = vs.
Proof.
  intros C fam vs SC HI P SV. apply sorted_unique; auto. { now apply sorted_filter. }
  intros x. rewrite filter_In, existsb_exists. split.
  - intros (_ & y & Hy & E). apply Nat.eqb_eq in E. subst y. eapply Permutation_in; [symmetry; exact P|auto].
  - intros Hx. assert (In x fam) by (eapply Permutation_in; eauto). split; auto. exists x. split; auto. apply Nat.eqb_refl.
Qed.

Section Init.
Variable card : nat -> nat.
Variable m : model.
Variables c child : nat.
Variable p : potential.
Variable vs : list nat.
Local Notation jt := (m_jt m).
Local Notation k := (clq (m_jt m) c).
Local Notation C := (c_vars (clq (m_jt m) c)).
Local Notation ps := (v_parents (var m child)).
Hypothesis HM : model_ok card m.
Hypothesis Hv : child < length (m_vars m).
Hypothesis Hc : c < length (cls jt).
Hypothesis SC : StronglySorted lt C.
Hypothesis NF : NoDup (child :: ps).
Hypothesis HI : incl (child :: ps) C.
Hypothesis PV : Permutation vs (child :: ps).
Hypothesis SV : StronglySorted lt vs.
Hypothesis TP : table card vs p.
Hypothesis NP : nonneg p.

Lemma dim_p : dimensionality p = S (length ps).
Proof.
  unfold dimensionality. destruct TP as (_ & _ & ->). rewrite map_length.
  now rewrite (Permutation_length PV).
Qed.
Lemma dim_c : dimensionality (c_p k) = length C.
Proof.
  destruct (mo_shape _ _ HM) as (_ & H & _). destruct (H c Hc) as ((_ & _ & D) & _).
  unfold dimensionality. now rewrite D, map_length.
Qed.

Let f := fun v => existsb (Nat.eqb v) (child :: ps).

Lemma mapping_ok : exists mp, 
  for_up 0 (length C)
    (fun i '(mp, kk) =>
       if Nat.eqb kk (dimensionality p) then Ok (mp, kk)
       else
         let* var := rd C i in
         let* (mp, kk) :=
           for_up 0 (dimensionality p - 1)
             (fun j '(mp, kk) =>
                let* pj := rd ps j in
                if equal_variables var pj
                then let* mp := wr mp kk i in Ok (mp, kk + 1)
                else Ok (mp, kk))
             (mp, kk) in
         if equal_variables var child
         then let* mp := wr mp kk i in Ok (mp, kk + 1)
         else Ok (mp, kk))
    (repeat 0 (dimensionality p), 0) = Ok (mp, dimensionality p) /\
  Forall (fun i => i < length C) mp /\ map (fun i => nth i C 0) mp = vs.
Proof.
  assert (FV : filter f C = vs) by (now apply sorted_members).
  assert (LV : length vs = dimensionality p) by (rewrite dim_p; now rewrite (Permutation_length PV)).
  match goal with |- context [for_up 0 (length C) ?b0 ?s0] =>
    destruct (for_up_inv (list nat * nat)
      (fun t '(mp, kk) => length mp = dimensionality p /\ kk = length (filter f (firstn t C)) /\
         (forall j, j < kk -> nth j mp 0 < length C) /\
         map (fun i => nth i C 0) (firstn kk mp) = filter f (firstn t C))
      b0 0 (length C) s0) as ([mp kk] & E & L & K & B & M) end.
  - lia.
  - rewrite repeat_length. cbn. split; auto. split; auto. split; auto. intros; lia.
  - intros i [mp kk] Hi (L & K & B & M).
    assert (LE : length (filter f (firstn (S i) C)) <= dimensionality p).
    { rewrite <- LV, <- FV. rewrite <- (firstn_skipn (S i) C) at 2. rewrite filter_app, app_length. lia. }
    assert (FS := filter_firstn_S f C i ltac:(lia)).
    destruct (Nat.eqb_spec kk (dimensionality p)) as [EQ|NE].
    + eexists; split; [reflexivity|]. cbv beta iota. rewrite FS in LE |- *. rewrite app_length in LE.
      destruct (f (nth i C 0)); cbn [length] in LE; [lia|]. rewrite app_nil_r. auto.
    + rewrite (rd_ok _ C i 0) by lia. cbn [bind].
      replace (dimensionality p - 1) with (length ps) by (rewrite dim_p; lia).
      assert (KL : kk < dimensionality p).
      { rewrite FS in LE. rewrite app_length in LE. lia. }
      rewrite inner_loop by (try lia; now inversion NF). cbn [bind].
      assert (FE : f (nth i C 0) = (Nat.eqb (nth i C 0) child || existsb (Nat.eqb (nth i C 0)) ps)%bool) by reflexivity.
      assert (GO : forall st, st = (if f (nth i C 0) then (set_nth mp kk i, kk + 1) else (mp, kk)) ->
        (let '(mp, kk) := st in length mp = dimensionality p /\ kk = length (filter f (firstn (S i) C)) /\
         (forall j, j < kk -> nth j mp 0 < length C) /\
         map (fun i => nth i C 0) (firstn kk mp) = filter f (firstn (S i) C))).
      { intros st ->. rewrite FS. destruct (f (nth i C 0)).
        - rewrite set_nth_length, app_length. cbn [length]. split; auto. split; [lia|]. split.
          + intros j Hj. rewrite nth_set_nth by lia. destruct (Nat.eqb_spec j kk); [lia|]. apply B. lia.
          + rewrite Nat.add_1_r. rewrite (firstn_S_nth _ _ kk 0) by (rewrite set_nth_length; lia).
            rewrite map_app. cbn [map]. rewrite nth_set_nth, Nat.eqb_refl by lia. f_equal.
            rewrite <- M. f_equal. apply (list_ext_nth _ 0).
            * rewrite !firstn_length, set_nth_length. lia.
            * intros j Hj. rewrite firstn_length, set_nth_length in Hj. rewrite !nth_firstn by lia.
              rewrite nth_set_nth by lia. destruct (Nat.eqb_spec j kk); [lia|auto].
        - rewrite app_nil_r. auto. }
      unfold equal_variables.
      destruct (existsb (Nat.eqb (nth i C 0)) ps) eqn:B1.
      * destruct (Nat.eqb_spec (nth i C 0) child) as [EQ|N2].
        { exfalso. apply existsb_exists in B1. destruct B1 as (x & Hx & Ex). apply Nat.eqb_eq in Ex. subst x.
          rewrite EQ in Hx. inversion NF; contradiction. }
        eexists; split; [reflexivity|]. apply (GO (_, _)). now rewrite FE.
      * destruct (Nat.eqb_spec (nth i C 0) child) as [EQ|N2].
        { rewrite wr_ok by lia. cbn [bind]. eexists; split; [reflexivity|]. apply (GO (_, _)). now rewrite FE. }
        eexists; split; [reflexivity|]. apply (GO (_, _)). now rewrite FE.
  - rewrite firstn_all in K, M. rewrite FV in K, M.
    assert (KK : kk = dimensionality p) by lia. subst kk. rewrite KK in *. exists mp. split; auto.
    rewrite firstn_all2 in M by lia. split; auto.
    apply Forall_forall. intros x Hx. apply (In_nth _ _ 0) in Hx. destruct Hx as (j & Hj & <-). apply B. lia.
Qed.

(** Multiplying the table of the family into a table of the clique. *)
Lemma init_ok : exists mapping, 
  (if Nat.ltb (dimensionality p) (dimensionality (c_p k)) then
      let* (mp, _) :=
        for_up 0 (dimensionality (c_p k))
          (fun i '(mp, kk) =>
             if Nat.eqb kk (dimensionality p) then Ok (mp, kk)
             else
               let* var := rd C i in
               let* (mp, kk) :=
                 for_up 0 (dimensionality p - 1)
                   (fun j '(mp, kk) =>
                      let* pj := rd ps j in
                      if equal_variables var pj
                      then let* mp := wr mp kk i in Ok (mp, kk + 1)
                      else Ok (mp, kk))
                   (mp, kk) in
               if equal_variables var child
               then let* mp := wr mp kk i in Ok (mp, kk + 1)
               else Ok (mp, kk))
          (repeat 0 (dimensionality p), 0) in
      Ok (Some mp)
    else Ok None) = Ok mapping /\
  forall q, table card C q -> nonneg q ->
    exists q', init_potential p q mapping = Ok (q', NO_ERROR) /\ table card C q' /\ nonneg q' /\
      forall a, valid card a -> den C q' a = (den C q a * den vs p a)%Qc.
Proof.
  assert (POS : forall v, 0 < card v) by apply (mo_shape _ _ HM).
  assert (FIN : forall q q', table card C q -> nonneg q -> dims q' = dims q -> wf q' ->
     (forall a, valid card a -> den C q' a = (den C q a * den vs p a)%Qc) ->
     table card C q' /\ nonneg q').
  { intros q q' T NN D W DD.
    assert (TT : table card C q') by (destruct T as (X & Y & Z); split; auto; split; auto; congruence).
    split; auto. apply nonneg_cells; auto. intros ix Hix. rewrite (proj2 (proj2 TT)) in Hix.
    destruct (ix_assignment card C ix (fun _ => 0)) as (a & Va & Ea & _); auto. { apply TT. }
    rewrite <- Ea. change (0 <= den C q' a)%Qc. rewrite DD by auto. apply Qc_mul_nonneg; eapply den_nonneg; eauto. }
  rewrite dim_c. destruct (Nat.ltb_spec (dimensionality p) (length C)) as [LT|GE].
  - destruct mapping_ok as (mp & E & F & M). rewrite E. cbn [bind]. exists (Some mp). split; auto.
    intros q T NN.
    assert (SEL := sel_family C mp vs F M).
    destruct (init_potential_ok p q mp) as (q' & Eq & D & W & Hq); auto.
    { apply T. } { apply TP. }
    { destruct T as (_ & _ & ->). destruct TP as (_ & _ & ->). split; [rewrite map_length; auto|apply SEL]. }
    { rewrite dim_p. lia. }
    assert (DD : forall a, valid card a -> den C q' a = (den C q a * den vs p a)%Qc).
    { intros a Ha. unfold den at 1. rewrite Hq by (destruct T as (_ & _ & ->); now apply valid_ix_map).
      now rewrite SEL. }
    destruct (FIN q q' T NN D W DD). exists q'. auto.
  - exists None. split; auto. intros q T NN.
    assert (EQ : vs = C).
    { assert (LV : length vs = dimensionality p) by (rewrite dim_p; now rewrite (Permutation_length PV)).
      apply sorted_unique; auto. intros x.
      assert (incl vs C). { intros y Hy. apply HI. eapply Permutation_in; eauto. }
      split; auto. apply NoDup_length_incl; auto. { now apply sorted_nodup. } { lia. } }
    destruct (C12_init_unmapped_lemma p q) as (U & _); [apply T|apply TP|].
    destruct U as (q' & Eq & D & W & Hq). { destruct T as (_ & _ & ->). destruct TP as (_ & _ & ->). now rewrite EQ. }
    assert (DD : forall a, valid card a -> den C q' a = (den C q a * den vs p a)%Qc).
    { intros a Ha. unfold den at 1. rewrite Hq by (destruct T as (_ & _ & ->); now apply valid_ix_map).
      now rewrite EQ. }
    destruct (FIN q q' T NN D W DD). exists q'. auto.
Qed.

Lemma init_clique_ok : exists m', init_clique m c child p false = Ok (m', NO_ERROR) /\
  model_ok card m' /\ same_structure m m' /\ m_vars m' = m_vars m /\
  (forall i, i < length (cls jt) -> c_vars (clq (m_jt m') i) = c_vars (clq jt i)) /\
  (forall a, valid card a -> joint (m_jt m') a = (joint jt a * den vs p a)%Qc /\
    original m' a = (original m a * den vs p a)%Qc) /\
  forall i a, valid card a -> den (c_vars (clq (m_jt m') i)) (c_orig (clq (m_jt m') i)) a =
    (den (c_vars (clq jt i)) (c_orig (clq jt i)) a * if Nat.eqb i c then den vs p a else 1)%Qc.
Proof.
  destruct init_ok as (mapping & E & INIT).
  unfold init_clique. rewrite rd_var by auto. cbn [bind]. rewrite rd_clq by auto. cbn [bind].
  rewrite E. cbn [bind].
  destruct (mo_shape _ _ HM) as (_ & HCl & _). destruct (HCl c Hc) as (T1 & T2 & _).
  destruct (INIT (c_p k) T1) as (p1 & I1 & I2 & I3 & I4). { apply (proj1 (mo_nonneg _ _ HM)); auto. }
  destruct (INIT (c_orig k) T2) as (o1 & O1 & O2 & O3 & O4). { now apply (mo_orig _ _ HM). }
  rewrite I1. cbn [bind is_err]. rewrite put_clique_ok by auto. cbn [bind m_jt set_jt].
  fold (putc jt c (set_p k p1)).
  assert (L1 : c < length (cls (putc jt c (set_p k p1)))) by (cbn; now rewrite set_nth_length).
  rewrite rd_clq by auto. cbn [bind]. rewrite clq_putc, Nat.eqb_refl by auto. cbn [c_orig set_p].
  rewrite O1. cbn [bind]. rewrite put_clique_ok by auto. cbn [bind].
  set (k' := set_orig (set_p k p1) o1).
  assert (EJ : mkJT (set_nth (cls (putc jt c (set_p k p1))) c k') (sps (putc jt c (set_p k p1))) = putc jt c k').
  { unfold putc. cbn [cls sps]. f_equal.
    apply (list_ext_nth _ (clq jt 0)); [now rewrite !set_nth_length|].
    intros j Hj. rewrite !set_nth_length in Hj. rewrite !nth_set_nth by (rewrite ?set_nth_length; auto).
    destruct (Nat.eqb j c); auto. }
  unfold set_jt at 1. cbn [m_vars m_jt m_indep m_children m_out m_prev m_in_clique m_out_clique set_jt].
  cbn [m_vars m_jt m_indep m_children m_out m_prev m_in_clique m_out_clique set_jt].
  fold k'. rewrite EJ. eexists. split; [reflexivity|]. fold (set_jt m (putc jt c k')).
  split. { apply replace_model; auto. }
  split. { apply replace_structure; auto. }
  split; auto. split. { intros i Hi. cbn [m_jt set_jt]. apply putc_vars; auto. }
  split.
  - intros a Ha. split.
    + cbn [m_jt set_jt]. apply (replace_joint card m c k' Hc a). unfold phi. rewrite clq_putc, Nat.eqb_refl by auto.
      apply I4. auto.
    + apply (replace_original card m c k' Hc eq_refl a). apply O4. auto.
  - intros i a Ha. cbn [m_jt set_jt]. rewrite clq_putc by auto. destruct (Nat.eqb_spec i c) as [->|].
    + cbn [c_vars c_orig k' set_orig set_p]. now apply O4.
    + now rewrite Qcmult_1_r.
Qed.
End Init.
