(** * Rounded arithmetic: marginals of a calibrated tree *)
From Coq Require Import ZArith QArith Qcanon Field Lia Permutation.
From Verif Require Import Base BaseProofs PotentialModel PotentialSpec PotentialProofs PotentialProofs2
  PotentialProofs3 VariableModel VariableProofs JoinTreeModel AssignSpec AssignProofs JoinTreeSpec
  JoinTreeProofs JoinTreeProofs2 JoinTreeProofs3 JoinTreeProofs4 JoinTreeProofs5 RoundModel RoundSpec RoundProofs RoundProofs3
  RoundProofs4 RoundProofs5 RoundProofs6.
Import ListNotations.
Open Scope nat_scope.
Local Open Scope res_scope.
Add Field QcfieldRound7 : Qcft.

Section Marginals.
Variable u : Qc.
Hypothesis Hu0 : (0 <= u)%Qc.
Hypothesis Hu1 : (u < 1)%Qc.
Variable card : nat -> nat.
Local Notation valid := (valid card).
Local Notation sumv := (sumv card).
Local Notation shape_ok := (shape_ok card).
Local Notation rt := JoinTreeProofs2.rt.

Section Tree.
Variable jt : jtree.
Variable es : list nat.
Variable Kc : nat.
Hypothesis HS : shape_ok jt.
Hypothesis HN : tables_nonneg jt.
Hypothesis HC : rcalibrated u card Kc jt.
Hypothesis HRI : running_intersection jt.
Hypothesis HE : Permutation es (seq 0 (length (sps jt))).

Lemma r_root_marginal : forall t up, rt jt es up t -> NoDup (nodes t) -> incl (edges t) es ->
  (forall x, In x (nodes t) -> x < length (cls jt)) ->
  forall a, valid a ->
  near u (length (edges t) * Kc) (phi jt (root t) a) (sumv (minus (tv jt t) (c_vars (clq jt (root t)))) (jn jt t) a).
Proof.
  induction t as [i ch IH] using rtree_ind2. intros up HR ND IE HX a Ha.
  inversion HR as [up' i' ch' OM OJ OR]; subst. cbn [root].
  inversion ND as [|? ? Ni NDc]; subst. fold (cnodes ch) in Ni, NDc.
  assert (HXc : forall s t x, In (s, t) ch -> In x (nodes t) -> x < length (cls jt)).
  { intros s t x Hin Hx. apply HX. simpl. right. eapply cnodes_in; eauto. }
  assert (HsE : forall s t, In (s, t) ch -> s < length (sps jt)).
  { intros s t Hin. apply (es_lt jt es HE). apply IE. simpl. eapply cedges_in; eauto. }
  assert (HeE : forall s t k, In (s, t) ch -> In k (edges t) -> k < length (sps jt)).
  { intros s t k Hin Hk. apply (es_lt jt es HE). apply IE. simpl. eapply cedges_in; eauto. }
  assert (Hi : i < length (cls jt)) by (apply HX; simpl; auto).
  (* separation *)
  assert (SepI : forall c v, In c ch -> In v (W jt c) -> ~ In v (c_vars (clq jt i))).
  { intros (s & t) v Hin Hv K. unfold W in Hv. cbn [fst snd] in Hv. apply minus_in in Hv. destruct Hv as (Hv & Hn).
    apply Hn. apply (shared_in_sepset jt es HRI HE s t v i); eauto. intros Q. apply Ni. eapply cnodes_in; eauto. }
  assert (SepC : forall l1 c l2 c', ch = l1 ++ c :: l2 -> In c' l2 ->
            (forall v, In v (tv jt (snd c)) -> ~ In v (W jt c')) /\
            (forall v, In v (tv jt (snd c')) -> ~ In v (W jt c))).
  { intros l1 (s & t) l2 (s' & t') E Hin. cbn [snd].
    assert (I1 : In (s, t) ch) by (rewrite E; apply in_or_app; simpl; auto).
    assert (I2 : In (s', t') ch) by (rewrite E; apply in_or_app; simpl; auto).
    assert (D : forall x, In x (nodes t) -> ~ In x (nodes t')).
    { intros x Hx Hx'. rewrite E in NDc. destruct (cnodes_nodup _ _ _ _ NDc) as (_ & D).
      destruct (D x Hx) as (_ & D2). apply D2. eapply cnodes_in; eauto. }
    split; intros v Hv K; unfold W in K; cbn [fst snd] in K; apply minus_in in K; destruct K as (K & Kn); apply Kn.
    - apply tv_in in Hv. destruct Hv as (y & Hy & Hvy).
      apply (shared_in_sepset jt es HRI HE s' t' v y); eauto.
    - apply tv_in in Hv. destruct Hv as (y & Hy & Hvy).
      apply (shared_in_sepset jt es HRI HE s t v y); eauto. intros Q. apply (D y Q Hy). }
  assert (Gdep : forall c, In c ch -> dep (tv jt (snd c)) (fun b => jn jt (snd c) b / psi jt (fst c) b)%Qc).
  { intros (s & t) Hin x y E. cbn [fst snd] in *. f_equal.
    - apply (jn_dep card jt es t (Some s)); eauto.
    - apply (psi_dep jt s). intros v Hv. apply E.
      destruct (joins_incl card jt s i (root t) HS (HsE s t Hin) (OJ s t Hin)) as (_ & I2 & _).
      apply tv_in. exists (root t). split; auto. apply root_in. }
  (* each child contributes a factor one *)
  assert (One : forall c b, In c ch -> valid b ->
     near u ((1 + length (edges (snd c))) * Kc) (phi jt i b)
       (phi jt i b * sumv (W jt c) (fun b => (jn jt (snd c) b / psi jt (fst c) b)%Qc) b)%Qc).
  { intros (s & t) b Hin Hb. unfold W. cbn [fst snd].
    destruct (joins_incl card jt s i (root t) HS (HsE s t Hin) (OJ s t Hin)) as (I1 & I2 & L1 & L2 & NE).
    destruct (Qc_eq_dec (psi jt s b) 0%Qc) as [Z|NZ].
    { assert (Zi : phi jt i b = 0%Qc).
      { destruct (joins_incident _ _ _ _ (OJ s t Hin)) as (J1 & _). apply incident_spec in J1.
        apply (near_zero u Hu0 Hu1 _ _ _ (HC s i b (HsE s t Hin) J1 Hb)) in Z.
        apply (sumv_zero_inv card) in Z; auto.
        - apply (dep_ext (c_vars (clq jt i))). apply phi_dep.
        - intros b0 Hb0. now apply (phi_nonneg card). }
      rewrite Zi. rewrite Qcmult_0_l. apply near_refl; auto. apply Qcle_refl. }
    rewrite (sumv_ext card _ _ (fun b => (/ psi jt s b) * jn jt t b)%Qc b Hb)
      by (intros; unfold Qcdiv; ring).
    rewrite (sumv_scale card (s_vars (sep jt s))).
    2:{ intros x y E. f_equal. now apply (psi_dep jt s). }
    2:{ intros v Hv. rewrite minus_in. tauto. }
    assert (Es : near u ((1 + length (edges t)) * Kc) (psi jt s b) (sumv (minus (tv jt t) (s_vars (sep jt s))) (jn jt t) b)).
    { assert (Cn : NoDup (c_vars (clq jt (root t)))).
      { destruct HS as (_ & H & _). destruct (H (root t) L2) as ((T & _) & _). auto. }
      assert (Cin : incl (c_vars (clq jt (root t))) (tv jt t)).
      { intros v Hv. apply tv_in. exists (root t). split; auto. apply root_in. }
      rewrite (sumv_perm card _ (minus (c_vars (clq jt (root t))) (s_vars (sep jt s)) ++
                                 minus (tv jt t) (c_vars (clq jt (root t))))).
      2:{ apply NoDup_Permutation.
          - apply minus_nodup, tv_nodup.
          - apply NoDup_app_intro; try (apply minus_nodup; auto); try apply tv_nodup.
            intros x H1 H2. rewrite minus_in in H1, H2. tauto.
          - intros x. rewrite in_app_iff, !minus_in.
            destruct (in_dec Nat.eq_dec x (c_vars (clq jt (root t)))); intuition. }
      2:{ apply (dep_ext (tv jt t)). eapply jn_dep; eauto. }
      rewrite sumv_app.
      rewrite Nat.mul_add_distr_r, Nat.mul_1_l.
      apply (near_trans u Hu0 Hu1) with (sumv (minus (c_vars (clq jt (root t))) (s_vars (sep jt s))) (phi jt (root t)) b).
      2:{ apply near_sumv; auto. intros b' Hb'. apply (IH s t Hin (Some s)); eauto.
          - assert (Hin' := Hin). apply in_split in Hin'. destruct Hin' as (l1 & l2 & E). rewrite E in NDc.
            now destruct (cnodes_nodup _ _ _ _ NDc).
          - intros k Hk. apply (es_lt jt es HE). eauto. }
      apply near_sym; auto. apply HC; eauto.
      destruct (joins_incident _ _ _ _ (OJ s t Hin)) as (_ & J2). now apply incident_spec in J2. }
    replace (phi jt i b) with (phi jt i b * (/ psi jt s b * psi jt s b))%Qc at 1 by (field; auto).
    apply near_mul_l; auto; [now apply (phi_nonneg card)|].
    apply near_mul_l; auto. apply Qc_inv_nonneg, (psi_nonneg card); eauto. }
  assert (Jpos : forall c b, In c ch -> valid b -> (0 <= jn jt (snd c) b / psi jt (fst c) b)%Qc).
  { intros (s & t) b Hin Hb. cbn [fst snd]. apply Qc_div_nonneg; [|apply (psi_nonneg card); eauto].
    apply Qc_div_nonneg; apply qprod_nonneg; intros x Hx; apply in_map_iff in Hx; destruct Hx as (k & <- & Hk).
    - apply (phi_nonneg card); eauto.
    - apply (psi_nonneg card); eauto. }
  (* sum out the children one by one *)
  assert (Main : forall l2 l1, ch = l1 ++ l2 -> forall b, valid b ->
    near u (length (cedges l2) * Kc) (phi jt i b)
    (sumv (flat_map (W jt) l2) (fun b => phi jt i b * qprod (map (fun c => jn jt (snd c) b / psi jt (fst c) b) l2))%Qc b)).
  { induction l2 as [|c l2 IHl]; intros l1 E b Hb.
    - cbn [flat_map map]. cbn. apply near_eq; auto; [now apply (phi_nonneg card)|ring].
    - cbn [flat_map map qprod fold_right]. rewrite sumv_app.
      assert (Hc : In c ch) by (rewrite E; apply in_or_app; simpl; auto).
      replace (length (cedges (c :: l2))) with (1 + length (edges (snd c)) + length (cedges l2)).
      2:{ cbn [cedges flat_map length]. rewrite app_length. reflexivity. }
      rewrite Nat.mul_add_distr_r.
      apply (near_trans u Hu0 Hu1) with (sumv (W jt c) (fun b => phi jt i b * (jn jt (snd c) b / psi jt (fst c) b))%Qc b).
      + rewrite (sumv_scale card (c_vars (clq jt i)) (W jt c) (phi jt i)).
        * now apply One.
        * apply phi_dep.
        * intros v Hv K. apply (SepI c v); auto.
      + apply near_sumv; auto. intros b' Hb'.
        rewrite (sumv_ext card _ _ (fun b => (jn jt (snd c) b / psi jt (fst c) b) *
           (phi jt i b * qprod (map (fun c => jn jt (snd c) b / psi jt (fst c) b) l2)))%Qc b' Hb')
          by (intros; ring).
        rewrite (sumv_scale card (tv jt (snd c)) (flat_map (W jt) l2) (fun b => jn jt (snd c) b / psi jt (fst c) b)%Qc).
        * rewrite (Qcmult_comm (phi jt i b')). apply near_mul_l; auto.
          apply (IHl (l1 ++ [c])); auto. now rewrite <- app_assoc.
        * now apply Gdep.
        * intros v Hv K. apply in_flat_map in K. destruct K as (c' & Hc' & K).
          destruct (SepC l1 c l2 c' E Hc') as (Q & _). apply (Q v Hv K). }
  rewrite (sumv_ext card _ _ _ a Ha (fun b _ => jn_node jt i ch b)).
  rewrite (sumv_perm card _ (flat_map (W jt) ch)).
  - now apply (Main ch []).
  - apply NoDup_Permutation.
    + apply minus_nodup, tv_nodup.
    + apply NoDup_flat_map.
      * intros c Hc. apply minus_nodup, tv_nodup.
      * intros l1 x l2 y E Hy v Hv. destruct (SepC l1 x l2 y E Hy) as (Q & _). apply Q.
        apply minus_in in Hv. tauto.
    + intros v. rewrite minus_in, in_flat_map, tv_in. split.
      * intros ((x & Hx & Hvx) & Hn). simpl in Hx. destruct Hx as [<-|Hx]; [contradiction|].
        fold (cnodes ch) in Hx. apply cnodes_inv in Hx. destruct Hx as (s & t & Hin & Hx).
        exists (s, t). split; auto. unfold W. cbn [fst snd]. apply minus_in. split; [apply tv_in; eauto|].
        intros K. apply Hn.
        destruct (joins_incl card jt s i (root t) HS (HsE s t Hin) (OJ s t Hin)) as (I1 & _). auto.
      * intros ((s & t) & Hin & Hv). split; [|now apply (SepI (s, t))].
        unfold W in Hv. cbn [fst snd] in Hv. apply minus_in in Hv. destruct Hv as (Hv & _).
        apply tv_in in Hv. destruct Hv as (x & Hx & Hvx). exists x. split; auto. simpl. right.
        fold (cnodes ch). eapply cnodes_in; eauto.
  - intros x y E. f_equal.
    + now apply (phi_dep jt i).
    + apply qprod_map_ext. intros c Hc. apply (Gdep c Hc). auto.
Qed.

End Tree.

(** Every clique of the tree is nearly the marginal of the joint. *)
Lemma r_clique_marginal_ok : forall jt Kc k a, shape_ok jt -> tables_nonneg jt -> is_tree jt ->
  running_intersection jt -> rcalibrated u card Kc jt -> k < length (cls jt) -> valid a ->
  near u (length (sps jt) * Kc) (phi jt k a) (sumv (minus (all_vars jt) (c_vars (clq jt k))) (joint jt) a).
Proof.
  intros jt Kc k a HS HN (ns & es & HT & P1 & P2) HRI HC Hk Ha.
  destruct (tree_of_rt _ _ _ HT k) as (t & HR & Hr & Q1 & Q2).
  { apply (Permutation_in _ (Permutation_sym P1)). apply in_seq. lia. }
  assert (N : Permutation (nodes t) (seq 0 (length (cls jt)))) by (now rewrite Q1).
  assert (E : Permutation (edges t) (seq 0 (length (sps jt)))) by (now rewrite Q2).
  replace (length (sps jt)) with (length (edges t)) by (rewrite (Permutation_length E); apply seq_length).
  replace (sumv (minus (all_vars jt) (c_vars (clq jt k))) (joint jt) a)
    with (sumv (minus (tv jt t) (c_vars (clq jt (root t)))) (jn jt t) a).
  1: rewrite <- Hr; apply (r_root_marginal jt es Kc HS HN HC HRI P2 t None HR); auto.
  4:{ rewrite Hr. rewrite (sumv_ext card _ (jn jt t) (joint jt) a Ha).
    + apply sumv_perm; [|apply joint_is_ext]. apply NoDup_Permutation.
      * apply minus_nodup, tv_nodup.
      * apply minus_nodup, all_vars_nodup.
      * intros v. rewrite !minus_in, tv_in, all_vars_in. split; intros ((x & Hx & Hv) & Hn); split; auto; exists x; split; auto.
        -- apply (Permutation_in _ N) in Hx. apply in_seq in Hx. lia.
        -- apply (Permutation_in _ (Permutation_sym N)). apply in_seq. lia.
    + intros b Hb. unfold jn, joint. f_equal; apply qprod_perm; now apply Permutation_map. }
  - apply (Permutation_NoDup (Permutation_sym N)), seq_NoDup.
  - intros s Hs. now apply (Permutation_in _ Q2).
  - intros x Hx. apply (Permutation_in _ N) in Hx. apply in_seq in Hx. lia.
Qed.

End Marginals.
