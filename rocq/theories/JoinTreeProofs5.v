(** * Calibrated trees hold exact marginals *)
From Coq Require Import Permutation Field Relations.
From Verif Require Import Base BaseProofs PotentialModel PotentialSpec JoinTreeModel
  AssignSpec AssignProofs JoinTreeSpec JoinTreeProofs JoinTreeProofs2 JoinTreeProofs3
  JoinTreeProofs4.
Import ListNotations.
Open Scope nat_scope.
Local Open Scope res_scope.
Add Field Qcfield_jt5 : Qcft.

Lemma qprod_dep : forall A V (f : A -> (nat -> nat) -> Qc) l,
  (forall x, In x l -> dep V (f x)) -> dep V (fun a => qprod (map (fun x => f x a) l)).
Proof.
  intros A V f l H a b E. apply qprod_map_ext. intros x Hx. apply (H x Hx); auto.
Qed.

Lemma NoDup_flat_map : forall A (W : A -> list nat) l,
  (forall x, In x l -> NoDup (W x)) ->
  (forall l1 x l2 y, l = l1 ++ x :: l2 -> In y l2 -> forall v, In v (W x) -> ~ In v (W y)) ->
  NoDup (flat_map W l).
Proof.
  induction l as [|x l IH]; intros H1 H2; simpl; [constructor|].
  apply NoDup_app_intro.
  - apply H1. simpl; auto.
  - apply IH; [intros; apply H1; simpl; auto|].
    intros l1 z l2 y E Hy. apply (H2 (x :: l1) z l2 y); auto. simpl. now rewrite E.
  - intros v Hv K. apply in_flat_map in K. destruct K as (y & Hy & K).
    apply (H2 [] x l y eq_refl Hy v); auto.
Qed.

Section Marginals.
Variable card : nat -> nat.
Local Notation valid := (valid card).
Local Notation sumv := (sumv card).
Local Notation shape_ok := (shape_ok card).

(** Variables and joint of a sub-tree. *)
Definition tv (jt : jtree) (t : rtree) : list nat :=
  nodup Nat.eq_dec (flat_map (fun x => c_vars (clq jt x)) (nodes t)).
Definition jn (jt : jtree) (t : rtree) (a : nat -> nat) : Qc :=
  (qprod (map (fun i => phi jt i a) (nodes t)) / qprod (map (fun s => psi jt s a) (edges t)))%Qc.

Lemma tv_in : forall jt t v, In v (tv jt t) <-> exists x, In x (nodes t) /\ In v (c_vars (clq jt x)).
Proof. intros. unfold tv. rewrite nodup_In. apply in_flat_map. Qed.
Lemma tv_nodup : forall jt t, NoDup (tv jt t).
Proof. intros. apply NoDup_nodup. Qed.

Lemma jn_node : forall jt i ch a,
  jn jt (Node i ch) a = (phi jt i a * qprod (map (fun c => jn jt (snd c) a / psi jt (fst c) a) ch))%Qc.
Proof.
  intros jt i ch a. unfold jn. simpl. fold (cnodes ch). fold (cedges ch).
  unfold Qcdiv. rewrite <- !qprod_inv. rewrite <- Qcmult_assoc. f_equal.
  induction ch as [|(s & t) ch IH]; simpl; [ring|].
  rewrite !map_app, !qprod_app. fold (cnodes ch) (cedges ch) in *.
  rewrite <- IH. rewrite <- !qprod_inv. ring.
Qed.

Lemma jn_dep : forall jt es t up, rt jt es up t -> shape_ok jt ->
  (forall s, In s (edges t) -> s < length (sps jt)) -> dep (tv jt t) (jn jt t).
Proof.
  intros jt es t up HR HS HE a b E. unfold jn. f_equal.
  - apply qprod_map_ext. intros x Hx. apply (phi_dep jt x). intros v Hv. apply E. apply tv_in. eauto.
  - apply qprod_map_ext. intros s Hs. apply (psi_dep jt s). intros v Hv. apply E.
    assert (HJ : joins jt s (s_first (sep jt s)) (s_second (sep jt s))) by (left; auto).
    destruct (joins_incl card jt s _ _ HS (HE s Hs) HJ) as (I1 & _).
    apply tv_in. exists (s_first (sep jt s)). split; auto.
    apply (rt_edge_nodes _ _ _ _ HR s); auto. apply incident_spec. auto.
Qed.

Section Tree.
Variable jt : jtree.
Variable es : list nat.
Hypothesis HS : shape_ok jt.
Hypothesis HN : tables_nonneg jt.
Hypothesis HC : calibrated card jt.
Hypothesis HRI : running_intersection jt.
Hypothesis HE : Permutation es (seq 0 (length (sps jt))).

Lemma es_lt : forall s, In s es <-> s < length (sps jt).
Proof.
  intros s. split; intros H.
  - apply (Permutation_in _ HE) in H. apply in_seq in H. lia.
  - apply (Permutation_in _ (Permutation_sym HE)). apply in_seq. lia.
Qed.

(** A variable of a sub-tree that also occurs outside is in the sepset above. *)
Lemma shared_in_sepset : forall s t v y, rt jt es (Some s) t ->
  (forall x, In x (nodes t) -> x < length (cls jt)) -> y < length (cls jt) ->
  ~ In y (nodes t) -> In v (tv jt t) -> In v (c_vars (clq jt y)) -> In v (s_vars (sep jt s)).
Proof.
  intros s t v y HR HX Hy Ny Hv Hvy. apply tv_in in Hv. destruct Hv as (x & Hx & Hvx).
  apply (cut_variable jt es s t v x y HR); auto.
  intros k Hk. now apply es_lt.
Qed.

Definition W (c : nat * rtree) : list nat := minus (tv jt (snd c)) (s_vars (sep jt (fst c))).

Lemma root_marginal : forall t up, rt jt es up t -> NoDup (nodes t) -> incl (edges t) es ->
  (forall x, In x (nodes t) -> x < length (cls jt)) ->
  forall a, valid a ->
  sumv (minus (tv jt t) (c_vars (clq jt (root t)))) (jn jt t) a = phi jt (root t) a.
Proof.
  induction t as [i ch IH] using rtree_ind2. intros up HR ND IE HX a Ha.
  inversion HR as [up' i' ch' OM OJ OR]; subst. cbn [root].
  inversion ND as [|? ? Ni NDc]; subst. fold (cnodes ch) in Ni, NDc.
  assert (HXc : forall s t x, In (s, t) ch -> In x (nodes t) -> x < length (cls jt)).
  { intros s t x Hin Hx. apply HX. simpl. right. eapply cnodes_in; eauto. }
  assert (HsE : forall s t, In (s, t) ch -> s < length (sps jt)).
  { intros s t Hin. apply es_lt. apply IE. simpl. eapply cedges_in; eauto. }
  assert (HeE : forall s t k, In (s, t) ch -> In k (edges t) -> k < length (sps jt)).
  { intros s t k Hin Hk. apply es_lt. apply IE. simpl. eapply cedges_in; eauto. }
  assert (Hi : i < length (cls jt)) by (apply HX; simpl; auto).
  (* separation *)
  assert (SepI : forall c v, In c ch -> In v (W c) -> ~ In v (c_vars (clq jt i))).
  { intros (s & t) v Hin Hv K. unfold W in Hv. cbn [fst snd] in Hv. apply minus_in in Hv. destruct Hv as (Hv & Hn).
    apply Hn. apply (shared_in_sepset s t v i); eauto. intros Q. apply Ni. eapply cnodes_in; eauto. }
  assert (SepC : forall l1 c l2 c', ch = l1 ++ c :: l2 -> In c' l2 ->
            (forall v, In v (tv jt (snd c)) -> ~ In v (W c')) /\
            (forall v, In v (tv jt (snd c')) -> ~ In v (W c))).
  { intros l1 (s & t) l2 (s' & t') E Hin. cbn [snd].
    assert (I1 : In (s, t) ch) by (rewrite E; apply in_or_app; simpl; auto).
    assert (I2 : In (s', t') ch) by (rewrite E; apply in_or_app; simpl; auto).
    assert (D : forall x, In x (nodes t) -> ~ In x (nodes t')).
    { intros x Hx Hx'. rewrite E in NDc. destruct (cnodes_nodup _ _ _ _ NDc) as (_ & D).
      destruct (D x Hx) as (_ & D2). apply D2. eapply cnodes_in; eauto. }
    split; intros v Hv K; unfold W in K; cbn [fst snd] in K; apply minus_in in K; destruct K as (K & Kn); apply Kn.
    - apply tv_in in Hv. destruct Hv as (y & Hy & Hvy).
      apply (shared_in_sepset s' t' v y); eauto.
    - apply tv_in in Hv. destruct Hv as (y & Hy & Hvy).
      apply (shared_in_sepset s t v y); eauto. intros Q. apply (D y Q Hy). }
  assert (Gdep : forall c, In c ch -> dep (tv jt (snd c)) (fun b => jn jt (snd c) b / psi jt (fst c) b)%Qc).
  { intros (s & t) Hin x y E. cbn [fst snd] in *. f_equal.
    - apply (jn_dep jt es t (Some s)); eauto.
    - apply (psi_dep jt s). intros v Hv. apply E.
      destruct (joins_incl card jt s i (root t) HS (HsE s t Hin) (OJ s t Hin)) as (_ & I2 & _).
      apply tv_in. exists (root t). split; auto. apply root_in. }
  (* each child contributes a factor one *)
  assert (One : forall c b, In c ch -> valid b ->
     (phi jt i b * sumv (W c) (fun b => jn jt (snd c) b / psi jt (fst c) b) b = phi jt i b)%Qc).
  { intros (s & t) b Hin Hb. unfold W. cbn [fst snd].
    destruct (joins_incl card jt s i (root t) HS (HsE s t Hin) (OJ s t Hin)) as (I1 & I2 & L1 & L2 & NE).
    destruct (Qc_eq_dec (psi jt s b) 0%Qc) as [Z|NZ].
    { assert (Zi : phi jt i b = 0%Qc).
      { destruct (joins_incident _ _ _ _ (OJ s t Hin)) as (J1 & _). apply incident_spec in J1.
        rewrite (HC s i b (HsE s t Hin) J1 Hb) in Z.
        apply (sumv_zero_inv card) in Z; auto.
        - apply (dep_ext (c_vars (clq jt i))). apply phi_dep.
        - intros b0 Hb0. now apply (phi_nonneg card). }
      rewrite Zi. ring. }
    rewrite (sumv_ext card _ _ (fun b => (/ psi jt s b) * jn jt t b)%Qc b Hb)
      by (intros; unfold Qcdiv; ring).
    rewrite (sumv_scale card (s_vars (sep jt s))).
    2:{ intros x y E. f_equal. now apply (psi_dep jt s). }
    2:{ intros v Hv. rewrite minus_in. tauto. }
    assert (Es : sumv (minus (tv jt t) (s_vars (sep jt s))) (jn jt t) b = psi jt s b).
    { assert (Cn : NoDup (c_vars (clq jt (root t)))).
      { destruct HS as (_ & H & _). destruct (H (root t) L2) as ((T & _) & _). auto. }
      assert (Cin : incl (c_vars (clq jt (root t))) (tv jt t)).
      { intros v Hv. apply tv_in. exists (root t). split; auto. apply root_in. }
      rewrite (sumv_perm card _ (minus (c_vars (clq jt (root t))) (s_vars (sep jt s)) ++
                                 minus (tv jt t) (c_vars (clq jt (root t))))).
      2:{ apply NoDup_Permutation.
          - apply minus_nodup, tv_nodup.
          - apply NoDup_app_intro; try (apply minus_nodup; auto); try apply tv_nodup.
            intros x H1 H2. rewrite minus_in in H1, H2. tauto.
          - intros x. rewrite in_app_iff, !minus_in.
            destruct (in_dec Nat.eq_dec x (c_vars (clq jt (root t)))); intuition. }
      2:{ apply (dep_ext (tv jt t)). eapply jn_dep; eauto. }
      rewrite sumv_app.
      rewrite (sumv_ext card _ _ (phi jt (root t)) b Hb).
      2:{ intros b' Hb'. apply (IH s t Hin (Some s)); eauto.
          - assert (Hin' := Hin). apply in_split in Hin'. destruct Hin' as (l1 & l2 & E). rewrite E in NDc.
            now destruct (cnodes_nodup _ _ _ _ NDc).
          - intros k Hk. apply es_lt. eauto. }
      symmetry. apply HC; eauto.
      destruct (joins_incident _ _ _ _ (OJ s t Hin)) as (_ & J2). now apply incident_spec in J2. }
    rewrite Es. field. auto. }
  (* sum out the children one by one *)
  assert (Main : forall l2 l1, ch = l1 ++ l2 -> forall b, valid b ->
    sumv (flat_map W l2) (fun b => phi jt i b * qprod (map (fun c => jn jt (snd c) b / psi jt (fst c) b) l2))%Qc b
    = phi jt i b).
  { induction l2 as [|c l2 IHl]; intros l1 E b Hb.
    - simpl. ring.
    - simpl. rewrite sumv_app.
      assert (Hc : In c ch) by (rewrite E; apply in_or_app; simpl; auto).
      rewrite (sumv_ext card (W c) _ (fun b => phi jt i b * (jn jt (snd c) b / psi jt (fst c) b))%Qc b Hb).
      + rewrite (sumv_scale card (c_vars (clq jt i)) (W c) (phi jt i)).
        * now apply One.
        * apply phi_dep.
        * intros v Hv K. apply (SepI c v); auto.
      + intros b' Hb'.
        rewrite (sumv_ext card _ _ (fun b => (jn jt (snd c) b / psi jt (fst c) b) *
           (phi jt i b * qprod (map (fun c => jn jt (snd c) b / psi jt (fst c) b) l2)))%Qc b' Hb')
          by (intros; ring).
        rewrite (sumv_scale card (tv jt (snd c)) (flat_map W l2) (fun b => jn jt (snd c) b / psi jt (fst c) b)%Qc).
        * rewrite (IHl (l1 ++ [c])); auto; [ring|]. now rewrite <- app_assoc.
        * now apply Gdep.
        * intros v Hv K. apply in_flat_map in K. destruct K as (c' & Hc' & K).
          destruct (SepC l1 c l2 c' E Hc') as (Q & _). apply (Q v Hv K). }
  rewrite (sumv_ext card _ _ _ a Ha (fun b _ => jn_node jt i ch b)).
  rewrite (sumv_perm card _ (flat_map W ch)).
  - now apply (Main ch []).
  - apply NoDup_Permutation.
    + apply minus_nodup, tv_nodup.
    + apply NoDup_flat_map.
      * intros c Hc. apply minus_nodup, tv_nodup.
      * intros l1 x l2 y E Hy v Hv. destruct (SepC l1 x l2 y E Hy) as (Q & _). apply Q.
        apply minus_in in Hv. tauto.
    + intros v. rewrite minus_in, in_flat_map, tv_in. split.
      * intros ((x & Hx & Hvx) & Hn). simpl in Hx. destruct Hx as [<-|Hx]; [contradiction|].
        fold (cnodes ch) in Hx. apply cnodes_inv in Hx. destruct Hx as (s & t & Hin & Hx).
        exists (s, t). split; auto. unfold W. cbn [fst snd]. apply minus_in. split; [apply tv_in; eauto|].
        intros K. apply Hn.
        destruct (joins_incl card jt s i (root t) HS (HsE s t Hin) (OJ s t Hin)) as (I1 & _). auto.
      * intros ((s & t) & Hin & Hv). split; [|now apply (SepI (s, t))].
        unfold W in Hv. cbn [fst snd] in Hv. apply minus_in in Hv. destruct Hv as (Hv & _).
        apply tv_in in Hv. destruct Hv as (x & Hx & Hvx). exists x. split; auto. simpl. right.
        fold (cnodes ch). eapply cnodes_in; eauto.
  - intros x y E. f_equal.
    + now apply (phi_dep jt i).
    + apply qprod_map_ext. intros c Hc. apply (Gdep c Hc). auto.
Qed.

End Tree.

Lemma joint_is_ext : forall jt, ext (joint jt).
Proof.
  intros jt a b E. unfold joint. f_equal; apply qprod_map_ext; intros; [apply phi_dep|apply psi_dep]; auto.
Qed.

Lemma all_vars_in : forall jt v, In v (all_vars jt) <->
  exists x, x < length (cls jt) /\ In v (c_vars (clq jt x)).
Proof.
  intros jt v. unfold all_vars. rewrite nodup_In, in_flat_map. split.
  - intros (c & Hc & Hv). apply (In_nth _ _ (mkClique [] (mkPot [] []) (mkPot [] []) [] false)) in Hc.
    destruct Hc as (x & Hx & E). exists x. unfold clq. rewrite E. auto.
  - intros (x & Hx & Hv). exists (clq jt x). split; auto. now apply nth_In.
Qed.

Lemma all_vars_nodup : forall jt, NoDup (all_vars jt).
Proof. intros. apply NoDup_nodup. Qed.

(** Every clique of a calibrated tree is the marginal of the joint. *)
Lemma clique_marginal_ok : forall jt k a, shape_ok jt -> tables_nonneg jt -> is_tree jt ->
  running_intersection jt -> calibrated card jt -> k < length (cls jt) -> valid a ->
  phi jt k a = sumv (minus (all_vars jt) (c_vars (clq jt k))) (joint jt) a.
Proof.
  intros jt k a HS HN (ns & es & HT & P1 & P2) HRI HC Hk Ha.
  destruct (tree_of_rt _ _ _ HT k) as (t & HR & Hr & Q1 & Q2).
  { apply (Permutation_in _ (Permutation_sym P1)). apply in_seq. lia. }
  assert (N : Permutation (nodes t) (seq 0 (length (cls jt)))) by (now rewrite Q1).
  assert (E : Permutation (edges t) (seq 0 (length (sps jt)))) by (now rewrite Q2).
  rewrite <- Hr at 1. rewrite <- (root_marginal jt es HS HN HC HRI P2 t None HR); auto.
  - rewrite Hr. rewrite (sumv_ext card _ (jn jt t) (joint jt) a Ha).
    + apply sumv_perm; [|apply joint_is_ext]. apply NoDup_Permutation.
      * apply minus_nodup, tv_nodup.
      * apply minus_nodup, all_vars_nodup.
      * intros v. rewrite !minus_in, tv_in, all_vars_in. split; intros ((x & Hx & Hv) & Hn); split; auto; exists x; split; auto.
        -- apply (Permutation_in _ N) in Hx. apply in_seq in Hx. lia.
        -- apply (Permutation_in _ (Permutation_sym N)). apply in_seq. lia.
    + intros b Hb. unfold jn, joint. f_equal; apply qprod_perm; now apply Permutation_map.
  - apply (Permutation_NoDup (Permutation_sym N)), seq_NoDup.
  - intros s Hs. now apply (Permutation_in _ Q2).
  - intros x Hx. apply (Permutation_in _ N) in Hx. apply in_seq in Hx. lia.
Qed.

(** The sum of every clique, and of every sepset, is the sum of the joint. *)
Lemma clique_total_ok : forall jt k a, shape_ok jt -> tables_nonneg jt -> is_tree jt ->
  running_intersection jt -> calibrated card jt -> k < length (cls jt) -> valid a ->
  total (c_p (clq jt k)) = sumv (all_vars jt) (joint jt) a.
Proof.
  intros jt k a HS HN HT HRI HC Hk Ha.
  destruct HS as (HS0 & HS1 & HS2). destruct (HS1 k Hk) as (T & _).
  rewrite (total_sumv card (c_vars (clq jt k)) _ a T Ha).
  rewrite (sumv_perm card (all_vars jt) (c_vars (clq jt k) ++ minus (all_vars jt) (c_vars (clq jt k)))).
  - rewrite sumv_app. apply sumv_ext; auto. intros b Hb. apply clique_marginal_ok; auto.
    split; auto.
  - apply split_perm; [apply all_vars_nodup|apply T|].
    intros v Hv. apply all_vars_in. eauto.
  - apply joint_is_ext.
Qed.

Lemma sepset_total_ok : forall jt s a, shape_ok jt -> tables_nonneg jt -> is_tree jt ->
  running_intersection jt -> calibrated card jt -> s < length (sps jt) -> valid a ->
  total (s_new (sep jt s)) = sumv (all_vars jt) (joint jt) a.
Proof.
  intros jt s a HS HN HT HRI HC Hs Ha. assert (HS' := HS).
  destruct HS as (HS0 & HS1 & HS2). destruct (HS2 s Hs) as (_ & T & L1 & _ & _ & I1 & _).
  destruct (HS1 _ L1) as (T1 & _).
  rewrite <- (clique_total_ok jt (s_first (sep jt s)) a); auto.
  rewrite (total_sumv card (s_vars (sep jt s)) _ a T Ha).
  rewrite (total_sumv card _ _ a T1 Ha).
  rewrite (sumv_perm card (c_vars (clq jt (s_first (sep jt s))))
            (s_vars (sep jt s) ++ minus (c_vars (clq jt (s_first (sep jt s)))) (s_vars (sep jt s)))).
  - rewrite sumv_app. apply sumv_ext; auto. intros b Hb. apply (HC s); auto.
  - apply split_perm; auto; [apply T1|apply T].
  - apply (dep_ext _ _ (phi_dep jt _)).
Qed.

End Marginals.
