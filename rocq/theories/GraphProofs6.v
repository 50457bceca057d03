(** * Proofs about nip_graph_to_cliques: the join tree *)
From Coq Require Import Permutation Relations Sorted.
From Verif Require Import Base BaseProofs PotentialModel PotentialSpec AssignSpec VariableModel
  VariableProofs HeapModel JoinTreeModel JoinTreeSpec GatherProofs GraphModel GraphSpec GraphProofs
  GraphTheory GraphTheory2 GraphProofs2 GraphProofs3 GraphProofs4 GraphProofs5 ReorderProofs.
Import ListNotations.
Open Scope nat_scope.
Local Open Scope res_scope.

(** ** Forests *)
Lemma forest_labels : forall K m kap E, greedy K m kap E -> exists L : nat -> nat,
  (forall x y, conn E x y <-> L x = L y) /\ length (labels L m) + length E = m.
Proof.
  intros K m kap E G. induction G as [|E c d G (L & HL & HN) Hc Hd NC _].
  - exists (fun x => x). split.
    + intros x y. split; [apply conn_nil|intros ->; apply conn_refl].
    + unfold labels. rewrite map_id. cbn. rewrite Nat.add_0_r.
      rewrite nodup_fixed_point by apply seq_NoDup. apply seq_length.
  - exists (fun x => if Nat.eqb (L x) (L d) then L c else L x). split.
    + intros x y. rewrite HL in NC. split.
      * intros Q. apply conn_cons in Q. rewrite !HL in Q.
        destruct (Nat.eqb_spec (L x) (L d)), (Nat.eqb_spec (L y) (L d));
          destruct Q as [Q|[[Q1 Q2]|[Q1 Q2]]]; congruence.
      * assert (S1 : forall z, L z = L d -> conn ((c, d) :: E) z c).
        { intros z Q. apply HL in Q. apply conn_trans with d.
          - eapply conn_mono; [|exact Q]. intros e; right; auto.
          - apply conn_sym, conn_link. left; auto. }
        assert (S2 : forall z, conn E z c -> conn ((c, d) :: E) z c).
        { intros z Q. eapply conn_mono; [|exact Q]. intros e; right; auto. }
        destruct (Nat.eqb_spec (L x) (L d)), (Nat.eqb_spec (L y) (L d)); intros Q.
        -- apply conn_trans with c; auto. apply conn_sym; auto.
        -- apply conn_trans with c; auto. apply conn_sym. apply S2. apply HL. auto.
        -- apply conn_trans with c; [|apply conn_sym; auto]. apply S2. apply HL. auto.
        -- apply HL in Q. eapply conn_mono; [|exact Q]. intros e; right; auto.
    + rewrite HL in NC.
      assert (P : Permutation (L d :: labels (fun x => if Nat.eqb (L x) (L d) then L c else L x) m) (labels L m)).
      { apply NoDup_Permutation.
        - constructor; [|apply NoDup_nodup]. unfold labels. intros Q. apply nodup_In, in_map_iff in Q.
          destruct Q as (x & Q & _). destruct (Nat.eqb_spec (L x) (L d)); congruence.
        - apply NoDup_nodup.
        - intros z. unfold labels. cbn [In]. rewrite !nodup_In, !in_map_iff. split.
          + intros [<-|(x & <- & Hx)].
            * exists d. split; auto. apply in_seq. lia.
            * destruct (Nat.eqb_spec (L x) (L d)); [exists c; split; auto; apply in_seq; lia|].
              exists x. auto.
          + intros (x & <- & Hx). destruct (Nat.eq_dec (L x) (L d)) as [Q|Q]; [left; auto|].
            right. exists x. split; auto. destruct (Nat.eqb_spec (L x) (L d)); congruence. }
      apply Permutation_length in P. cbn [length] in *. lia.
Qed.

Lemma forest_connected : forall K m kap E, greedy K m kap E -> length E = m - 1 ->
  forall x y, x < m -> y < m -> conn E x y.
Proof.
  intros K m kap E G LE x y Hx Hy. destruct (forest_labels K m kap E G) as (L & HL & HN).
  apply HL.
  assert (Q : length (labels L m) = 1) by lia.
  assert (I : forall z, z < m -> In (L z) (labels L m)).
  { intros z Hz. unfold labels. apply nodup_In, in_map, in_seq. lia. }
  destruct (labels L m) as [|a [|b l]]; try (cbn in Q; lia).
  destruct (I x Hx) as [<-|[]]. destruct (I y Hy) as [<-|[]]. auto.
Qed.

Lemma crossing : forall E r x (P : nat -> bool), conn E r x -> P r = true -> P x = false ->
  exists i j, link E i j /\ P i = true /\ P j = false.
Proof.
  intros E r x P C. apply clos_rt_rt1n in C. induction C as [r|r y z L C IH]; intros H1 H2.
  - congruence.
  - destruct (P y) eqn:B; [auto|]. exists r, y. auto.
Qed.

Section Tree.
Variables (card : nat -> nat) (out : list clique) (Ks : list (list nat)).
Hypothesis HC : forall v, 0 < card v.
Hypothesis HF : Forall2 (fresh card) out Ks.
Hypothesis HN : forall K, In K Ks -> K <> [] /\ NoDup K /\ fits card K.
Variables (K : nat -> list nat) (kap : nat -> nat) (jt : jtree) (E : list (nat * nat)).
Notation m := (length out).
Hypothesis HK : forall i, i < m -> K (kap i) = nth i Ks [].
Hypothesis T : tree_inv card out jt E.
Hypothesis G : greedy K m kap E.
Hypothesis LE : length E = m - 1.
Hypothesis Hm : 0 < m.

Lemma tree_ends : forall ns es, tree_of jt ns es -> forall s, In s es ->
  In (s_first (sep jt s)) ns /\ In (s_second (sep jt s)) ns.
Proof.
  induction 1 as [r|ns es s i j TO IH Hi Hj Hs J]; intros t Ht; [destruct Ht|].
  destruct Ht as [<-|Ht].
  - destruct J as [[-> ->]|[-> ->]]; split; cbn; auto.
  - destruct (IH t Ht). split; right; auto.
Qed.

Lemma sps_length : length (sps jt) = length E.
Proof. rewrite (ti_sps _ _ _ _ T), map_length, rev_length. auto. Qed.

Lemma grow : forall k, k < m -> exists ns es, tree_of jt ns es /\ length ns = S k /\
  length es = k /\ NoDup ns /\ NoDup es /\ incl ns (seq 0 m) /\ incl es (seq 0 (length E)).
Proof.
  induction k as [|k IH]; intros Hk.
  - exists [0], []. split; [constructor|]. split; auto. split; auto. split; [constructor; auto; constructor|].
    split; [constructor|]. split; [|intros x []]. intros x [<-|[]]. apply in_seq. lia.
  - destruct (IH ltac:(lia)) as (ns & es & TO & L1 & L2 & N1 & N2 & I1 & I2).
    assert (X : exists x, x < m /\ ~ In x ns).
    { assert (D : forall x, {~ In x ns} + {~ ~ In x ns}).
      { intros x. destruct (in_dec Nat.eq_dec x ns); [right|left]; auto. }
      destruct (Exists_dec (fun x => ~ In x ns) (seq 0 m) D) as [Q|Q].
      - apply Exists_exists in Q. destruct Q as (x & Hx & Q). apply in_seq in Hx. exists x. split; auto. lia.
      - exfalso. assert (W : m <= length ns); [|lia].
        rewrite <- (seq_length m 0). apply NoDup_incl_length; [apply seq_NoDup|].
        intros x Hx. destruct (in_dec Nat.eq_dec x ns); auto. exfalso. apply Q, Exists_exists. eauto. }
    destruct X as (x & Hx & NX).
    destruct ns as [|r ns]; [cbn in L1; lia|].
    assert (Hr : r < m) by (assert (W := I1 r (or_introl eq_refl)); apply in_seq in W; lia).
    destruct (crossing E r x (fun z => memb z (r :: ns))) as (i & j & LK & Pi & Pj).
    + apply (forest_connected K m kap); auto.
    + apply memb_in. left; auto.
    + apply memb_notin. auto.
    + apply memb_in in Pi. apply memb_notin in Pj.
      assert (S0 : exists s, s < length (sps jt) /\ joins jt s i j).
      { destruct LK as [Q|Q]; destruct (sep_of card out jt E T _ _ Q) as (s & Hs & EQ); exists s; split; auto;
          unfold joins; rewrite EQ; cbn; auto. }
      destruct S0 as (s & Hs & J).
      assert (Hj : j < m).
      { destruct LK as [Q|Q]; apply (ti_range _ _ _ _ T) in Q; lia. }
      assert (NS : ~ In s es).
      { intros Q. destruct (tree_ends _ _ TO s Q) as [Q1 Q2].
        destruct J as [[J1 J2]|[J1 J2]]; congruence. }
      exists (j :: r :: ns), (s :: es). split; [apply tree_leaf with i; auto|].
      split; [cbn in *; lia|]. split; [cbn; lia|]. split; [constructor; auto|]. split; [constructor; auto|].
      split.
      * intros z [<-|Hz]; [apply in_seq; lia|auto].
      * intros z [<-|Hz]; [apply in_seq; rewrite sps_length in Hs; lia|auto].
Qed.

Lemma tree_is_tree : is_tree jt.
Proof.
  destruct (grow (m - 1) ltac:(lia)) as (ns & es & TO & L1 & L2 & N1 & N2 & I1 & I2).
  exists ns, es. split; auto. rewrite (ti_len _ _ _ _ T), sps_length. split.
  - apply NoDup_Permutation_bis; auto. rewrite seq_length. lia.
  - apply NoDup_Permutation_bis; auto. rewrite seq_length. lia.
Qed.

Lemma tree_shape : shape_ok card jt.
Proof.
  split; [auto|]. rewrite (ti_len _ _ _ _ T). split.
  - intros i Hi. destruct (ti_cl _ _ _ _ T i Hi) as (-> & -> & ->).
    assert (TB : table card (cv out i) (ones card (cv out i))).
    { apply ones_table; auto; [eapply cv_nodup|eapply cv_fits]; eauto. }
    split; auto. split; auto. split; [eapply cv_nonempty; eauto|].
    split; [apply (ti_nodup _ _ _ _ T); auto|]. intros s. apply (ti_lists _ _ _ _ T); auto.
  - intros s Hs. destruct (sep_at card out jt E T s Hs) as (a & b & Q & ->). cbn.
    apply (ti_range _ _ _ _ T) in Q.
    assert (TB : table card (sv out a b) (ones card (sv out a b))).
    { apply ones_table; auto; [eapply sv_nodup|eapply sv_fits]; eauto; lia. }
    split; auto. split; auto. split; [lia|]. split; [lia|]. split; [lia|].
    destruct (ti_cl _ _ _ _ T a ltac:(lia)) as (-> & _). destruct (ti_cl _ _ _ _ T b ltac:(lia)) as (-> & _).
    split; intros x Hx; apply filter_In in Hx; [tauto|]. apply memb_in; tauto.
Qed.

Lemma tree_rip :
  (forall v i j, i < m -> j < m -> In v (K (kap i)) -> In v (K (kap j)) ->
    conn (filter (fun e => mem K v (kap (fst e)) && mem K v (kap (snd e)))%bool E) i j) ->
  running_intersection jt.
Proof.
  intros HR v i j Hi Hj Vi Vj. rewrite (ti_len _ _ _ _ T) in *.
  destruct (ti_cl _ _ _ _ T i Hi) as (Ei & _). destruct (ti_cl _ _ _ _ T j Hj) as (Ej & _).
  rewrite Ei in Vi. rewrite Ej in Vj.
  rewrite (cv_in card out Ks HF) in Vi, Vj by auto. rewrite <- HK in Vi, Vj by auto.
  specialize (HR v i j Hi Hj Vi Vj). clear Ei Ej Vi Vj Hi Hj.
  assert (ST : forall a b, In (a, b) (filter (fun e => mem K v (kap (fst e)) && mem K v (kap (snd e)))%bool E) ->
    exists s, s < length (sps jt) /\ sep jt s = sp card out a b /\ In v (sv out a b)).
  { intros a b Q. apply filter_In in Q. destruct Q as [Q B]. cbn in B. apply andb_prop in B.
    destruct B as [B1 B2]. apply mem_in in B1, B2.
    assert (R := ti_range _ _ _ _ T a b Q).
    destruct (sep_of card out jt E T a b Q) as (s & Hs & EQ). exists s. split; auto. split; auto.
    rewrite HK in B1, B2 by lia. unfold sv. apply filter_In. rewrite memb_in.
    split; eapply cv_in; eauto; lia. }
  induction HR as [x y L|x|x y z C1 I1 C2 I2]; [|apply rt_refl|eapply rt_trans; eauto].
  apply rt_step. destruct L as [L|L]; destruct (ST _ _ L) as (s & Hs & EQ & V); exists s; split; auto;
    unfold joins; rewrite EQ; cbn; auto.
Qed.

End Tree.
