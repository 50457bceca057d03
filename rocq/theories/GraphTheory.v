(** * Spanning trees of clusters: graph theory used by GraphProofs

    Nothing here depends on the model. *)
From Coq Require Import Relations Permutation.
From Verif Require Import Base.
Import ListNotations.
Open Scope nat_scope.

Notation edge_list := (list (nat * nat)).

(** [i] and [j] are the ends of an edge. *)
Definition link (E : edge_list) (i j : nat) : Prop := In (i, j) E \/ In (j, i) E.
(** There is a way from [i] to [j]. *)
Definition conn (E : edge_list) : nat -> nat -> Prop := clos_refl_trans nat (link E).

Lemma conn_refl : forall E x, conn E x x.
Proof. intros; apply rt_refl. Qed.

Lemma conn_trans : forall E x y z, conn E x y -> conn E y z -> conn E x z.
Proof. intros; eapply rt_trans; eauto. Qed.

Lemma link_sym : forall E x y, link E x y -> link E y x.
Proof. unfold link; tauto. Qed.

Lemma conn_sym : forall E x y, conn E x y -> conn E y x.
Proof.
  induction 1; [apply rt_step, link_sym; auto|apply rt_refl|eapply rt_trans; eauto].
Qed.

Lemma conn_link : forall E x y, In (x, y) E -> conn E x y.
Proof. intros; apply rt_step; left; auto. Qed.

Lemma conn_mono : forall E E' x y, incl E E' -> conn E x y -> conn E' x y.
Proof.
  intros E E' x y HI. induction 1; [apply rt_step|apply rt_refl|eapply rt_trans; eauto].
  destruct H; [left|right]; auto.
Qed.

Lemma conn_nil : forall x y, conn [] x y -> x = y.
Proof. induction 1; auto; [destruct H as [[]|[]]|congruence]. Qed.

Lemma conn_cons : forall c d E x y, conn ((c, d) :: E) x y ->
  conn E x y \/ (conn E x c /\ conn E d y) \/ (conn E x d /\ conn E c y).
Proof.
  intros c d E x y H. apply clos_rt_rt1n in H. induction H as [x|x y z H1 H2 IH].
  - left; apply conn_refl.
  - destruct H1 as [[H1|H1]|[H1|H1]].
    + injection H1; intros; subst.
      destruct IH as [IH|[[I1 I2]|[I1 I2]]]; auto; right; left; split; auto using conn_refl.
    + assert (conn E x y) by (apply rt_step; left; auto).
      destruct IH as [IH|[[I1 I2]|[I1 I2]]]; [left|right; left|right; right];
        try split; eauto using conn_trans.
    + injection H1; intros; subst.
      destruct IH as [IH|[[I1 I2]|[I1 I2]]]; auto; right; right; split; auto using conn_refl.
    + assert (conn E x y) by (apply rt_step; right; auto).
      destruct IH as [IH|[[I1 I2]|[I1 I2]]]; [left|right; left|right; right];
        try split; eauto using conn_trans.
Qed.

Lemma conn_perm : forall E E' x y, Permutation E E' -> conn E x y -> conn E' x y.
Proof. intros E E' x y H. apply conn_mono. intros e. apply Permutation_in; auto. Qed.

(** Counting the parts of a graph. *)
Definition labels (L : nat -> nat) (n : nat) : list nat := nodup Nat.eq_dec (map L (seq 0 n)).

Lemma conn_labels : forall E, exists L : nat -> nat,
  (forall x y, conn E x y <-> L x = L y) /\
  forall n, n <= length (labels L n) + length E.
Proof.
  induction E as [|[c d] E (L & HL & HN)].
  - exists (fun x => x). split.
    + intros x y; split; [apply conn_nil|intros ->; apply conn_refl].
    + intros n. unfold labels. rewrite map_id, nodup_fixed_point by apply seq_NoDup.
      rewrite seq_length; lia.
  - set (L' := fun x => if Nat.eqb (L x) (L d) then L c else L x).
    assert (M : forall x y, conn E x y -> conn ((c, d) :: E) x y)
      by (intros; eapply conn_mono; [|eauto]; apply incl_tl, incl_refl).
    assert (CD : conn ((c, d) :: E) c d) by (apply conn_link; left; auto).
    exists L'. split.
    + intros x y; split.
      * intros H. unfold L'. apply conn_cons in H. rewrite !HL in H.
        destruct (Nat.eqb_spec (L x) (L d)), (Nat.eqb_spec (L y) (L d)); try lia;
          destruct H as [H|[[H1 H2]|[H1 H2]]]; try lia.
      * unfold L'. intros H.
        destruct (Nat.eqb_spec (L x) (L d)) as [e|e], (Nat.eqb_spec (L y) (L d)) as [e0|e0].
        -- apply M, HL. lia.
        -- apply conn_trans with d; [apply M, HL; auto|].
           apply conn_trans with c; [apply conn_sym; auto|]. apply M, HL; auto.
        -- apply conn_trans with c; [apply M, HL; auto|].
           apply conn_trans with d; auto. apply M, HL; auto.
        -- apply M, HL; auto.
    + intros n. specialize (HN n). cbn [length].
      assert (K : length (labels L n) <= S (length (labels L' n))).
      { change (S (length (labels L' n))) with (length (L d :: labels L' n)).
        apply NoDup_incl_length; [apply NoDup_nodup|].
        intros z Hz. unfold labels in *. apply nodup_In, in_map_iff in Hz.
        destruct Hz as (x & <- & Hx). destruct (Nat.eq_dec (L x) (L d)) as [e|e]; [left; auto|].
        right. apply nodup_In, in_map_iff. exists x. split; auto. unfold L'.
        destruct (Nat.eqb_spec (L x) (L d)); congruence. }
      lia.
Qed.

Lemma conn_dec : forall E x y, conn E x y \/ ~ conn E x y.
Proof.
  intros E x y. destruct (conn_labels E) as (L & HL & _). rewrite HL.
  destruct (Nat.eq_dec (L x) (L y)); auto.
Qed.

(** A connected graph has at least as many edges as nodes, less one. *)
Lemma connected_edges : forall E n, (forall x y, x < n -> y < n -> conn E x y) ->
  n <= S (length E).
Proof.
  intros E n H. destruct (conn_labels E) as (L & HL & HN). specialize (HN n).
  assert (K : length (labels L n) <= length [L 0]).
  { apply NoDup_incl_length; [apply NoDup_nodup|]. intros z Hz. unfold labels in Hz.
    apply nodup_In, in_map_iff in Hz. destruct Hz as (x & <- & Hx). apply in_seq in Hx.
    left. apply HL. apply H; lia. }
  cbn [length] in K. lia.
Qed.

(** The edge that first connects [a] and [b] when the edges of [R] are added
    one after another. *)
Lemma first_connecting : forall R F a b, ~ conn F a b -> conn (R ++ F) a b ->
  exists R2 f R1, R = R2 ++ f :: R1 /\ ~ conn (R1 ++ F) a b /\ conn (f :: R1 ++ F) a b.
Proof.
  induction R as [|f R IH]; intros F a b HF HR.
  - contradiction.
  - destruct (conn_dec (R ++ F) a b) as [C|C].
    + destruct (IH F a b HF C) as (R2 & g & R1 & -> & H1 & H2).
      exists (f :: R2), g, R1. auto.
    + exists [], f, R. auto.
Qed.

Lemma NoDup_map_on : forall (A B : Type) (f : A -> B) (l : list A),
  (forall x y, In x l -> In y l -> f x = f y -> x = y) -> NoDup l -> NoDup (map f l).
Proof.
  induction l as [|x l IH]; intros HI ND; [constructor|]. inversion ND; subst. cbn. constructor.
  - intros H. apply in_map_iff in H. destruct H as (y & Q & Hy).
    assert (y = x) by (apply HI; [right|left|]; auto). subst; contradiction.
  - apply IH; auto. intros a b Ha Hb. apply HI; right; auto.
Qed.

Section Clusters.
Variable N : nat.
Variable K : nat -> list nat.

Definition mem (v i : nat) : bool := existsb (Nat.eqb v) (K i).
Lemma mem_in : forall v i, mem v i = true <-> In v (K i).
Proof.
  intros v i. unfold mem. rewrite existsb_exists. split.
  - intros (x & Hx & E). apply Nat.eqb_eq in E. subst; auto.
  - intros H. exists v. split; auto. apply Nat.eqb_refl.
Qed.

(** The edges whose both ends contain [v]. *)
Definition thru (v : nat) (E : edge_list) : edge_list :=
  filter (fun e => mem v (fst e) && mem v (snd e))%bool E.

Lemma thru_in : forall v E i j, In (i, j) (thru v E) <-> In (i, j) E /\ In v (K i) /\ In v (K j).
Proof.
  intros v E i j. unfold thru. rewrite filter_In, andb_true_iff, !mem_in. simpl. tauto.
Qed.

Lemma thru_incl : forall v E, incl (thru v E) E.
Proof. intros v E e H. apply filter_In in H. tauto. Qed.

(** A tree over all clusters with the running intersection property. *)
Definition junction (T : edge_list) : Prop :=
  length T = N - 1 /\
  (forall i j, In (i, j) T -> i < N /\ j < N) /\
  (forall x y, x < N -> y < N -> conn T x y) /\
  (forall v x y, x < N -> y < N -> In v (K x) -> In v (K y) -> conn (thru v T) x y).

Lemma junction_perm : forall T T', Permutation T T' -> junction T -> junction T'.
Proof.
  intros T T' HP (J1 & J2 & J3 & J4). split; [|split; [|split]].
  - rewrite <- (Permutation_length HP). auto.
  - intros i j H. apply J2. apply Permutation_in with T'; auto using Permutation_sym.
  - intros x y Hx Hy. eapply conn_perm; [eauto|]. auto.
  - intros v x y Hx Hy Vx Vy. apply conn_mono with (thru v T); auto.
    intros [i j] H. apply thru_in in H. apply thru_in. split; [|tauto].
    apply Permutation_in with T; tauto.
Qed.

(** Any edge of a tree is needed. *)
Lemma junction_minimal : forall c d E, junction ((c, d) :: E) -> 0 < N -> ~ conn E c d.
Proof.
  intros c d E (J1 & J2 & J3 & J4) HN H.
  assert (HC : N <= S (length E)).
  { apply connected_edges. intros x y Hx Hy. specialize (J3 x y Hx Hy).
    apply conn_cons in J3. destruct J3 as [J|[[A B]|[A B]]]; auto.
    - eauto using conn_trans.
    - eauto using conn_trans, conn_sym. }
  cbn [length] in J1.
  destruct (J2 c d (or_introl eq_refl)).
  destruct E as [|e E]; cbn [length] in *; [|lia].
  apply conn_nil in H. subst. lia.
Qed.

(** Exchanging an edge by another one over the same variables keeps the
    running intersection. *)
Lemma exchange : forall F R1 R2 c d a b,
  junction (R2 ++ (c, d) :: R1 ++ F) -> a < N -> b < N -> 0 < N ->
  ~ conn (R1 ++ F) a b -> conn ((c, d) :: R1 ++ F) a b ->
  ((forall v, In v (K a) -> In v (K b) -> In v (K c) /\ In v (K d)) ->
   forall v, In v (K c) -> In v (K d) -> In v (K a) /\ In v (K b)) ->
  junction (R2 ++ (a, b) :: R1 ++ F).
Proof.
  intros F R1 R2 c d a b J Ha Hb HN NC C HS.
  assert (J' : junction ((c, d) :: R2 ++ R1 ++ F)).
  { eapply junction_perm; [|eauto]. apply Permutation_sym, Permutation_middle. }
  assert (MIN := junction_minimal _ _ _ J' HN).
  destruct J' as (J1 & J2 & J3 & J4).
  assert (I : incl (R1 ++ F) (R2 ++ R1 ++ F)) by (apply incl_appr, incl_refl).
  destruct (J2 c d (or_introl eq_refl)) as [Hc Hd].
  (* the new edge lies on the way that the old one was on *)
  assert (CE : (conn (R1 ++ F) a c /\ conn (R1 ++ F) d b) \/
               (conn (R1 ++ F) a d /\ conn (R1 ++ F) c b)).
  { apply conn_cons in C. tauto. }
  assert (SEP : forall v, In v (K a) -> In v (K b) -> In v (K c) /\ In v (K d)).
  { intros v Va Vb. specialize (J4 v a b Ha Hb Va Vb).
    destruct (in_dec Nat.eq_dec v (K c)) as [Vc|Vc], (in_dec Nat.eq_dec v (K d)) as [Vd|Vd];
      auto; exfalso; apply MIN;
      (assert (G : conn (R2 ++ R1 ++ F) a b);
       [ apply conn_mono with (thru v ((c, d) :: R2 ++ R1 ++ F)); auto;
         intros [i j] H; apply thru_in in H; destruct H as [[H|H] [? ?]]; auto;
         injection H; intros; subst; contradiction
       | destruct CE as [[C1 C2]|[C1 C2]];
         apply (conn_mono _ (R2 ++ R1 ++ F)) in C1; auto;
         apply (conn_mono _ (R2 ++ R1 ++ F)) in C2; auto; eauto 6 using conn_trans, conn_sym ]). }
  specialize (HS SEP).
  assert (NEW : forall x y, conn ((c, d) :: R2 ++ R1 ++ F) x y ->
                 conn ((a, b) :: R2 ++ R1 ++ F) x y).
  { intros x y H. apply conn_cons in H.
    assert (M : forall x y, conn (R2 ++ R1 ++ F) x y -> conn ((a, b) :: R2 ++ R1 ++ F) x y)
      by (intros; eapply conn_mono; [|eauto]; apply incl_tl, incl_refl).
    assert (AB : conn ((a, b) :: R2 ++ R1 ++ F) a b) by (apply conn_link; left; auto).
    assert (CD : conn ((a, b) :: R2 ++ R1 ++ F) c d).
    { destruct CE as [[C1 C2]|[C1 C2]];
        apply (conn_mono _ (R2 ++ R1 ++ F)) in C1; auto;
        apply (conn_mono _ (R2 ++ R1 ++ F)) in C2; auto;
        apply M in C1; apply M in C2; eauto 6 using conn_trans, conn_sym. }
    destruct H as [H|[[H1 H2]|[H1 H2]]]; auto;
      apply M in H1; apply M in H2; eauto 6 using conn_trans, conn_sym. }
  apply junction_perm with ((a, b) :: R2 ++ R1 ++ F); [apply Permutation_middle|].
  split; [|split; [|split]].
  - exact J1.
  - intros i j [H|H]; [injection H; intros; subst; auto|]. apply J2. right; auto.
  - intros x y Hx Hy. apply NEW; auto.
  - intros v x y Hx Hy Vx Vy. assert (G := J4 v x y Hx Hy Vx Vy).
    set (T0 := R2 ++ R1 ++ F) in *.
    destruct (in_dec Nat.eq_dec v (K c)) as [Vc|Vc], (in_dec Nat.eq_dec v (K d)) as [Vd|Vd].
    2-4: (apply conn_mono with (thru v ((c, d) :: T0)); auto;
          intros [i j] H; apply thru_in in H; apply thru_in; split; [|tauto];
          destruct H as [[H|H] [? ?]]; [injection H; intros; subst; contradiction|right; auto]).
    destruct (HS v Vc Vd) as [Va Vb].
    assert (TC : thru v ((c, d) :: T0) = (c, d) :: thru v T0).
    { unfold thru. cbn [filter fst snd]. rewrite (proj2 (mem_in v c) Vc), (proj2 (mem_in v d) Vd).
      reflexivity. }
    assert (TA : thru v ((a, b) :: T0) = (a, b) :: thru v T0).
    { unfold thru. cbn [filter fst snd]. rewrite (proj2 (mem_in v a) Va), (proj2 (mem_in v b) Vb).
      reflexivity. }
    rewrite TA. rewrite TC in G.
    assert (AB : conn ((a, b) :: thru v T0) a b) by (apply conn_link; left; auto).
    assert (M : forall x y, conn (thru v T0) x y -> conn ((a, b) :: thru v T0) x y)
      by (intros; eapply conn_mono; [|eauto]; apply incl_tl, incl_refl).
    assert (UP : forall x y, conn (thru v T0) x y -> conn T0 x y)
      by (intros; eapply conn_mono; [|eauto]; apply thru_incl).
    assert (UR : forall x y, conn (R1 ++ F) x y -> conn T0 x y)
      by (intros; eapply conn_mono; [|eauto]; auto).
    (* each end is connected, through v, to c or to d without the old edge *)
    assert (E1 : forall x, x < N -> In v (K x) -> conn (thru v T0) x c \/ conn (thru v T0) x d).
    { intros z Hz Vz. assert (Q := J4 v z c Hz Hc Vz Vc). rewrite TC in Q.
      apply conn_cons in Q. destruct Q as [Q|[[Q1 Q2]|[Q1 Q2]]]; auto. }
    assert (CD : conn ((a, b) :: thru v T0) c d).
    { destruct CE as [[C1 C2]|[C1 C2]].
      - destruct (E1 a Ha Va) as [A|A].
        2: { exfalso; apply MIN. apply conn_trans with a; [apply conn_sym|]; auto. }
        destruct (E1 b Hb Vb) as [B|B].
        1: { exfalso; apply MIN. apply conn_trans with b; [apply conn_sym|apply conn_sym]; auto. }
        apply conn_trans with a; [apply M, conn_sym; auto|].
        apply conn_trans with b; auto.
      - destruct (E1 a Ha Va) as [A|A].
        1: { exfalso; apply MIN. apply conn_trans with a; [apply conn_sym|]; auto. }
        destruct (E1 b Hb Vb) as [B|B].
        2: { exfalso; apply MIN. apply conn_trans with b; auto. }
        apply conn_trans with b; [apply M, conn_sym; auto|].
        apply conn_trans with a; [apply conn_sym; auto|]. apply M; auto. }
    apply conn_cons in G. destruct G as [G|[[G1 G2]|[G1 G2]]].
    + auto.
    + apply conn_trans with c; [auto|]. apply conn_trans with d; auto.
    + apply conn_trans with d; [auto|]. apply conn_trans with c; [apply conn_sym; auto|auto].
Qed.

(** The tree that an elimination order gives: [e i] is eliminated at step [i],
    the rest of the cluster is contained in a later one. *)
Lemma elimination_junction : forall (e p : nat -> nat),
  0 < N ->
  (forall i, S i < N -> i < p i < N) ->
  (forall i v, S i < N -> In v (K i) -> v <> e i -> In v (K (p i))) ->
  (forall i v, i < N -> In v (K i) -> exists t, i <= t < N /\ v = e t) ->
  (forall i j, i < N -> j < N -> e i = e j -> i = j) ->
  (forall i, i < N -> In (e i) (K i)) ->
  junction (map (fun i => (i, p i)) (seq 0 (N - 1))).
Proof.
  intros e p HN Hp HK HT HI HE.
  assert (TE : forall i, S i < N -> In (i, p i) (map (fun i => (i, p i)) (seq 0 (N - 1)))).
  { intros i Hi. apply in_map_iff. exists i. split; auto. apply in_seq; lia. }
  split; [|split; [|split]].
  - now rewrite map_length, seq_length.
  - intros i j H. apply in_map_iff in H. destruct H as (k & Q & Hk). injection Q; intros; subst.
    apply in_seq in Hk. specialize (Hp i ltac:(lia)). lia.
  - assert (L : forall n i, i < N -> N - 1 - i <= n ->
              conn (map (fun i => (i, p i)) (seq 0 (N - 1))) i (N - 1)).
    { induction n as [|n IH]; intros i Hi Hn.
      - replace i with (N - 1) by lia. apply conn_refl.
      - destruct (Nat.eq_dec i (N - 1)) as [->|NE]; [apply conn_refl|].
        assert (P := Hp i ltac:(lia)). apply conn_trans with (p i); [apply conn_link, TE; lia|].
        apply IH; lia. }
    intros x y Hx Hy. apply conn_trans with (N - 1); [|apply conn_sym]; eapply L; eauto.
  - intros v.
    assert (L : forall n i t, i <= t < N -> v = e t -> In v (K i) -> t - i <= n ->
              conn (thru v (map (fun i => (i, p i)) (seq 0 (N - 1)))) i t).
    { induction n as [|n IH]; intros i t Hit Et Vi Hn.
      - replace i with t by lia. apply conn_refl.
      - destruct (Nat.eq_dec i t) as [->|NE]; [apply conn_refl|].
        assert (P := Hp i ltac:(lia)).
        assert (V : In v (K (p i))).
        { apply HK; [lia|auto|]. intros Q. apply NE. apply HI; [lia|lia|congruence]. }
        destruct (HT (p i) v ltac:(lia) V) as (t' & Ht' & Et').
        assert (t' = t) by (apply HI; [lia|lia|congruence]). subst t'.
        apply conn_trans with (p i).
        + apply conn_link, thru_in. split; auto. apply TE; lia.
        + apply IH; auto; lia. }
    intros x y Hx Hy Vx Vy.
    destruct (HT x v Hx Vx) as (t & Ht & Et), (HT y v Hy Vy) as (t' & Ht' & Et').
    assert (t' = t) by (apply HI; [lia|lia|congruence]). subst t'.
    apply conn_trans with t; [|apply conn_sym]; eapply L; eauto.
Qed.

(** Some clusters are kept, numbered [0 .. m-1] by [kap]; every cluster [x] is
    contained in a kept one, the one with number [rho x]. *)
Variable m : nat.
Variable kap rho : nat -> nat.
Hypothesis HN : 0 < N.
Hypothesis kap_lt : forall i, i < m -> kap i < N.
Hypothesis rho_lt : forall x, x < N -> rho x < m.
Hypothesis rho_kap : forall i, i < m -> rho (kap i) = i.
Hypothesis covered : forall x v, x < N -> In v (K x) -> In v (K (kap (rho x))).

Definition dropped : list nat := filter (fun x => negb (Nat.eqb (kap (rho x)) x)) (seq 0 N).
Definition hang (l : list nat) : edge_list := map (fun x => (x, kap (rho x))) l.

Lemma dropped_in : forall x, In x dropped <-> x < N /\ kap (rho x) <> x.
Proof.
  intros x. unfold dropped. rewrite filter_In, in_seq, negb_true_iff, Nat.eqb_neq. lia.
Qed.

(** There is a junction tree in which every dropped cluster hangs on the kept
    one that contains it. *)
Lemma hang_junction : forall T, junction T -> forall l, NoDup l -> incl l dropped ->
  exists R, junction (R ++ hang l).
Proof.
  intros T HT. induction l as [|x l IH]; intros ND HI.
  - exists T. cbn. rewrite app_nil_r. auto.
  - inversion ND as [|? ? NX ND']; subst.
    destruct (IH ND' ltac:(intros z Hz; apply HI; right; auto)) as (R & J).
    assert (DX : In x dropped) by (apply HI; left; auto). apply dropped_in in DX.
    destruct DX as [XN XK].
    set (inc := fun e : nat * nat => (Nat.eqb (fst e) x || Nat.eqb (snd e) x)%bool).
    set (Ri := filter inc R). set (Rn := filter (fun e => negb (inc e)) R).
    assert (PR : Permutation R (Ri ++ Rn)).
    { clear. unfold Ri, Rn. induction R as [|e R IH]; cbn; auto.
      destruct (inc e); cbn; [apply perm_skip; auto|].
      apply Permutation_cons_app; auto. }
    assert (J2 : junction (Ri ++ Rn ++ hang l)).
    { eapply junction_perm; [|exact J]. rewrite app_assoc. apply Permutation_app_tail; auto. }
    (* x is alone without the incident edges *)
    assert (NOTX : forall i j, In (i, j) (Rn ++ hang l) -> i <> x /\ j <> x).
    { intros i j H. apply in_app_or in H. destruct H as [H|H].
      - unfold Rn in H. apply filter_In in H. destruct H as [_ H].
        unfold inc in H. cbn in H. apply negb_true_iff, orb_false_iff in H.
        rewrite !Nat.eqb_neq in H. auto.
      - unfold hang in H. apply in_map_iff in H. destruct H as (z & Q & Hz).
        injection Q; intros; subst. split; [intros ->; contradiction|].
        assert (In i dropped) as DI by (apply HI; right; auto). apply dropped_in in DI.
        intros E. apply XK. rewrite <- E at 1. rewrite rho_kap by (apply rho_lt; tauto). auto. }
    assert (ALONE : forall y z, conn (Rn ++ hang l) y z -> y = x -> z = x).
    { induction 1 as [y z H| |y z w H1 IH1 H2 IH2]; auto.
      intros ->. destruct H as [H|H]; apply NOTX in H; tauto. }
    assert (KN : kap (rho x) < N) by (apply kap_lt, rho_lt; auto).
    assert (NC : ~ conn (Rn ++ hang l) x (kap (rho x))).
    { intros H. apply XK. apply (ALONE _ _ H); auto. }
    destruct (first_connecting Ri (Rn ++ hang l) x (kap (rho x)) NC) as (R2 & [c d] & R1 & ER & NC1 & C1).
    { apply J2; auto. }
    assert (INC : c = x \/ d = x).
    { assert (H : In (c, d) Ri) by (rewrite ER; apply in_or_app; right; left; auto).
      unfold Ri in H. apply filter_In in H. destruct H as [_ H]. unfold inc in H. cbn in H.
      apply orb_true_iff in H. rewrite !Nat.eqb_eq in H. auto. }
    exists (R2 ++ R1 ++ Rn). cbn [hang map].
    apply junction_perm with (R2 ++ (x, kap (rho x)) :: R1 ++ (Rn ++ hang l)).
    + rewrite <- !app_assoc.
      apply Permutation_trans with ((x, kap (rho x)) :: R2 ++ R1 ++ Rn ++ hang l).
      * apply Permutation_sym, Permutation_middle.
      * rewrite !app_assoc. apply Permutation_middle.
    + apply exchange with c d; auto.
      * rewrite ER in J2. rewrite <- app_assoc in J2. cbn [app] in J2. exact J2.
      * intros _ v Vc Vd. destruct INC as [->| ->]; split; auto; apply covered; auto.
Qed.

(** Greedy choice among the kept clusters. *)
Definition common (c d : nat) : nat :=
  length (filter (fun v => existsb (Nat.eqb v) (K (kap d))) (K (kap c))).

Inductive greedy : edge_list -> Prop :=
| greedy_nil : greedy []
| greedy_cons : forall E a b, greedy E -> a < m -> b < m -> ~ conn E a b ->
    (forall c d, c < m -> d < m -> ~ conn E c d -> common c d <= common a b) ->
    greedy ((a, b) :: E).

Definition lift (E : edge_list) : edge_list := map (fun e => (kap (fst e), kap (snd e))) E.

Lemma greedy_range : forall E, greedy E -> forall i j, In (i, j) E -> i < m /\ j < m.
Proof.
  induction 1; intros i j HI; [destruct HI|]. destruct HI as [HI|HI]; auto.
  injection HI; intros; subst; auto.
Qed.

Lemma collapse : forall E x y, (forall i j, In (i, j) E -> i < m /\ j < m) ->
  conn (lift E ++ hang dropped) x y -> conn E (rho x) (rho y).
Proof.
  intros E x y HR. induction 1 as [x y H| |x y z H1 IH1 H2 IH2]; [|apply conn_refl|eauto using conn_trans].
  assert (G : forall x y, In (x, y) (lift E ++ hang dropped) -> conn E (rho x) (rho y)).
  { clear x y H. intros x y H. apply in_app_or in H. destruct H as [H|H].
    - unfold lift in H. apply in_map_iff in H. destruct H as ([i j] & Q & HE).
      cbn in Q. injection Q; intros; subst. destruct (HR i j HE).
      rewrite !rho_kap by auto. apply conn_link; auto.
    - unfold hang in H. apply in_map_iff in H. destruct H as (z & Q & Hz).
      injection Q; intros; subst. apply dropped_in in Hz.
      rewrite rho_kap by (apply rho_lt; tauto). apply conn_refl. }
  destruct H as [H|H]; [|apply conn_sym]; auto.
Qed.

Lemma conn_lift : forall E i j, conn E i j -> conn (lift E) (kap i) (kap j).
Proof.
  induction 1; [|apply conn_refl|eauto using conn_trans].
  apply rt_step. destruct H; [left|right]; apply in_map_iff; eexists; split; eauto; reflexivity.
Qed.

Lemma conn_own : forall E x, x < N -> conn (lift E ++ hang dropped) x (kap (rho x)).
Proof.
  intros E x Hx. destruct (Nat.eq_dec (kap (rho x)) x) as [Q|Q].
  - rewrite Q. apply conn_refl.
  - apply conn_link. apply in_or_app; right. unfold hang. apply in_map_iff. exists x. split; auto.
    apply dropped_in; auto.
Qed.

Hypothesis nodups : forall x, x < N -> NoDup (K x).

Lemma greedy_junction : (exists T, junction T) -> forall E, greedy E ->
  exists R, junction (R ++ lift E ++ hang dropped).
Proof.
  intros (T & HT) E. induction 1 as [|E a b G IH Ha Hb NC MAX].
  - apply (hang_junction T HT dropped); [apply NoDup_filter, seq_NoDup|apply incl_refl].
  - destruct IH as (R & J).
    assert (RG := greedy_range E G).
    assert (NK : ~ conn (lift E ++ hang dropped) (kap a) (kap b)).
    { intros H. apply collapse in H; auto. rewrite !rho_kap in H by auto. contradiction. }
    destruct (first_connecting R (lift E ++ hang dropped) (kap a) (kap b) NK) as (R2 & [c d] & R1 & ER & NC1 & C1).
    { apply J; apply kap_lt; auto. }
    exists (R2 ++ R1).
    apply junction_perm with (R2 ++ (kap a, kap b) :: R1 ++ (lift E ++ hang dropped)).
    + cbn [lift map app]. rewrite <- app_assoc.
      apply Permutation_trans with ((kap a, kap b) :: R2 ++ R1 ++ lift E ++ hang dropped).
      * apply Permutation_sym, Permutation_middle.
      * rewrite app_assoc. rewrite (app_assoc R2). apply Permutation_middle.
    + apply exchange with c d; auto.
      * rewrite ER in J. rewrite <- app_assoc in J. cbn [app] in J. exact J.
      * intros INC v Vc Vd.
        assert (HT2 := J). destruct HT2 as (_ & RJ & _ & _).
        destruct (RJ c d) as [Hc Hd].
        { rewrite ER. apply in_or_app; left. apply in_or_app; right; left; auto. }
        (* c and d are not connected by the present forest *)
        assert (NCD : ~ conn E (rho c) (rho d)).
        { intros H. apply conn_lift in H.
          assert (H2 : conn (lift E ++ hang dropped) c d).
          { apply conn_trans with (kap (rho c)); [apply conn_own; auto|].
            apply conn_trans with (kap (rho d)); [|apply conn_sym, conn_own; auto].
            eapply conn_mono; [|exact H]. apply incl_appl, incl_refl. }
          apply NC1. apply conn_cons in C1.
          assert (I : conn (R1 ++ lift E ++ hang dropped) c d)
            by (eapply conn_mono; [|exact H2]; apply incl_appr, incl_refl).
          destruct C1 as [C1|[[C1 C2]|[C1 C2]]]; auto; eauto 6 using conn_trans, conn_sym. }
        assert (W := MAX (rho c) (rho d) (rho_lt c Hc) (rho_lt d Hd) NCD).
        (* equal sets by counting *)
        set (S1 := filter (fun v => existsb (Nat.eqb v) (K (kap b))) (K (kap a))).
        set (S2 := filter (fun v => existsb (Nat.eqb v) (K (kap (rho d)))) (K (kap (rho c)))).
        assert (EX : forall v l, existsb (Nat.eqb v) l = true <-> In v l).
        { clear. intros v l. rewrite existsb_exists. split.
          - intros (x & Hx & E). apply Nat.eqb_eq in E. subst; auto.
          - intros H. exists v. split; auto. apply Nat.eqb_refl. }
        assert (I12 : incl S1 S2).
        { intros w Hw. apply filter_In in Hw. destruct Hw as [W1 W2]. apply EX in W2.
          destruct (INC w W1 W2). apply filter_In. split; [apply covered; auto|].
          apply EX. apply covered; auto. }
        assert (I21 : incl S2 S1).
        { apply NoDup_length_incl; auto. apply NoDup_filter, nodups, kap_lt; auto. }
        assert (V2 : In v S2).
        { apply filter_In. split; [apply covered; auto|]. apply EX. apply covered; auto. }
        apply I21 in V2. apply filter_In in V2. rewrite EX in V2. tauto.
Qed.

(** A full greedy tree over the kept clusters has the running intersection
    property. *)
Theorem greedy_running_intersection : (exists T, junction T) -> forall E,
  greedy E -> length E = m - 1 ->
  forall v i j, i < m -> j < m -> In v (K (kap i)) -> In v (K (kap j)) ->
  conn (filter (fun e => mem v (kap (fst e)) && mem v (kap (snd e)))%bool E) i j.
Proof.
  intros HT E G LE v i j Hi Hj Vi Vj.
  destruct (greedy_junction HT E G) as (R & J).
  (* nothing is left over *)
  assert (LD : length dropped + m = N).
  { assert (P : Permutation (seq 0 N) (dropped ++ map kap (seq 0 m))).
    { apply NoDup_Permutation.
      - apply seq_NoDup.
      - assert (NDm : NoDup (map kap (seq 0 m))).
        { apply NoDup_map_on; [|apply seq_NoDup].
          intros x y Hx Hy Q. apply in_seq in Hx, Hy.
          rewrite <- (rho_kap x), <- (rho_kap y), Q by lia. auto. }
        assert (A : forall z, In z dropped -> ~ In z (map kap (seq 0 m))).
        { intros z Hz H. apply dropped_in in Hz. apply in_map_iff in H.
          destruct H as (k & <- & Hk). apply in_seq in Hk. rewrite rho_kap in Hz by lia. tauto. }
        assert (NDd : NoDup dropped) by apply NoDup_filter, seq_NoDup.
        revert A NDm NDd. generalize dropped (map kap (seq 0 m)). clear.
        induction l as [|x l IH]; intros l2 A N1 N2; auto. inversion N2; subst.
        cbn. constructor.
        + intros H. apply in_app_or in H. destruct H; [contradiction|]. apply (A x); auto. left; auto.
        + apply IH; auto. intros z Hz. apply A. right; auto.
      - intros x. rewrite in_app_iff, dropped_in, in_seq, in_map_iff. split.
        + intros Hx. destruct (Nat.eq_dec (kap (rho x)) x) as [Q|Q].
          * right. exists (rho x). split; auto. apply in_seq. specialize (rho_lt x ltac:(lia)). lia.
          * left. lia.
        + intros [H|(k & <- & Hk)]; [lia|]. apply in_seq in Hk. specialize (kap_lt k ltac:(lia)). lia. }
    apply Permutation_length in P. rewrite app_length, map_length, !seq_length in P. lia. }
  assert (M0 : 0 < m) by lia.
  assert (RN : R = []).
  { destruct J as (J1 & _). rewrite !app_length in J1. unfold lift, hang in J1.
    rewrite !map_length in J1. destruct R; auto. cbn in J1. lia. }
  subst R. cbn [app] in J.
  destruct J as (_ & _ & _ & J4).
  specialize (J4 v (kap i) (kap j) (kap_lt i Hi) (kap_lt j Hj) Vi Vj).
  set (Ev := filter (fun e => mem v (kap (fst e)) && mem v (kap (snd e)))%bool E).
  assert (RG := greedy_range E G).
  assert (H : conn (lift Ev ++ hang dropped) (kap i) (kap j)).
  { eapply conn_mono; [|exact J4]. intros [x y] H. apply thru_in in H. destruct H as (H & Vx & Vy).
    apply in_app_or in H. apply in_or_app. destruct H as [H|H]; auto.
    left. unfold lift in *. apply in_map_iff in H. destruct H as ([a b] & Q & HE).
    cbn in Q. injection Q; intros; subst. apply in_map_iff. exists (a, b). split; auto.
    unfold Ev. apply filter_In. split; auto. cbn. apply andb_true_iff. split; apply mem_in; auto. }
  apply collapse in H.
  - rewrite !rho_kap in H by auto. exact H.
  - intros a b HI. unfold Ev in HI. apply filter_In in HI. apply RG; tauto.
Qed.

End Clusters.
