(** * Rooted trees underlying a join tree *)
From Coq Require Import Permutation Relations.
From Verif Require Import Base BaseProofs PotentialModel PotentialSpec JoinTreeModel
  AssignSpec AssignProofs JoinTreeSpec JoinTreeProofs.
Import ListNotations.
Open Scope nat_scope.

(** A clique with its sub-trees, each reached through a sepset. *)
Inductive rtree := Node (i : nat) (ch : list (nat * rtree)).

Section Induction.
Variable P : rtree -> Prop.
Hypothesis step : forall i ch, (forall s t, In (s, t) ch -> P t) -> P (Node i ch).
Fixpoint rtree_ind2 (t : rtree) : P t :=
  match t with
  | Node i ch =>
      step i ch
        ((fix all (l : list (nat * rtree)) : forall s t, In (s, t) l -> P t :=
            match l with
            | [] => fun s t (H : In (s, t) []) => False_ind _ H
            | (s0, t0) :: l' => fun s t H =>
                match H with
                | or_introl E => eq_ind t0 P (rtree_ind2 t0) t (f_equal snd E)
                | or_intror H' => all l' s t H'
                end
            end) ch)
  end.
End Induction.

Definition root (t : rtree) : nat := match t with Node i _ => i end.
Fixpoint nodes (t : rtree) : list nat :=
  match t with Node i ch => i :: flat_map (fun c => nodes (snd c)) ch end.
Fixpoint edges (t : rtree) : list nat :=
  match t with Node i ch => flat_map (fun c => fst c :: edges (snd c)) ch end.
Definition cnodes (ch : list (nat * rtree)) : list nat := flat_map (fun c => nodes (snd c)) ch.
Definition cedges (ch : list (nat * rtree)) : list nat :=
  flat_map (fun c => fst c :: edges (snd c)) ch.

Lemma root_in : forall t, In (root t) (nodes t).
Proof. intros [i ch]. simpl. auto. Qed.
Lemma cnodes_in : forall ch s t x, In (s, t) ch -> In x (nodes t) -> In x (cnodes ch).
Proof. intros. unfold cnodes. apply in_flat_map. exists (s, t). auto. Qed.
Lemma cedges_in : forall ch s t x, In (s, t) ch -> x = s \/ In x (edges t) -> In x (cedges ch).
Proof. intros ch s t x H [->|Hx]; unfold cedges; apply in_flat_map; exists (s, t); simpl; auto. Qed.
Lemma cnodes_inv : forall ch x, In x (cnodes ch) -> exists s t, In (s, t) ch /\ In x (nodes t).
Proof. intros ch x H. apply in_flat_map in H. destruct H as ((s & t) & H1 & H2). eauto. Qed.
Lemma cedges_inv : forall ch x, In x (cedges ch) ->
  exists s t, In (s, t) ch /\ (x = s \/ In x (edges t)).
Proof.
  intros ch x H. apply in_flat_map in H. destruct H as ((s & t) & H1 & H2). simpl in H2.
  exists s, t. intuition.
Qed.
Lemma cnodes_app : forall a b, cnodes (a ++ b) = cnodes a ++ cnodes b.
Proof. intros. apply flat_map_app. Qed.
Lemma cedges_app : forall a b, cedges (a ++ b) = cedges a ++ cedges b.
Proof. intros. apply flat_map_app. Qed.

(** Sepset [s] has clique [i] as one of its ends. *)
Definition incident (jt : jtree) (s i : nat) : bool :=
  Nat.eqb (s_first (sep jt s)) i || Nat.eqb (s_second (sep jt s)) i.
Definition not_up (up : option nat) (s : nat) : bool :=
  match up with None => true | Some u => negb (Nat.eqb s u) end.

Lemma incident_spec : forall jt s i, incident jt s i = true <->
  s_first (sep jt s) = i \/ s_second (sep jt s) = i.
Proof. intros. unfold incident. rewrite orb_true_iff, !Nat.eqb_eq. tauto. Qed.

Lemma not_up_spec : forall up s, not_up up s = true <-> up <> Some s.
Proof.
  intros [u|] s; simpl; [|intuition congruence].
  destruct (Nat.eqb_spec s u); subst; simpl; intuition congruence.
Qed.
Lemma not_up_false : forall up s, not_up up s = false <-> up = Some s.
Proof.
  intros [u|] s; simpl; [|intuition congruence].
  destruct (Nat.eqb_spec s u); subst; simpl; intuition congruence.
Qed.

Lemma joins_incident : forall jt s i j, joins jt s i j -> incident jt s i = true /\ incident jt s j = true.
Proof. intros jt s i j [(A & B)|(A & B)]; split; apply incident_spec; auto. Qed.

Lemma joins_sym : forall jt s i j, joins jt s i j -> joins jt s j i.
Proof. intros jt s i j H. unfold joins in *. tauto. Qed.

Lemma incident_joins : forall jt s i j k, joins jt s i j -> incident jt s k = true -> k = i \/ k = j.
Proof. intros jt s i j k [(A & B)|(A & B)] H; apply incident_spec in H; destruct H; subst; auto. Qed.

(** The rooted tree whose edges at each node are all sepsets of [es]. *)
Inductive rt (jt : jtree) (es : list nat) : option nat -> rtree -> Prop :=
| rt_node : forall up i ch,
    Permutation (map fst ch) (filter (fun s => incident jt s i && not_up up s) es) ->
    (forall s t, In (s, t) ch -> joins jt s i (root t)) ->
    (forall s t, In (s, t) ch -> rt jt es (Some s) t) ->
    rt jt es up (Node i ch).

(** The same, children in the order of the list of sepsets of the clique. *)
Inductive ort (jt : jtree) : option nat -> rtree -> Prop :=
| ort_node : forall up i ch,
    map fst ch = filter (not_up up) (c_sepsets (clq jt i)) ->
    (forall s t, In (s, t) ch -> joins jt s i (root t)) ->
    (forall s t, In (s, t) ch -> s < length (sps jt)) ->
    (forall s t, In (s, t) ch -> ort jt (Some s) t) ->
    ort jt up (Node i ch).

(** ** From [tree_of] to rooted trees *)
Section Insert.
Variables i s j : nat.
Fixpoint ins (t : rtree) : rtree :=
  match t with
  | Node k ch =>
      Node k ((if Nat.eqb k i then [(s, Node j [])] else []) ++
              map (fun c => (fst c, ins (snd c))) ch)
  end.

Lemma ins_root : forall t, root (ins t) = root t.
Proof. now intros []. Qed.

Lemma perm_move : forall A (a b c d : list A), Permutation ((a ++ b) ++ c ++ d) ((a ++ c) ++ b ++ d).
Proof.
  intros. rewrite <- !app_assoc. apply Permutation_app_head. rewrite !app_assoc.
  apply Permutation_app_tail. apply Permutation_app_comm.
Qed.

Lemma ins_nodes : forall t,
  Permutation (nodes (ins t)) (repeat j (count_occ Nat.eq_dec (nodes t) i) ++ nodes t).
Proof.
  induction t as [k ch IH] using rtree_ind2. cbn [ins nodes].
  assert (H : Permutation (cnodes (map (fun c => (fst c, ins (snd c))) ch))
     (repeat j (count_occ Nat.eq_dec (cnodes ch) i) ++ cnodes ch)).
  { clear k. induction ch as [|(s0 & t0) ch IHc]; simpl; auto.
    rewrite count_occ_app, repeat_app. rewrite perm_move. apply Permutation_app.
    - apply (IH s0). simpl; auto.
    - apply IHc. intros s1 t1 H1. apply (IH s1). simpl; auto. }
  rewrite flat_map_app. fold (cnodes (map (fun c => (fst c, ins (snd c))) ch)).
  fold (cnodes ch). cbn [count_occ].
  destruct (Nat.eq_dec k i) as [->|N].
  - rewrite Nat.eqb_refl. simpl. rewrite H. rewrite perm_swap. constructor.
    apply Permutation_middle.
  - destruct (Nat.eqb_spec k i); [congruence|]. simpl. rewrite H. apply Permutation_middle.
Qed.

Lemma ins_edges : forall t,
  Permutation (edges (ins t)) (repeat s (count_occ Nat.eq_dec (nodes t) i) ++ edges t).
Proof.
  induction t as [k ch IH] using rtree_ind2. cbn [ins edges nodes].
  assert (H : Permutation (cedges (map (fun c => (fst c, ins (snd c))) ch))
     (repeat s (count_occ Nat.eq_dec (cnodes ch) i) ++ cedges ch)).
  { clear k. induction ch as [|(s0 & t0) ch IHc]; simpl; auto.
    rewrite count_occ_app, repeat_app.
    rewrite <- Permutation_middle. apply Permutation_cons; auto.
    rewrite perm_move. apply Permutation_app.
    - apply (IH s0). simpl; auto.
    - apply IHc. intros s1 t1 H1. apply (IH s1). simpl; auto. }
  rewrite flat_map_app. fold (cedges (map (fun c => (fst c, ins (snd c))) ch)).
  fold (cedges ch) (cnodes ch). cbn [count_occ].
  destruct (Nat.eq_dec k i) as [->|N].
  - rewrite Nat.eqb_refl. simpl. constructor. auto.
  - destruct (Nat.eqb_spec k i); [congruence|]. simpl. auto.
Qed.

Lemma ins_rt : forall jt es t up, joins jt s i j -> ~ In j (nodes t) -> up <> Some s ->
  i <> j -> ~ In s es ->
  (forall k, In k es -> incident jt k j = false) ->
  rt jt es up t -> rt jt (s :: es) up (ins t).
Proof.
  intros jt es t up J Hj Hup Nij Hs Hinc H. revert Hj Hup.
  induction H as [up k ch HP HJ HR IH]; intros Hj Hup. cbn [ins].
  assert (Nkj : k <> j) by (simpl in Hj; tauto).
  assert (Hch : forall s0 t0, In (s0, t0) ch -> s0 <> s).
  { intros s0 t0 H0 ->. apply Hs. apply (in_map fst) in H0. simpl in H0.
    apply (Permutation_in _ HP) in H0. apply filter_In in H0. tauto. }
  constructor.
  - rewrite map_app, map_map. cbn [fst]. cbn [filter].
    destruct (Nat.eqb_spec k i) as [->|N].
    + destruct (joins_incident _ _ _ _ J) as (K1 & _). rewrite K1.
      apply not_up_spec in Hup. rewrite Hup. simpl. constructor.
      exact HP.
    + assert (K1 : incident jt s k = false).
      { destruct (incident jt s k) eqn:E; auto. destruct (incident_joins _ _ _ _ _ J E); congruence. }
      rewrite K1. simpl. exact HP.
  - intros s0 t0 H0. apply in_app_or in H0. destruct H0 as [H0|H0].
    + destruct (Nat.eqb_spec k i) as [->|N]; [|destruct H0].
      destruct H0 as [E|[]]. inversion E; subst. exact J.
    + apply in_map_iff in H0. destruct H0 as ((s1 & t1) & E & H1). inversion E; subst. simpl.
      rewrite ins_root. now apply HJ.
  - intros s0 t0 H0. apply in_app_or in H0. destruct H0 as [H0|H0].
    + destruct (Nat.eqb_spec k i) as [->|N]; [|destruct H0].
      destruct H0 as [E|[]]. inversion E; subst. constructor.
      * simpl. rewrite Nat.eqb_refl. cbn [negb]. rewrite andb_false_r.
        replace (filter (fun s1 => incident jt s1 j && negb (Nat.eqb s1 s)) es) with (@nil nat); auto.
        clear -Hinc. symmetry. induction es as [|e es IHe]; simpl; auto.
        rewrite Hinc by (simpl; auto). simpl. apply IHe. intros; apply Hinc; simpl; auto.
      * intros s1 t1 [].
      * intros s1 t1 [].
    + apply in_map_iff in H0. destruct H0 as ((s1 & t1) & E & H1). inversion E; subst. simpl.
      apply (IH s0 t1); auto.
      * intros K. apply Hj. simpl. right. eapply cnodes_in; eauto.
      * intros K. inversion K. subst. now apply (Hch s t1).
Qed.
End Insert.

Lemma rt_weaken : forall jt es t up s i j, joins jt s i j -> ~ In i (nodes t) -> ~ In j (nodes t) ->
  rt jt es up t -> rt jt (s :: es) up t.
Proof.
  intros jt es t up s i j J Hi Hj H. revert Hi Hj.
  induction H as [up k ch HP HJ HR IH]; intros Hi Hj. constructor; auto.
  - cbn [filter]. destruct (incident jt s k) eqn:E; simpl; auto.
    exfalso. destruct (incident_joins _ _ _ _ _ J E) as [->| ->]; simpl in *; tauto.
  - intros s0 t0 H0. apply IH with (1 := H0); intros K.
    + apply Hi. simpl. right. eapply cnodes_in; eauto.
    + apply Hj. simpl. right. eapply cnodes_in; eauto.
Qed.

Lemma NoDup_app_inv : forall A (a b : list A), NoDup (a ++ b) ->
  NoDup a /\ NoDup b /\ forall x, In x a -> ~ In x b.
Proof.
  induction a as [|h t IH]; intros b H; simpl in *.
  - split; [constructor|]. split; auto.
  - inversion H as [|? ? H1 H2]; subst. destruct (IH b H2) as (A1 & A2 & A3).
    split; [constructor; auto; intros K; apply H1, in_or_app; auto|]. split; auto.
    intros x [<-|Hx] Hb; [apply H1, in_or_app; auto|now apply (A3 x)].
Qed.

(** Children of a node occupy disjoint parts of a duplicate-free tree. *)
Lemma cnodes_nodup : forall done s t rest, NoDup (cnodes (done ++ (s, t) :: rest)) ->
  NoDup (nodes t) /\ (forall x, In x (nodes t) -> ~ In x (cnodes done) /\ ~ In x (cnodes rest)).
Proof.
  intros done s t rest H. rewrite cnodes_app in H. simpl in H.
  apply NoDup_app_inv in H. destruct H as (H1 & H2 & H3).
  apply NoDup_app_inv in H2. destruct H2 as (H4 & H5 & H6).
  split; auto. intros x Hx. split.
  - intros K. apply (H3 x K). apply in_or_app; auto.
  - now apply H6.
Qed.
Lemma cedges_nodup : forall done s t rest, NoDup (cedges (done ++ (s, t) :: rest)) ->
  NoDup (edges t) /\ (forall x, x = s \/ In x (edges t) -> ~ In x (cedges done) /\ ~ In x (cedges rest)) /\
  ~ In s (edges t).
Proof.
  intros done s t rest H. rewrite cedges_app in H. simpl in H.
  apply NoDup_app_inv in H. destruct H as (H1 & H2 & H3).
  inversion H2 as [|? ? N1 N2]; subst.
  apply NoDup_app_inv in N2. destruct N2 as (H4 & H5 & H6).
  split; auto. split.
  - intros x [->|Hx]; split.
    + intros K. apply (H3 s K). simpl; auto.
    + intros K. apply N1. apply in_or_app; auto.
    + intros K. apply (H3 x K). simpl. right. apply in_or_app; auto.
    + now apply H6.
  - intros K. apply N1. apply in_or_app; auto.
Qed.

Lemma nodes_child : forall i ch s t, NoDup (nodes (Node i ch)) -> In (s, t) ch ->
  NoDup (nodes t) /\ ~ In i (nodes t).
Proof.
  intros i ch s t H Hin. simpl in H. inversion H as [|? ? H1 H2]; subst.
  apply in_split in Hin. destruct Hin as (l1 & l2 & ->).
  destruct (cnodes_nodup l1 s t l2 H2) as (A & _). split; auto.
  intros K. apply H1. eapply cnodes_in; eauto. apply in_or_app; simpl; auto.
Qed.

Lemma tree_of_facts : forall jt ns es, tree_of jt ns es ->
  NoDup ns /\ NoDup es /\
  (forall s k, In s es -> incident jt s k = true -> In k ns).
Proof.
  intros jt ns es H. induction H as [r|ns es s i j H (IH1 & IH2 & IH3) Hi Hj Hs HJ].
  - split; [repeat constructor; intros []|]. split; [constructor|]. intros s0 k [].
  - split; [constructor; auto|]. split; [constructor; auto|].
    intros s0 k [<-|H0] K.
    + destruct (incident_joins _ _ _ _ _ HJ K) as [->| ->]; simpl; auto.
    + simpl. right. eapply IH3; eauto.
Qed.

Lemma tree_of_rt : forall jt ns es, tree_of jt ns es -> forall k, In k ns ->
  exists t, rt jt es None t /\ root t = k /\ Permutation (nodes t) ns /\ Permutation (edges t) es.
Proof.
  intros jt ns es H. induction H as [r|ns es s i j H IH Hi Hj Hs HJ]; intros k Hk.
  - destruct Hk as [<-|[]]. exists (Node r []). split; [|auto].
    constructor; [simpl; auto|intros s t []|intros s t []].
  - destruct (tree_of_facts _ _ _ H) as (N1 & N2 & N3).
    assert (Nij : i <> j) by (intros ->; auto).
    assert (Hinc : forall e, In e es -> incident jt e j = false).
    { intros e He. destruct (incident jt e j) eqn:E; auto. exfalso. apply Hj. eapply N3; eauto. }
    destruct Hk as [<-|Hk].
    + destruct (IH i Hi) as (t & Ht & Hr & Hn & He).
      exists (Node j [(s, t)]). split; [|split; [auto|split]].
      * constructor.
        -- simpl. destruct (joins_incident _ _ _ _ HJ) as (_ & K). rewrite K. simpl.
           replace (filter (fun s0 => incident jt s0 j && true) es) with (@nil nat); auto.
           clear -Hinc. symmetry. induction es as [|e es IHe]; simpl; auto.
           rewrite Hinc by (simpl; auto). simpl. apply IHe. intros; apply Hinc; simpl; auto.
        -- intros s0 t0 [E|[]]. inversion E; subst. now apply joins_sym.
        -- intros s0 t0 [E|[]]. inversion E; subst. clear E.
           destruct t0 as [r ch]. simpl in HJ. inversion Ht as [up' i' ch' HP HJ' HR']; subst.
           assert (ND : NoDup (nodes (Node r ch))) by (apply (Permutation_NoDup (Permutation_sym Hn)); auto).
           assert (NJ : ~ In j (nodes (Node r ch))).
           { intros K. apply Hj. eapply Permutation_in; eauto. }
           constructor; auto.
           ++ simpl. rewrite Nat.eqb_refl, andb_false_r. rewrite HP.
              apply Permutation_refl'. apply filter_ext_in. intros e Hee. cbn [not_up].
              f_equal. destruct (Nat.eqb_spec e s0); auto. subst. contradiction.
           ++ intros s1 t1 H1. apply (rt_weaken _ _ _ _ _ r j); auto.
              ** now apply (nodes_child r ch s1).
              ** intros K. apply NJ. simpl. right. eapply cnodes_in; eauto.
      * simpl. rewrite app_nil_r. constructor. auto.
      * simpl. rewrite app_nil_r. constructor. auto.
    + destruct (IH k Hk) as (t & Ht & Hr & Hn & He).
      exists (ins i s j t).
      assert (CO : count_occ Nat.eq_dec (nodes t) i = 1).
      { apply NoDup_count_occ'; [apply (Permutation_NoDup (Permutation_sym Hn)); auto|].
        eapply Permutation_in; [apply Permutation_sym; exact Hn|auto]. }
      split; [|split; [|split]].
      * apply ins_rt; auto; try discriminate.
        intros K. apply Hj. eapply Permutation_in; eauto.
      * now rewrite ins_root.
      * rewrite ins_nodes, CO. simpl. constructor. auto.
      * rewrite ins_edges, CO. simpl. constructor. auto.
Qed.

(** ** Ordering the children *)
Lemma rt_ort : forall card jt es t up, shape_ok card jt -> Permutation es (seq 0 (length (sps jt))) ->
  (forall x, In x (nodes t) -> x < length (cls jt)) ->
  rt jt es up t ->
  exists t', ort jt up t' /\ root t' = root t /\ Permutation (nodes t') (nodes t) /\
    Permutation (edges t') (edges t).
Proof.
  intros card jt es t up HS HE HX H. revert HX. induction H as [up i ch HP HJ HR IH]; intros HX.
  assert (Hlen : forall s, In s es <-> s < length (sps jt)).
  { intros s. split; intros K.
    - apply (Permutation_in _ HE) in K. apply in_seq in K. lia.
    - apply (Permutation_in _ (Permutation_sym HE)). apply in_seq. lia. }
  assert (Hs : forall s t, In (s, t) ch -> s < length (sps jt)).
  { intros s t K. apply (in_map fst) in K. apply (Permutation_in _ HP) in K.
    apply filter_In in K. now apply Hlen. }
  assert (X : exists ch2, map fst ch2 = map fst ch /\
     (forall s t, In (s, t) ch2 -> joins jt s i (root t) /\ s < length (sps jt) /\ ort jt (Some s) t) /\
     Permutation (cnodes ch2) (cnodes ch) /\ Permutation (cedges ch2) (cedges ch)).
  { clear HP. induction ch as [|(s & t) ch IHc].
    - exists []. repeat split; auto; destruct H.
    - destruct (IH s t) as (t' & A & B & C & D); [simpl; auto| |].
      { intros x Hx. apply HX. simpl. right. apply in_or_app; auto. }
      destruct IHc as (ch2 & E1 & E2 & E3 & E4).
      + intros; apply HJ; simpl; auto.
      + intros; apply HR; simpl; auto.
      + intros s1 t1 K. apply (IH s1 t1). simpl; auto.
      + intros x [<-|Hx]; apply HX; simpl; auto. right. apply in_or_app; auto.
      + intros s1 t1 K. apply (Hs s1 t1). simpl; auto.
      + exists ((s, t') :: ch2). split; [simpl; now rewrite E1|]. split.
        * intros s1 t1 [E|K]; [|now apply E2]. inversion E; subst.
          split; [rewrite B; apply HJ; simpl; auto|]. split; [apply (Hs s1 t); simpl; auto|auto].
        * split.
          -- simpl. now apply Permutation_app.
          -- simpl. constructor. now apply Permutation_app. }
  destruct X as (ch2 & E1 & E2 & E3 & E4).
  assert (P2 : Permutation (map fst ch2) (filter (not_up up) (c_sepsets (clq jt i)))).
  { rewrite E1, HP. destruct HS as (_ & HC & _).
    destruct (HC i) as (_ & _ & _ & ND & HI); [apply HX; simpl; auto|].
    apply NoDup_Permutation.
    - apply NoDup_filter. apply (Permutation_NoDup (Permutation_sym HE)). apply seq_NoDup.
    - now apply NoDup_filter.
    - intros x. rewrite !filter_In, andb_true_iff, incident_spec, HI, Hlen. tauto. }
  apply Permutation_sym, Permutation_map_inv in P2. destruct P2 as (ch3 & F1 & F2).
  exists (Node i ch3). split; [|split; [auto|split]].
  - constructor.
    + now rewrite F1.
    + intros s t K. apply (Permutation_in _ (Permutation_sym F2)) in K. now apply E2.
    + intros s t K. apply (Permutation_in _ (Permutation_sym F2)) in K. now apply (E2 s t).
    + intros s t K. apply (Permutation_in _ (Permutation_sym F2)) in K. now apply E2.
  - simpl. constructor. fold (cnodes ch3) (cnodes ch). rewrite <- E3.
    apply Permutation_flat_map. now apply Permutation_sym.
  - simpl. fold (cedges ch3) (cedges ch). rewrite <- E4.
    apply Permutation_flat_map. now apply Permutation_sym.
Qed.

(** ** Cuts *)
Lemma rt_incident : forall jt es up t, rt jt es up t -> forall x k, In x (nodes t) -> In k es ->
  incident jt k x = true -> In k (edges t) \/ up = Some k.
Proof.
  intros jt es up t H. induction H as [up i ch HP HJ HR IH]; intros x k Hx Hk HI.
  simpl in Hx. destruct Hx as [<-|Hx].
  - destruct (not_up up k) eqn:E.
    + left. assert (K : In k (map fst ch)).
      { apply (Permutation_in _ (Permutation_sym HP)). apply filter_In. rewrite HI, E. auto. }
      apply in_map_iff in K. destruct K as ((s & t) & <- & K). simpl. fold (cedges ch).
      eapply cedges_in; eauto.
    + right. now apply not_up_false.
  - apply cnodes_inv in Hx. destruct Hx as (s & t & Hin & Hx). left. simpl. fold (cedges ch).
    destruct (IH s t Hin x k Hx Hk HI) as [K|K].
    + eapply cedges_in; eauto.
    + inversion K; subst. eapply cedges_in; eauto.
Qed.

Lemma rt_edge_nodes : forall jt es up t, rt jt es up t -> forall k x, In k (edges t) ->
  incident jt k x = true -> In x (nodes t).
Proof.
  intros jt es up t H. induction H as [up i ch HP HJ HR IH]; intros k x Hk HI.
  simpl in Hk. apply cedges_inv in Hk. destruct Hk as (s & t & Hin & [->|Hk]).
  - destruct (incident_joins _ _ _ _ _ (HJ s t Hin) HI) as [->| ->]; [simpl; auto|].
    simpl. right. eapply cnodes_in; eauto. apply root_in.
  - simpl. right. eapply cnodes_in; eauto.
Qed.

(** A variable inside and outside of a sub-tree is in the sepset above it. *)
Lemma cut_variable : forall jt es s t v x y, rt jt es (Some s) t ->
  (forall k, k < length (sps jt) -> In k es) ->
  clos_refl_trans nat (step_through jt v) x y -> In x (nodes t) -> ~ In y (nodes t) ->
  In v (s_vars (sep jt s)).
Proof.
  intros jt es s t v x y H HE HC Hx Hy. apply clos_rt_rt1n in HC.
  induction HC as [x|x z y (k & Hk & HJ & HV) HC IH]; [contradiction|].
  destruct (joins_incident _ _ _ _ HJ) as (K1 & K2).
  destruct (rt_incident _ _ _ _ H x k Hx (HE k Hk) K1) as [K|K].
  - apply IH; auto. eapply rt_edge_nodes; eauto.
  - inversion K; subst. auto.
Qed.
