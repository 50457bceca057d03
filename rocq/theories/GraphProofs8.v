(** * Proofs about nip_graph_to_cliques: what the properties need *)
From Coq Require Import Permutation Relations Sorted.
From Verif Require Import Base BaseProofs PotentialModel PotentialSpec AssignSpec VariableModel NipModel NipSpec NipProofs4
  VariableProofs HeapModel JoinTreeModel JoinTreeSpec JoinTreeProofs6 GatherProofs GraphModel GraphSpec
  GraphProofs GraphTheory GraphTheory2 GraphProofs2 GraphProofs3 GraphProofs4 GraphProofs5 GraphProofs6
  GraphProofs7 ReorderProofs.
Import ListNotations.
Open Scope nat_scope.
Local Open Scope res_scope.

Lemma run_sym : forall A rem cs Af rem', run A rem cs Af rem' ->
  (forall u v, A u v -> A v u) -> forall u v, Af u v -> Af v u.
Proof.
  induction 1 as [A rem|A rem v l A1 rem1 cs A2 rem2 ST R IH]; intros HA; auto.
  apply IH. intros u w Q. apply (st_fill _ _ _ _ _ _ ST). apply (st_fill _ _ _ _ _ _ ST) in Q.
  destruct Q as [Q|(Q1 & Q2 & Q3)]; [left; auto|right; split; auto].
Qed.

Lemma joined_sym : forall iface g u v, joined iface g u v -> joined iface g v u.
Proof.
  intros iface g u v [H|[H|[(w & H1 & H2)|[[H1 H2]|[H1 H2]]]]]; unfold joined; eauto 10.
Qed.

Lemma triangulated_sym : forall k1 k2 iface g vs gt, graph_ok g vs -> vs <> [] ->
  (forall v, ~ arc g v v) -> triangulated k1 k2 iface g = Ok gt ->
  forall u v, arc gt u v -> arc gt v u.
Proof.
  intros k1 k2 iface g vs gt HG NE IR E.
  destruct (triangulated_ok k1 k2 iface g vs HG NE IR) as (gt' & cs & kl & E1 & O & R & _).
  rewrite E in E1. inversion E1; subst gt'. apply (run_sym _ _ _ _ _ R).
  intros u v (H1 & H2 & H3 & H4). auto using joined_sym.
Qed.

Lemma arc_nodes : forall g vs u v, graph_ok g vs -> arc g u v -> In u vs /\ In v vs.
Proof.
  intros g vs u v HG H. destruct (arc_inv vs g HG u v H) as (i & j & Hi & Hj & _).
  split; eapply nth_error_In; eauto.
Qed.

Lemma arc_dec : forall g vs u v, graph_ok g vs -> In u vs -> In v vs -> arc g u v \/ ~ arc g u v.
Proof.
  intros g vs u v HG Hu Hv. apply In_nth_error in Hu. apply In_nth_error in Hv.
  destruct Hu as (i & Hi), Hv as (j & Hj). 
  assert (Q := arc_adj vs g HG i j u v Hi Hj).
  match type of Q with _ <-> ?x = true => destruct x eqn:B end.
  - left. tauto.
  - right. intros W. apply Q in W. discriminate W.
Qed.

Lemma parents_list : forall g vs v, graph_ok g vs -> In v vs ->
  exists S, forall u, In u S <-> arc g u v.
Proof.
  intros g vs v HG Hv.
  assert (Q : forall l, incl l vs -> exists S, forall u, In u S <-> In u l /\ arc g u v).
  { induction l as [|x l IH]; intros HI.
    - exists []. cbn. tauto.
    - destruct IH as (S & HS); [intros y Hy; apply HI; right; auto|].
      destruct (arc_dec g vs x v HG) as [A|A]; auto; [apply HI; left; auto|..].
      + exists (x :: S). intros u. cbn. rewrite HS. split; [intros [->|W]|intros [[->|W] W2]]; auto; tauto.
      + exists S. intros u. cbn. rewrite HS. split; [tauto|]. intros [[->|W] W2]; tauto. }
  destruct (Q vs (incl_refl _)) as (S & HS). exists S. intros u. rewrite HS. split; [tauto|].
  intros H. split; auto. apply (arc_nodes g vs u v HG H).
Qed.

(** ** Paths in a tree *)
Lemma tree_edges_in : forall jt ns es, tree_of jt ns es -> forall s i j, In s es -> joins jt s i j ->
  In i ns /\ In j ns.
Proof.
  induction 1 as [r|ns es s0 i0 j0 T IH Hi Hj Hs J]; intros s i j H J2; [destruct H|].
  destruct H as [<-|H].
  - unfold joins in *. destruct J as [[A B]|[A B]], J2 as [[C D]|[C D]]; rewrite A, B in *; subst; cbn; auto.
  - destruct (IH s i j H J2). cbn. auto.
Qed.

Lemma bridge : forall jt ns es, tree_of jt ns es -> forall s0, In s0 es ->
  exists side : nat -> bool,
    (forall a b, joins jt s0 a b -> side a <> side b) /\
    (forall s i j, In s es -> s <> s0 -> joins jt s i j -> side i = side j).
Proof.
  induction 1 as [r|ns es s1 i1 j1 T IH Hi Hj Hs J]; intros s0 H; [destruct H|].
  destruct (Nat.eq_dec s0 s1) as [->|N0].
  - exists (fun x => Nat.eqb x j1). split.
    + intros a b Q. unfold joins in *.
      assert (N1 : i1 <> j1) by (intros ->; auto).
      destruct J as [[A B]|[A B]], Q as [[C D]|[C D]]; rewrite A, B in *; subst;
        rewrite Nat.eqb_refl; apply Nat.eqb_neq in N1; rewrite N1; discriminate.
    + intros s i j [->|Q] N J2; [congruence|]. destruct (tree_edges_in _ _ _ T s i j Q J2) as [Qi Qj].
      assert (i <> j1) by (intros ->; auto). assert (j <> j1) by (intros ->; auto).
      apply Nat.eqb_neq in H0. apply Nat.eqb_neq in H1. now rewrite H0, H1.
  - destruct H as [->|H]; [congruence|]. destruct (IH s0 H) as (side & S1 & S2).
    exists (fun x => if Nat.eqb x j1 then side i1 else side x).
    assert (OUT : forall x, In x ns -> Nat.eqb x j1 = false).
    { intros x Hx. apply Nat.eqb_neq. intros ->. auto. }
    split.
    + intros a b Q. destruct (tree_edges_in _ _ _ T s0 a b H Q) as [Qa Qb].
      rewrite (OUT a Qa), (OUT b Qb). auto.
    + intros s i j [<-|Q] N J2.
      * assert (N1 := OUT i1 Hi). 
        unfold joins in *. destruct J as [[A B]|[A B]], J2 as [[C D]|[C D]]; rewrite A, B in *; subst;
          rewrite Nat.eqb_refl, N1; auto.
      * destruct (tree_edges_in _ _ _ T s i j Q J2) as [Qi Qj]. rewrite (OUT i Qi), (OUT j Qj). eauto.
Qed.

Lemma way_side : forall jt (side : nat -> bool) s0,
  (forall s i j, s < length (sps jt) -> s <> s0 -> joins jt s i j -> side i = side j) ->
  forall i l j, way jt i l j -> ~ In s0 (map fst l) -> side i = side j.
Proof.
  intros jt side s0 HS i l j H. induction H as [i|i s k l j Hs J W IH]; intros N; auto.
  cbn in N. rewrite (HS s i k); auto.
Qed.

Lemma way_app : forall jt l1 i x l2 j, way jt i (l1 ++ x :: l2) j ->
  exists a, way jt i l1 a /\ fst x < length (sps jt) /\ joins jt (fst x) a (snd x) /\ way jt (snd x) l2 j.
Proof.
  intros jt l1. induction l1 as [|y l1 IH]; intros i x l2 j H; cbn in H.
  - inversion H; subst. exists i. split; [constructor|]. auto.
  - inversion H as [|? s k ? ? Hs J W]; subst. destruct (IH _ _ _ _ W) as (a & A1 & A2). exists a. split; [constructor; auto|auto].
Qed.

Lemma way_nodes : forall jt i l j, way jt i l j -> forall s, In s (map fst l) ->
  exists a b, joins jt s a b /\ In a (i :: map snd l) /\ In b (i :: map snd l).
Proof.
  intros jt i l j H. induction H as [i|i s k l j Hs J W IH]; intros s1 Q; [destruct Q|].
  cbn in Q. destruct Q as [<-|Q].
  - exists i, k. cbn. auto.
  - destruct (IH s1 Q) as (a & b & J2 & A & B). exists a, b. split; auto. cbn [map snd]. split; right; auto.
Qed.

Lemma way_end : forall jt i l j, way jt i l j -> In j (i :: map snd l).
Proof.
  intros jt i l j H. induction H as [i|i s k l j Hs J W IH]; [left; auto|]. right. exact IH.
Qed.

Lemma path_rip : forall card jt, shape_ok card jt -> is_tree jt -> running_intersection jt ->
  forall v i j l, i < length (cls jt) -> j < length (cls jt) -> path jt i l j ->
    In v (c_vars (clq jt i)) -> In v (c_vars (clq jt j)) ->
    forall s k, In (s, k) l -> In v (s_vars (sep jt s)) /\ In v (c_vars (clq jt k)).
Proof.
  intros card jt (_ & _ & SP) (ns & es & T & Pn & Pe) RI v i j l Hi Hj [W ND] Vi Vj s k Hs.
  apply in_split in Hs. destruct Hs as (l1 & l2 & ->).
  destruct (way_app _ _ _ _ _ _ W) as (a & W1 & Ls & J & W2). cbn [fst snd] in *.
  destruct (in_dec Nat.eq_dec v (s_vars (sep jt s))) as [V|V].
  { split; auto. destruct (SP s Ls) as (_ & _ & _ & _ & _ & I1 & I2).
    destruct J as [[<- <-]|[<- <-]]; auto. }
  exfalso.
  assert (INE : forall x, x < length (sps jt) -> In x es).
  { intros x Hx. apply Permutation_in with (seq 0 (length (sps jt))); [apply Permutation_sym; auto|].
    apply in_seq. lia. }
  destruct (bridge jt ns es T s (INE s Ls)) as (side & S1 & S2).
  assert (S3 : forall s' i j, s' < length (sps jt) -> s' <> s -> joins jt s' i j -> side i = side j) by eauto.
  rewrite map_app in ND. cbn [map snd] in ND.
  assert (ND2 : NoDup ((i :: map snd l1) ++ k :: map snd l2)) by exact ND.
  assert (SAME : forall x y, joins jt s x y -> (x = a /\ y = k) \/ (x = k /\ y = a)).
  { intros x y Q. unfold joins in *. destruct J as [[A B]|[A B]], Q as [[C D]|[C D]]; rewrite A, B in *; auto. }
  assert (DIS : forall x, In x (i :: map snd l1) -> ~ In x (k :: map snd l2)).
  { intros x H1 H2. revert ND2. generalize (i :: map snd l1) H1 (k :: map snd l2) H2. clear.
    induction l as [|y l IH]; intros H1 r H2 ND; [destruct H1|].
    cbn in ND. inversion ND; subst. destruct H1 as [<-|H1]; [|eapply IH; eauto].
    apply H3. apply in_or_app; auto. }
  assert (E1 : side i = side a).
  { apply (way_side jt side s S3 i l1 a W1). intros Q.
    destruct (way_nodes _ _ _ _ W1 s Q) as (x & y & J2 & X & Y).
    destruct (SAME x y J2) as [[-> ->]|[-> ->]].
    - apply (DIS k Y). left; auto.
    - apply (DIS k X). left; auto. }
  assert (E2 : side k = side j).
  { apply (way_side jt side s S3 k l2 j W2). intros Q.
    assert (Ha := way_end _ _ _ _ W1).
    destruct (way_nodes _ _ _ _ W2 s Q) as (x & y & J2 & X & Y).
    destruct (SAME x y J2) as [[-> ->]|[-> ->]]; apply (DIS a Ha); auto. }
  assert (E3 : side i = side j).
  { assert (Q := RI v i j Hi Hj Vi Vj). revert Q. clear - S3 V.
    induction 1 as [x y (s' & Hs & J & V2)|x|x y z _ IH1 _ IH2]; auto; [|congruence].
    apply (S3 s'); auto. intros ->. auto. }
  apply (S1 a k J). congruence.
Qed.

Section Result.
Variables (k1 k2 : list nat -> Z) (card iface : nat -> nat) (g : graph) (vs : list nat).
Hypothesis HG : graph_ok g vs.
Hypothesis NE : vs <> [].
Hypothesis IR : forall v, ~ arc g v v.
Hypothesis HC : forall v, 0 < card v.
Hypothesis HI : (Z.of_nat (length vs * (length vs - 1)) <= INT_MAX)%Z.

Lemma C25_lemma : forall jt e, graph_to_cliques k1 k2 card iface g = Ok (jt, e) ->
  (forall v, In v vs -> exists i, i < length (cls jt) /\ In v (c_vars (clq jt i)) /\
     forall u, arc g u v -> In u (c_vars (clq jt i))) /\
  (exists i, i < length (cls jt) /\ forall v, In v vs -> flag_outgoing (iface v) = true ->
     In v (c_vars (clq jt i))) /\
  (exists i, i < length (cls jt) /\ forall v, In v vs -> flag_old_outgoing (iface v) = true ->
     In v (c_vars (clq jt i))) /\
  (forall u v, arc g u v -> exists i, i < length (cls jt) /\
     In u (c_vars (clq jt i)) /\ In v (c_vars (clq jt i))) /\
  (forall i v, i < length (cls jt) -> In v (c_vars (clq jt i)) -> In v vs).
Proof.
  intros jt e E.
  destruct (to_cliques_lemma k1 k2 card iface g vs HG NE IR HC HI) as (gt & _ & _ & J & _ & _ & W).
  destruct (W jt e E) as (_ & _ & _ & _ & P0 & CI & COV & _). clear W.
  assert (COVJ : forall S, incl S vs ->
     (forall u v, In u S -> In v S -> u <> v -> joined iface g u v) ->
     exists i, i < length (cls jt) /\ incl S (c_vars (clq jt i))).
  { intros S HS HJ. destruct S as [|x S]; [exists 0; split; auto; intros y []|].
    apply COV; auto; [discriminate|]. intros u v Hu Hv N. apply J; auto. }
  split; [|split; [|split; [|split]]].
  - intros v Hv. destruct (parents_list g vs v HG Hv) as (S & HS).
    destruct (COVJ (v :: S)) as (i & Hi & Q).
    + intros u [<-|Hu]; auto. apply HS in Hu. apply (arc_nodes g vs u v HG Hu).
    + intros u w [<-|Hu] [<-|Hw] N; try (apply HS in Hu); try (apply HS in Hw); unfold joined; eauto 6.
      congruence.
    + exists i. split; auto. split; [apply Q; left; auto|]. intros u Hu. apply Q. right. apply HS; auto.
  - destruct (COVJ (filter (fun v => flag_outgoing (iface v)) vs)) as (i & Hi & Q).
    + intros u Hu. apply filter_In in Hu. tauto.
    + intros u w Hu Hw N. apply filter_In in Hu. apply filter_In in Hw. unfold joined. tauto.
    + exists i. split; auto. intros v Hv B. apply Q. apply filter_In. auto.
  - destruct (COVJ (filter (fun v => flag_old_outgoing (iface v)) vs)) as (i & Hi & Q).
    + intros u Hu. apply filter_In in Hu. tauto.
    + intros u w Hu Hw N. apply filter_In in Hu. apply filter_In in Hw. unfold joined. tauto.
    + exists i. split; auto. intros v Hv B. apply Q. apply filter_In. auto.
  - intros u v A. destruct (arc_nodes g vs u v HG A) as [Hu Hv].
    destruct (COVJ [u; v]) as (i & Hi & Q).
    + intros x [<-|[<-|[]]]; auto.
    + intros x y [<-|[<-|[]]] [<-|[<-|[]]] N; unfold joined; auto; congruence.
    + exists i. split; auto. split; apply Q; cbn; auto.
  - intros i v Hi Hv. destruct (CI i Hi) as [Q _]. auto.
Qed.

Lemma C25_find_lemma : forall jt e S, graph_to_cliques k1 k2 card iface g = Ok (jt, e) -> incl S vs ->
  (forall u v, In u S -> In v S -> u <> v -> joined iface g u v) ->
  exists i, find_clique jt S (length S) = Ok (Some i) /\ i < length (cls jt) /\ incl S (c_vars (clq jt i)).
Proof.
  intros jt e S E HS HJ.
  destruct (to_cliques_lemma k1 k2 card iface g vs HG NE IR HC HI) as (gt & _ & _ & J & _ & _ & W).
  destruct (W jt e E) as (_ & GT & _ & _ & P0 & CI & COV & _). clear W.
  destruct (find_clique_ok card jt S (proj1 GT)) as (r & E1 & Q).
  destruct r as [i|].
  - exists i. tauto.
  - exfalso. destruct S as [|x S].
    + apply (Q 0 P0). intros y [].
    + destruct (COV (x :: S)) as (i & Hi & Q2); auto; [discriminate|..].
      * intros u v Hu Hv N. apply J; auto.
      * apply (Q i Hi Q2).
Qed.

Lemma C26_lemma : exists gt, triangulated k1 k2 iface g = Ok gt /\
  (forall u v, In u vs -> In v vs -> u <> v -> joined iface g u v -> arc gt u v) /\
  (forall u v, arc gt u v -> arc gt v u) /\
  (forall n c, 4 <= n -> (forall i, i < n -> In (c i) vs) ->
     (forall i j, i < n -> j < n -> c i = c j -> i = j) ->
     (forall i, i < n -> arc gt (c i) (c ((i + 1) mod n))) ->
     exists i, i < n /\ arc gt (c i) (c ((i + 2) mod n))) /\
  forall jt e, graph_to_cliques k1 k2 card iface g = Ok (jt, e) ->
    (forall i, i < length (cls jt) -> complete gt (c_vars (clq jt i))) /\
    (forall S, S <> [] -> incl S vs -> complete gt S ->
         exists i, i < length (cls jt) /\ incl S (c_vars (clq jt i))) /\
    (forall i j, i < length (cls jt) -> j < length (cls jt) ->
         incl (c_vars (clq jt i)) (c_vars (clq jt j)) -> i = j).
Proof.
  destruct (to_cliques_lemma k1 k2 card iface g vs HG NE IR HC HI) as (gt & E1 & _ & J & SI & _ & W).
  exists gt. split; auto. split; auto.
  assert (SY := triangulated_sym k1 k2 iface g vs gt HG NE IR E1).
  split; auto. split.
  - intros n c Hn HV INJ CY.
    destruct (SI (map c (seq 0 n))) as (v & Hv & Q).
    { destruct n; [lia|]. cbn. discriminate. }
    { intros x Hx. apply in_map_iff in Hx. destruct Hx as (i & <- & Hi). apply in_seq in Hi. apply HV; lia. }
    apply in_map_iff in Hv. destruct Hv as (p & <- & Hp). apply in_seq in Hp.
    assert (M : forall x, In (c (x mod n)) (map c (seq 0 n))).
    { intros x. apply in_map. apply in_seq. assert (x mod n < n) by (apply Nat.mod_upper_bound; lia). lia. }
    set (a := (p + (n - 1)) mod n).
    assert (Ha : a < n) by (apply Nat.mod_upper_bound; lia).
    assert (A1 : (a + 1) mod n = p).
    { unfold a. rewrite Nat.add_mod_idemp_l by lia. replace (p + (n - 1) + 1) with (p + 1 * n) by lia.
      rewrite Nat.mod_add by lia. apply Nat.mod_small. lia. }
    assert (A2 : (a + 2) mod n = (p + 1) mod n).
    { rewrite <- A1 at 1. rewrite Nat.add_mod_idemp_l by lia. f_equal. lia. }
    exists a. split; auto. rewrite A2. apply Q; auto.
    + apply M.
    + intros EQ. apply INJ in EQ; [|auto|apply Nat.mod_upper_bound; lia].
      unfold a in EQ. destruct (Nat.eq_dec p 0) as [->|P0].
      * rewrite !Nat.mod_small in EQ by lia. lia.
      * replace (p + (n - 1)) with (p - 1 + 1 * n) in EQ by lia.
        rewrite Nat.mod_add, (Nat.mod_small (p - 1)) in EQ by lia.
        destruct (Nat.eq_dec (p + 1) n) as [P1|P1].
        -- rewrite P1, Nat.mod_same in EQ by lia. lia.
        -- rewrite Nat.mod_small in EQ by lia. lia.
    + apply SY. rewrite <- A1. apply CY; auto.
    + apply CY. lia.
  - intros jt e E. destruct (W jt e E) as (_ & _ & _ & _ & _ & CI & COV & MX).
    split; [|auto]. intros i Hi. apply CI; auto.
Qed.

(** nip_find_family on a model with this tree. *)
Lemma C25_family_lemma : forall m e v, graph_to_cliques k1 k2 card iface g = Ok (m_jt m, e) ->
  In v vs -> v < length (m_vars m) -> (forall u, In u (v_parents (var m v)) -> arc g u v) ->
  v_family (var m v) = None ->
  exists m' i, find_family m v = Ok (m', Some i) /\ i < length (cls (m_jt m)) /\
    In v (c_vars (clq (m_jt m) i)) /\ incl (v_parents (var m v)) (c_vars (clq (m_jt m) i)).
Proof.
  intros m e v E Hv Hm HP HF.
  destruct (to_cliques_lemma k1 k2 card iface g vs HG NE IR HC HI) as (gt & _ & _ & _ & _ & _ & W).
  destruct (W _ e E) as (_ & GT & _). clear W.
  destruct (C57_family_lemma card m v (proj1 GT) Hm) as (m' & r & E1 & Q & _).
  { intros k Hk. rewrite HF in Hk. discriminate Hk. }
  destruct (C25_lemma _ e E) as (COV & _). destruct (COV v Hv) as (i & Hi & A1 & A2).
  destruct r as [k|].
  - exists m', k. destruct Q as [Q1 Q2]. split; auto. split; auto.
    split; [apply Q2; left; auto|intros u Hu; apply Q2; right; auto].
  - exfalso. apply (Q i Hi). intros u [<-|Hu]; auto.
Qed.

Lemma C28_lemma : forall jt e, graph_to_cliques k1 k2 card iface g = Ok (jt, e) ->
  running_intersection jt /\
  forall v i j l, i < length (cls jt) -> j < length (cls jt) -> path jt i l j ->
    In v (c_vars (clq jt i)) -> In v (c_vars (clq jt j)) ->
    forall s k, In (s, k) l -> In v (s_vars (sep jt s)) /\ In v (c_vars (clq jt k)).
Proof.
  intros jt e E.
  destruct (to_cliques_lemma k1 k2 card iface g vs HG NE IR HC HI) as (gt & _ & _ & _ & _ & _ & W).
  destruct (W jt e E) as (_ & (G1 & G2 & _) & RI & _). split; auto.
  intros v i j l Hi Hj P Vi Vj. apply (path_rip card jt G1 G2 RI v i j l Hi Hj P Vi Vj).
Qed.

Lemma succeeds_lemma :
  (forall gt c, triangulated k1 k2 iface g = Ok gt -> NoDup c -> incl c vs -> complete gt c -> fits card c) ->
  exists jt e, graph_to_cliques k1 k2 card iface g = Ok (jt, e).
Proof.
  destruct (to_cliques_lemma k1 k2 card iface g vs HG NE IR HC HI) as (gt & E1 & _ & _ & _ & W & _).
  intros H. apply W. intros c. apply H; auto.
Qed.
End Result.

Lemma built_lemma : forall k1 k2 card iface g vs, graph_ok g vs -> vs <> [] ->
  (forall v, ~ arc g v v) -> (forall v, 0 < card v) ->
  (Z.of_nat (length vs * (length vs - 1)) <= INT_MAX)%Z ->
  forall jt e, graph_to_cliques k1 k2 card iface g = Ok (jt, e) ->
  (e = NO_ERROR \/ (e = ENOMEM /\ length (cls jt) = 1)) /\
  shape_ok card jt /\ is_tree jt /\ running_intersection jt /\
  length (sps jt) = length (cls jt) - 1 /\ 0 < length (cls jt) <= length vs /\
  (forall i, i < length (cls jt) -> all_ones (c_p (clq jt i)) /\ all_ones (c_orig (clq jt i))) /\
  (forall s, s < length (sps jt) -> all_ones (s_old (sep jt s)) /\ all_ones (s_new (sep jt s))).
Proof.
  intros k1 k2 card iface g vs HG NE IR HC HI jt e E.
  destruct (to_cliques_lemma k1 k2 card iface g vs HG NE IR HC HI) as (gt & _ & _ & _ & _ & _ & W).
  destruct (W jt e E) as (Q0 & (G1 & G2 & G3 & G4 & G5) & RI & LE & P0 & _).
  split; auto. split; auto. split; auto. split; auto. split; auto. split; auto.
  assert (O : forall vs, all_ones (ones card vs)).
  { intros l. unfold all_ones, ones. cbn. apply Forall_forall. intros x Hx. now apply repeat_spec in Hx. }
  split.
  - intros i Hi. destruct (G4 i Hi) as (-> & -> & _). auto.
  - intros s Hs. destruct (G5 s Hs) as (-> & -> & _). auto.
Qed.

Lemma single_clique : forall card c,
  create_sepsets card (mkJT [c] []) 1 = Ok (mkJT [c] [], ENOMEM).
Proof. intros card c. unfold create_sepsets, build_sepset_heap. reflexivity. Qed.
