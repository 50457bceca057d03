(** * Proofs about nip_graph_to_cliques: the results together *)
From Coq Require Import Permutation Relations Sorted.
From Verif Require Import Base BaseProofs PotentialModel PotentialSpec AssignSpec VariableModel
  VariableProofs HeapModel JoinTreeModel JoinTreeSpec JoinTreeProofs6 GatherProofs GraphModel GraphSpec
  GraphProofs GraphTheory GraphTheory2 GraphProofs2 GraphProofs3 GraphProofs4 GraphProofs5 GraphProofs6
  ReorderProofs.
Import ListNotations.
Open Scope nat_scope.
Local Open Scope res_scope.

Lemma keeps_length : forall K t kl, keeps K t kl -> length kl <= t.
Proof.
  induction 1 as [|t kl a H IH|t kl H IH]; cbn; try lia. rewrite app_length. cbn. lia.
Qed.

(** The graph after the filling has no chordless cycles: in every set of nodes
    there is one whose neighbours in the set are all joined. *)
Lemma run_simplicial : forall A rem cs Af, run A rem cs Af [] ->
  forall S, S <> [] -> incl S rem ->
  exists v, In v S /\ forall u w, In u S -> In w S -> u <> w -> Af v u -> Af v w -> Af u w.
Proof.
  intros A rem cs Af R. remember [] as e eqn:He. revert He.
  induction R as [A rem|A rem v l A1 rem1 cs A2 rem2 ST R IH]; intros He S NE HI.
  - subst. destruct S as [|x S]; [congruence|]. destruct (HI x (or_introl eq_refl)).
  - destruct (in_dec Nat.eq_dec v S) as [V|V].
    + exists v. split; auto.
      assert (Q : forall u, In u S -> A2 v u -> In u (v :: l)).
      { intros u Hu H. apply (run_old _ _ _ _ _ R) in H.
        - apply (st_fill _ _ _ _ _ _ ST) in H. destruct H as [H|(_ & _ & H)]; auto.
          right. apply (st_nbrs _ _ _ _ _ _ ST). split; auto.
        - intros Q2. apply (st_rem _ _ _ _ _ _ ST) in Q2. tauto. }
      intros u w Hu Hw N H1 H2. apply (run_grows _ _ _ _ _ R).
      apply (st_fill _ _ _ _ _ _ ST). right. auto.
    + destruct (IH He S NE) as (x & Hx & H); [|eauto].
      intros u Hu. apply (st_rem _ _ _ _ _ _ ST). split; [auto|]. intros ->; auto.
Qed.

Definition good_tree (card : nat -> nat) (jt : jtree) : Prop :=
  shape_ok card jt /\ is_tree jt /\ length (sps jt) = length (cls jt) - 1 /\
  (forall i, i < length (cls jt) -> c_p (clq jt i) = ones card (c_vars (clq jt i)) /\
     c_orig (clq jt i) = ones card (c_vars (clq jt i)) /\
     StronglySorted lt (c_vars (clq jt i))) /\
  (forall s, s < length (sps jt) -> s_old (sep jt s) = ones card (s_vars (sep jt s)) /\
     s_new (sep jt s) = ones card (s_vars (sep jt s)) /\
     forall v, In v (s_vars (sep jt s)) <->
       In v (c_vars (clq jt (s_first (sep jt s)))) /\ In v (c_vars (clq jt (s_second (sep jt s))))).

Lemma create_sepsets_tree : forall card out Ks K kap, (forall v, 0 < card v) ->
  Forall2 (fresh card) out Ks -> (forall k, In k Ks -> k <> [] /\ NoDup k /\ fits card k) ->
  (forall i, i < length out -> K (kap i) = nth i Ks []) ->
  out <> [] -> (Z.of_nat (length out * (length out - 1)) <= INT_MAX)%Z ->
  exists jt e E, create_sepsets card (mkJT out []) (length out) = Ok (jt, e) /\
    (e = NO_ERROR \/ (e = ENOMEM /\ length out = 1)) /\
    good_tree card jt /\ length (cls jt) = length out /\
    (forall i v, i < length out -> (In v (c_vars (clq jt i)) <-> In v (nth i Ks []))) /\
    tree_inv card out jt E /\ greedy K (length out) kap E /\ length E = length out - 1.
Proof.
  intros card out Ks K kap HC HF HN HK NE HI.
  assert (Hm : 0 < length out) by (destruct out; [congruence|cbn; lia]).
  destruct (create_sepsets_ok card out Ks HC HF HN K kap HK Hm HI) as (jt & e & E & E1 & E2 & E3 & T & G & LE).
  exists jt, e, E. split; auto. split; auto.
  split; [|split; [apply (ti_len _ _ _ _ T)|split; [|auto]]].
  - split; [eapply tree_shape; eauto|]. split; [eapply tree_is_tree; eauto|].
    split; [rewrite (ti_len _ _ _ _ T); erewrite sps_length; eauto|]. rewrite (ti_len _ _ _ _ T). split.
    + intros i Hi. destruct (ti_cl _ _ _ _ T i Hi) as (-> & -> & ->). split; auto. split; auto.
      eapply cv_sorted; eauto.
    + intros s Hs. destruct (sep_at card out jt E T s Hs) as (a & b & Q & ->). cbn.
      split; auto. split; auto. apply (ti_range _ _ _ _ T) in Q.
      destruct (ti_cl _ _ _ _ T a ltac:(lia)) as (-> & _). destruct (ti_cl _ _ _ _ T b ltac:(lia)) as (-> & _).
      intros v. unfold sv. rewrite filter_In, memb_in. tauto.
  - intros i v Hi. destruct (ti_cl _ _ _ _ T i Hi) as (-> & _). eapply cv_in; eauto.
Qed.

Lemma make_cliques_fresh : forall card Ks out, (forall v, 0 < card v) -> (forall k, In k Ks -> NoDup k) ->
  make_cliques card Ks = Ok out ->
  Forall2 (fresh card) out Ks /\ forall k, In k Ks -> fits card k.
Proof.
  intros card Ks. induction Ks as [|k Ks IH]; intros out HC HN E; cbn [make_cliques] in E.
  - inversion E. split; [constructor|]. intros k [].
  - inv_as E c Ec. destruct c as [c|]; [|discriminate E]. inv_as E cs1 Ecs. inversion E; subst out.
    destruct (IH cs1) as [F1 F2]; auto; [intros; apply HN; right; auto|].
    assert (NK : NoDup k) by (apply HN; left; auto).
    assert (FK := new_clique_fits card k _ NK Ec).
    split; [|intros k' [<-|Hk]; auto].
    constructor; auto.
    destruct (new_clique_ok card k HC NK FK) as (cv & P & S & E2).
    rewrite E2 in Ec. inversion Ec; subst c. exists cv. split; auto. split; auto.
    intros v. split; apply Permutation_in; auto using Permutation_sym.
Qed.

Lemma C27_lemma : forall card Ks cs, (forall v, 0 < card v) -> Ks <> [] ->
  (forall k, In k Ks -> k <> [] /\ NoDup k) -> make_cliques card Ks = Ok cs ->
  (Z.of_nat (length cs * (length cs - 1)) <= INT_MAX)%Z ->
  exists jt e, create_sepsets card (mkJT cs []) (length cs) = Ok (jt, e) /\
    (e = NO_ERROR \/ (e = ENOMEM /\ length cs = 1)) /\
    length (sps jt) = length cs - 1 /\ is_tree jt /\ shape_ok card jt /\
    length (cls jt) = length cs /\
    (forall i, i < length cs -> Permutation (c_vars (clq jt i)) (nth i Ks [])) /\
    (forall s v, s < length (sps jt) -> (In v (s_vars (sep jt s)) <->
       In v (c_vars (clq jt (s_first (sep jt s)))) /\ In v (c_vars (clq jt (s_second (sep jt s)))))).
Proof.
  intros card Ks cs HC NE HN E HI.
  destruct (make_cliques_fresh card Ks cs HC (fun k Hk => proj2 (HN k Hk)) E) as [HF HFit].
  assert (L : length Ks = length cs) by (eapply (len_eq card); eauto).
  destruct (create_sepsets_tree card cs Ks (fun i => nth i Ks []) (fun i => i)) as
    (jt & e & E' & E1 & E2 & GT & L1 & HV & T & _); auto.
  { intros k Hk. destruct (HN k Hk). auto. }
  { intros ->. destruct Ks; [congruence|cbn in L; lia]. }
  destruct GT as (G1 & G2 & G3 & G4 & G5).
  exists jt, e. split; auto. split; auto. split; [lia|]. split; auto. split; auto. split; auto. split.
  - intros i Hi. apply NoDup_Permutation.
    + apply sorted_nodup. apply G4. lia.
    + apply HN. apply nth_In. lia.
    + intros v. apply HV; auto.
  - intros s v Hs. apply G5; auto.
Qed.

(** ** The whole construction *)
Lemma to_cliques_lemma : forall k1 k2 card iface g vs, graph_ok g vs -> vs <> [] ->
  (forall v, ~ arc g v v) -> (forall v, 0 < card v) ->
  (Z.of_nat (length vs * (length vs - 1)) <= INT_MAX)%Z ->
  exists gt, triangulated k1 k2 iface g = Ok gt /\
    graph_ok gt vs /\
    (forall u v, In u vs -> In v vs -> u <> v -> joined iface g u v -> arc gt u v) /\
    (forall S, S <> [] -> incl S vs ->
       exists v, In v S /\ forall u w, In u S -> In w S -> u <> w -> arc gt v u -> arc gt v w -> arc gt u w) /\
    ((forall c, NoDup c -> incl c vs -> complete gt c -> fits card c) ->
       exists jt e, graph_to_cliques k1 k2 card iface g = Ok (jt, e)) /\
    forall jt e, graph_to_cliques k1 k2 card iface g = Ok (jt, e) ->
      (e = NO_ERROR \/ (e = ENOMEM /\ length (cls jt) = 1)) /\
      good_tree card jt /\ running_intersection jt /\
      length (cls jt) <= length vs /\ 0 < length (cls jt) /\
      (forall i, i < length (cls jt) -> incl (c_vars (clq jt i)) vs /\ complete gt (c_vars (clq jt i))) /\
      (forall S, S <> [] -> incl S vs -> complete gt S ->
         exists i, i < length (cls jt) /\ incl S (c_vars (clq jt i))) /\
      (forall i j, i < length (cls jt) -> j < length (cls jt) ->
         incl (c_vars (clq jt i)) (c_vars (clq jt j)) -> i = j).
Proof.
  intros k1 k2 card iface g vs HG NE IR HC HI.
  destruct (triangulated_ok k1 k2 iface g vs HG NE IR) as (gt & cs & kl & E1 & O & R & LC & KP & EQ).
  exists gt. split; auto. split; auto.
  set (K := fun a => nth a cs []) in *. set (Ks := map K kl).
  assert (NV : NoDup vs) by apply HG.
  assert (KA : forall k, In k Ks -> In k cs).
  { intros k Hk. apply in_map_iff in Hk. destruct Hk as (a & <- & Ha). apply nth_In.
    apply (keeps_lt _ _ _ KP); auto. }
  assert (KG : forall k, In k Ks -> k <> [] /\ NoDup k /\ incl k vs /\ complete gt k).
  { intros k Hk. apply KA in Hk. split; [|split; [|split]].
    - intros ->. apply (In_nth _ _ []) in Hk. destruct Hk as (i & Hi & Q).
      assert (W := run_head_in _ _ _ _ _ R i Hi). rewrite Q in W. destruct W.
    - apply (run_nodup _ _ _ _ _ R); auto.
    - apply (run_members _ _ _ _ _ R); auto.
    - intros u w Hu Hw N. apply (run_complete _ _ _ _ _ R k); auto. }
  assert (RV : map (fun a => nth a cs []) (rev kl) = rev Ks) by (unfold Ks; rewrite map_rev; reflexivity).
  assert (LK : length Ks = length kl) by apply map_length.
  assert (KLE : length kl <= length vs) by (assert (Q := keeps_length _ _ _ KP); lia).
  assert (KL0 : 0 < length kl).
  { destruct (keeps_rep _ _ _ KP 0) as (i & Hi & _); [|lia]. rewrite LC. destruct vs; [congruence|cbn; lia]. }
  assert (FIT : (forall k, In k Ks -> fits card k) -> exists jt e (E : list (nat * nat)),
    graph_to_cliques k1 k2 card iface g = Ok (jt, e) /\
    (e = NO_ERROR \/ (e = ENOMEM /\ length (cls jt) = 1)) /\
    good_tree card jt /\ length (cls jt) = length kl /\
    (forall i v, i < length kl -> (In v (c_vars (clq jt i)) <-> In v (nth i Ks []))) /\
    running_intersection jt /\ length E = length kl - 1).
  { intros FI. rewrite EQ. fold K in RV. rewrite RV.
    destruct (clique_array_ok card vs HC NV (rev Ks) []) as (out & E2 & F2).
    { intros k Hk. apply in_rev in Hk. destruct (KG k Hk) as (_ & Q1 & Q2 & _). auto. }
    rewrite app_nil_r in E2. rewrite rev_involutive in F2. rewrite E2. cbn [bind].
    assert (LO : length Ks = length out) by (eapply (len_eq card); eauto).
    destruct (create_sepsets_tree card out Ks K (fun i => nth i kl 0)) as
      (jt & e & E & E3 & E4 & GT & L1 & HV & T & G & LE); auto.
    { intros k Hk. destruct (KG k Hk) as (Q0 & Q1 & _). auto. }
    { intros i Hi. unfold Ks. rewrite (nth_map _ _ _ _ _ 0) by lia. reflexivity. }
    { intros ->. cbn in LO. lia. }
    { assert (length out <= length vs) by lia.
      assert (length out * (length out - 1) <= length vs * (length vs - 1)) by nia. lia. }
    exists jt, e, E. split; auto. rewrite L1. split; auto. split; auto. split; [lia|].
    split; [intros i v Hi; apply HV; lia|]. split; [|lia].
    assert (HN : forall k, In k Ks -> k <> [] /\ NoDup k /\ fits card k).
    { intros k Hk. destruct (KG k Hk) as (Q0 & Q1 & _). auto. }
    assert (LL : length out = length kl) by lia.
    refine (tree_rip card out Ks F2 K (fun i => nth i kl 0) jt E _ T LE _ _).
    + intros i Hi. unfold Ks. rewrite (nth_map _ _ _ _ _ 0) by lia. reflexivity.
    + lia.
    + rewrite LL in *. intros v i j Hi Hj.
      apply (kept_rip _ _ _ _ kl R KP NE E G LE v i j Hi Hj). }
  split; [|split; [|split]].
  - intros u v Hu Hv N J. apply (run_grows _ _ _ _ _ R). auto.
  - apply (run_simplicial _ _ _ _ R).
  - intros FA. destruct FIT as (jt & e & E & Q & _); [|eauto].
    intros k Hk. destruct (KG k Hk) as (_ & Q1 & Q2 & Q3). apply FA; auto.
  - intros jt e HJ.
    assert (FK : forall k, In k Ks -> fits card k).
    { rewrite EQ in HJ. fold K in RV. rewrite RV in HJ. inv_as HJ out Eo. intros k Hk.
      apply (clique_array_fits card vs NV (rev Ks) [] out).
      - intros k' Hk'. apply in_rev in Hk'. destruct (KG k' Hk') as (_ & Q1 & Q2 & _). auto.
      - exact Eo.
      - apply in_rev. now rewrite rev_involutive. }
    destruct (FIT FK) as (jt' & e' & E & HJ' & E4 & GT & L1 & HV & RI & LE).
    rewrite HJ' in HJ. inversion HJ; subst jt' e'. clear HJ.
    split; auto. split; auto. split; auto. rewrite L1. split; auto. split; auto.
    assert (KI : forall i, i < length kl -> In (nth i Ks []) Ks) by (intros; apply nth_In; lia).
    split; [|split].
    + intros i Hi. destruct (KG _ (KI i Hi)) as (_ & _ & Q2 & Q3). split.
      * intros v Hv. apply Q2. apply HV; auto.
      * intros u w Hu Hw. apply Q3; apply HV; auto.
    + intros S NS IS CS. destruct (run_cover_filled _ _ _ _ R S NS IS CS) as (x & Hx & Q).
      destruct (keeps_rep _ _ _ KP x Hx) as (i & Hi & Q2). exists i. split; auto.
      intros v Hv. apply HV; auto. unfold Ks. rewrite (nth_map _ _ _ _ _ 0) by lia. apply Q2, Q; auto.
    + intros i j Hi Hj Q. apply (kept_maximal _ _ _ _ kl R KP i j Hi Hj).
      intros v Hv. assert (W := HV j v Hj). unfold Ks in W. rewrite (nth_map _ _ _ _ _ 0) in W by lia.
      apply W. apply Q. apply HV; auto. unfold Ks. rewrite (nth_map _ _ _ _ _ 0) by lia. exact Hv.
Qed.
