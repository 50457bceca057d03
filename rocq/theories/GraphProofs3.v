(** * Proofs about nipgraph.c: the cliques of the triangulated graph *)
From Coq Require Import Permutation Sorted.
From Verif Require Import Base BaseProofs PotentialModel PotentialSpec AssignSpec VariableModel
  VariableProofs HeapModel HeapSpec HeapProofs HeapProofs2 JoinTreeModel JoinTreeSpec GatherProofs
  GraphModel GraphSpec GraphProofs GraphTheory GraphTheory2 GraphProofs2 ReorderProofs.
Import ListNotations.
Open Scope nat_scope.
Local Open Scope res_scope.

(** ** nip_cluster_list_to_clique_array *)
Lemma select_vars_ok : forall vs c,
  select_vars (map Some vs) (set_of vs c) (length vs) = Ok (filter (fun v => memb v c) vs).
Proof.
  intros vs c. unfold select_vars.
  match goal with |- for_up 0 (length vs) ?b0 ?s0 = _ =>
    destruct (for_up_inv (list nat) (fun t l => l = filter (fun v => memb v c) (firstn t vs))
      b0 0 (length vs) s0) as (l & E & Q)
  end.
  - lia.
  - reflexivity.
  - intros i l Hi ->.
    assert (FS : firstn (S i) vs = firstn i vs ++ [nth i vs 0]).
    { destruct Hi as [_ Hi]. clear -Hi. revert i Hi.
      induction vs as [|x vs IH]; intros [|i] Hi; cbn in *; try lia; auto. f_equal. apply IH; lia. }
    rewrite FS, filter_app. cbn [filter].
    unfold set_of. rewrite (rd_ok _ _ _ false) by (rewrite map_length; lia). cbn [bind].
    rewrite (nth_map _ _ _ _ _ 0) by lia.
    destruct (memb (nth i vs 0) c).
    + rewrite (rd_ok _ _ _ None) by (rewrite map_length; lia). cbn [bind].
      rewrite (nth_map _ _ _ _ _ 0) by lia. eauto.
    + rewrite app_nil_r. eauto.
  - rewrite E, Q, firstn_all. reflexivity.
Qed.

(** A clique just made from the members of [K]. *)
Definition fresh (card : nat -> nat) (c : clique) (K : list nat) : Prop :=
  exists cv, c = mkClique cv (ones card cv) (ones card cv) [] false /\
    StronglySorted lt cv /\ (forall v, In v cv <-> In v K).

Lemma select_perm : forall vs K, NoDup vs -> NoDup K -> incl K vs ->
  Permutation (filter (fun v => memb v K) vs) K.
Proof.
  intros vs K NV NK I. apply NoDup_Permutation; auto; [apply NoDup_filter; auto|].
  intros x. rewrite filter_In, memb_in. split; [tauto|]. auto.
Qed.

Lemma clique_array_ok : forall card vs, (forall v, 0 < card v) -> NoDup vs ->
  forall Ks filled, (forall K, In K Ks -> NoDup K /\ incl K vs /\ fits card K) ->
  exists out, cluster_list_to_clique_array card (map (set_of vs) Ks) (map Some vs) (length vs) filled
      = Ok (out ++ filled) /\ Forall2 (fresh card) out (rev Ks).
Proof.
  intros card vs HC NV. induction Ks as [|K Ks IH]; intros filled HK; cbn [map cluster_list_to_clique_array].
  - exists []. split; auto. constructor.
  - destruct (HK K (or_introl eq_refl)) as (NK & IK & FK).
    assert (P := select_perm vs K NV NK IK).
    rewrite select_vars_ok. cbn [bind].
    destruct (new_clique_ok card (filter (fun v => memb v K) vs)) as (cv & P1 & S1 & E1).
    + auto.
    + apply NoDup_filter; auto.
    + rewrite (prod_perm _ _ (Permutation_map card P)). exact FK.
    + rewrite E1. cbn [bind].
      destruct (IH (mkClique cv (ones card cv) (ones card cv) [] false :: filled)) as (out & E & F).
      { intros K' HK'. apply HK. right; auto. }
      rewrite E. exists (out ++ [mkClique cv (ones card cv) (ones card cv) [] false]).
      split; [now rewrite <- app_assoc|]. cbn [rev]. apply Forall2_app; auto.
      constructor; [|constructor]. exists cv. split; auto. split; auto.
      intros v. rewrite <- (Permutation_in' eq_refl P). split; apply Permutation_in; auto using Permutation_sym.
Qed.

Lemma clique_array_fits : forall card vs, NoDup vs ->
  forall Ks filled out, (forall K, In K Ks -> NoDup K /\ incl K vs) ->
  cluster_list_to_clique_array card (map (set_of vs) Ks) (map Some vs) (length vs) filled = Ok out ->
  forall K, In K Ks -> fits card K.
Proof.
  intros card vs NV. induction Ks as [|K Ks IH]; intros filled out HK E K' HK'; [destruct HK'|].
  cbn [map cluster_list_to_clique_array] in E. rewrite select_vars_ok in E. cbn [bind] in E.
  inv_as E c Ec. destruct (HK K (or_introl eq_refl)) as (NK & IK).
  assert (P := select_perm vs K NV NK IK).
  destruct HK' as [<-|HK'].
  - apply new_clique_fits in Ec; [|apply NoDup_filter; auto].
    unfold fits. now rewrite <- (prod_perm _ _ (Permutation_map card P)).
  - destruct c as [c|]; [|discriminate E]. apply IH with (2 := E); auto.
    intros K2 HK2. apply HK. right; auto.
Qed.

(** ** nip_graph_to_cliques up to the sepsets *)
Lemma joined_ok : forall iface g vs, graph_ok g vs -> (forall v, ~ arc g v v) ->
  exists gu, (let* gm := moralise_graph g in
              let* gi := add_interface_edges iface gm in
              make_graph_undirected gi) = Ok gu /\ graph_ok gu vs /\
    forall u v, arc gu u v <-> In u vs /\ In v vs /\ u <> v /\ joined iface g u v.
Proof.
  intros iface g vs H IR.
  destruct (C22_lemma g vs H) as (gm & E1 & O1 & A1). rewrite E1. cbn [bind].
  destruct (C23_lemma iface gm vs O1) as (gi & E2 & O2 & A2). rewrite E2. cbn [bind].
  destruct (C24_lemma gi vs O2) as (gu & E3 & O3 & A3). rewrite E3.
  exists gu. split; auto. split; auto. intros u v. rewrite A3, !A2, !A1. unfold joined.
  assert (I : forall a b, arc g a b -> In a vs /\ In b vs /\ a <> b).
  { intros a b Q. destruct (arc_in vs g H a b Q). split; auto. split; auto. intros ->. exact (IR b Q). }
  split.
  - intros [[[Q|(N & w & Q1 & Q2)]|(Iu & Iv & N & Q)]|[[Q|(N & w & Q1 & Q2)]|(Iu & Iv & N & Q)]].
    + destruct (I _ _ Q) as (? & ? & ?). split; [auto|]. split; [auto|]. split; [auto|]. auto.
    + destruct (I _ _ Q1) as (? & ? & ?), (I _ _ Q2) as (? & ? & ?).
      split; [auto|]. split; [auto|]. split; [auto|]. right; right; left. eauto.
    + split; [auto|]. split; [auto|]. split; [auto|]. auto.
    + destruct (I _ _ Q) as (? & ? & ?). split; [auto|]. split; [auto|]. split; [auto|]. auto.
    + destruct (I _ _ Q1) as (? & ? & ?), (I _ _ Q2) as (? & ? & ?).
      split; [auto|]. split; [auto|]. split; [auto|]. right; right; left. eauto.
    + split; [auto|]. split; [auto|]. split; [auto|]. tauto.
  - intros (Iu & Iv & N & [Q|[Q|[Q|Q]]]).
    + left; left; left. exact Q.
    + right; left; left. exact Q.
    + left; left; right. auto.
    + left; right. auto.
Qed.

Lemma triangulated_ok : forall k1 k2 iface g vs, graph_ok g vs -> vs <> [] -> (forall v, ~ arc g v v) ->
  exists gt cs kl,
    triangulated k1 k2 iface g = Ok gt /\ graph_ok gt vs /\
    run (fun u v => In u vs /\ In v vs /\ u <> v /\ joined iface g u v) vs cs (arc gt) [] /\
    length cs = length vs /\ keeps (fun a => nth a cs []) (length cs) kl /\
    forall card, graph_to_cliques k1 k2 card iface g =
      (let* out := cluster_list_to_clique_array card
                     (map (set_of vs) (map (fun a => nth a cs []) (rev kl)))
                     (map Some vs) (length vs) [] in
       create_sepsets card (mkJT out []) (length out)).
Proof.
  intros k1 k2 iface g vs H NE IR. unfold triangulated, graph_to_cliques, triangulate_graph.
  destruct (joined_ok iface g vs H IR) as (gu & E & O & A).
  assert (G : forall (X : Type) (f : graph -> res X),
    (let* gm := moralise_graph g in let* gi := add_interface_edges iface gm in
     let* gu := make_graph_undirected gi in f gu) = f gu).
  { intros X f. revert E. destruct (moralise_graph g) as [gm| |]; cbn [bind]; try discriminate.
    destruct (add_interface_edges iface gm) as [gi| |]; cbn [bind]; try discriminate.
    intros ->. reflexivity. }
  rewrite G.
  assert (IR1 : forall u, ~ arc gu u u) by (intros u Q; apply A in Q; tauto).
  assert (SY1 : forall u w, arc gu u w -> arc gu w u).
  { intros u w Q. apply A in Q. apply A. destruct Q as (Iu & Iw & N & Q).
    split; [auto|]. split; [auto|]. split; [auto|]. unfold joined in *.
    destruct Q as [Q|[Q|[(x & Q1 & Q2)|Q]]]; auto; [|tauto]. right; right; left; eauto. }
  destruct (build_cluster_heap_ok k1 k2 vs gu O NE IR1) as (h & M & g1 & E1 & S1 & F1 & O1 & J1 & LM & C1).
  rewrite E1. cbn [bind].
  assert (AS := arc_same vs gu g1 O O1 J1).
  destruct (eliminate_ok k1 k2 vs g1 h M) as (cs & kl & gt & E2 & O2 & R2 & L2 & K2); auto.
  { intros u Q. apply AS in Q. exact (IR1 _ Q). }
  { intros u w Q. apply AS in Q. apply AS. auto. }
  { destruct C1 as [c1 c2 c3]. constructor; auto. intros c Hc.
    destruct (c3 c Hc) as (Q & w & l & -> & Q2). split; auto. exists w, l. split; auto.
    intros u. rewrite Q2, AS. tauto. }
  rewrite (gk_size _ _ O1), E2. cbn [bind].
  exists gt, cs, kl. split; auto. split; auto. split; [|split; [auto|split; [auto|]]].
  - clear -R2 AS A NE. revert R2. generalize (arc gt). intros B R2.
    inversion R2 as [A0 rem Q1 Q2|A0 rem v l A1 rem1 cs1 A2 rem2 S R]; subst.
    + congruence.
    + eapply run_step; [|exact R]. destruct S as [s1 s2 s3 s4 s5]. constructor; auto.
      * intros u. rewrite s3, AS, A. tauto.
      * intros u w. rewrite s4. unfold fill. rewrite AS, A. tauto.
  - intros card. rewrite G. rewrite E1. cbn [bind]. rewrite (gk_size _ _ O1), E2. cbn [bind].
    rewrite (gk_vars _ _ O2), (gk_size _ _ O2), map_map.
    match goal with |- context [cluster_list_to_clique_array ?a ?b ?c ?d ?e] =>
      destruct (cluster_list_to_clique_array a b c d e); reflexivity end.
Qed.
