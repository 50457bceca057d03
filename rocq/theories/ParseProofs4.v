(** * Proofs about node declarations, the graph and the interfaces *)
From Coq Require Import Permutation Sorted String.
From Verif Require Import Base BaseProofs PotentialModel PotentialSpec PotentialProofs
  VariableModel VariableProofs JoinTreeModel AssignSpec JoinTreeSpec NipModel NipSpec NipProofs NipProofs3 SliceModel SliceSpec
  LearnModel LearnSpec GraphModel GraphSpec GraphProofs HeapProofs ParseModel ParseSpec ParseProofs ParseProofs3.
Import ListNotations.
Open Scope nat_scope.
Local Open Scope res_scope.
Local Notation len := List.length.

(** ** Nodes *)
Definition mkvar (c : Z) (d : node_decl) : pvar :=
  mkPV (mkNamed c (Some (variable_text (nd_symbol d))) (len (states d))
         (Names (map variable_text (states d))) (repeat 1%Qc (len (states d)))) None None [] 0.
Fixpoint mkvars (c : Z) (l : list node_decl) : list pvar :=
  match l with [] => [] | d :: l => mkvar c d :: mkvars (c + 1) l end.
Fixpoint mkrels (i : nat) (l : list node_decl) : list (nat * string) :=
  match l with
  | [] => []
  | d :: l => match nd_next d with Some s => [(i, s)] | None => [] end ++ mkrels (S i) l
  end.
Definition ptr {A} (l : list A) : pointer (list A) := match l with [] => Null | _ => Live l end.

Lemma append_ptr : forall A (l : list A) x, append_to (ptr l) x = Ok (ptr (l ++ [x])).
Proof. intros A [|y l] x; reflexivity. Qed.
Lemma ptr_snoc : forall A (l : list A) x, ptr (l ++ [x]) = Live (l ++ [x]).
Proof. intros A [|y l] x; reflexivity. Qed.

Lemma node_declarations_ok : forall l c lab vl rl ps,
  (forall d, In d l -> nd_states d <> None /\ states d <> []) ->
  (forall l1 d1 l2 d2 l3, l = l1 ++ d1 :: l2 ++ d2 :: l3 -> nd_label d1 <> None -> nd_label d2 <> None) ->
  (lab = Null \/ (lab = Freed /\ forall d, In d l -> nd_label d <> None)) ->
  (c + Z.of_nat (len l) <= LONG_MAX)%Z ->
  exists lab', node_declarations (mkGlobals c lab (ptr vl) (ptr rl) ps) l =
    Ok (Some (mkGlobals (c + Z.of_nat (len l)) lab' (ptr (vl ++ mkvars c l)) (ptr (rl ++ mkrels (len vl) l)) ps)).
Proof.
  induction l as [|d l IH]; intros c lab vl rl ps ST LB LA CC; cbn [node_declarations mkvars mkrels].
  - exists lab. cbn [len]. rewrite Z.add_0_r, !app_nil_r. reflexivity.
  - cbn [len] in CC. rewrite Nat2Z.inj_succ in CC.
    destruct (ST d (or_introl eq_refl)) as (S1 & S2).
    assert (ES : nd_states d = Some (states d)) by (unfold states; destruct (nd_states d); congruence).
    unfold node_declaration. cbn [g_label g_counter g_parsed g_relations g_potentials].
    assert (EL : exists lab2, lab2 <> Freed /\ match nd_label d with Some s => Ok (Live s) | None => Ok lab end = Ok lab2 /\
       (nd_label d = None -> lab2 = Null)  /\ (forall s, nd_label d = Some s -> lab2 = Live s)).
    { destruct (nd_label d) as [s|] eqn:E.
      - exists (Live s). split; [discriminate|]. split; auto. split; [discriminate|]. intros s' W. congruence.
      - destruct LA as [->|(-> & H)]; [|exfalso; apply (H d); auto; left; auto].
        exists Null. split; [discriminate|]. split; auto. split; auto. discriminate. }
    destruct EL as (lab2 & NF & -> & L1 & L2). cbn [bind].
    rewrite ES. destruct (states d) as [|s0 sr] eqn:E0; [congruence|]. rewrite <- E0. cbn [bind].
    assert (EN : exists lab3, match lab2 with Null => Ok (@Null string) | Live _ => Ok Freed | Freed => UB end = Ok lab3 /\
       (lab3 = Null \/ (lab3 = Freed /\ nd_label d <> None))).
    { destruct lab2 as [|s|].
      - exists Null. auto.
      - exists Freed. split; auto. right. split; auto. intros W. specialize (L1 W). discriminate.
      - congruence. }
    destruct EN as (lab3 & -> & L3). cbn [bind].
    rewrite new_variable_ok by lia. cbn [bind option_map]. rewrite append_ptr. cbn [bind]. rewrite ptr_snoc.
    rewrite app_length. cbn [len]. rewrite Nat.add_sub.
    match goal with |- context [vl ++ [?x]] => change x with (mkvar c d) end.
    assert (LB' : forall l1 d1 l2 d2 l3, l = l1 ++ d1 :: l2 ++ d2 :: l3 -> nd_label d1 <> None -> nd_label d2 <> None).
    { intros l1 d1 l2 d2 l3 E. apply (LB (d :: l1) d1 l2 d2 l3). now rewrite E. }
    assert (LA' : lab3 = Null \/ (lab3 = Freed /\ forall d, In d l -> nd_label d <> None)).
    { destruct L3 as [->|(-> & W)]; auto. right. split; auto. intros d2 H. apply in_split in H. destruct H as (l2 & l3 & ->).
      apply (LB [] d l2 d2 l3); auto. }
    assert (ST' : forall d, In d l -> nd_states d <> None /\ states d <> []) by (intros; apply ST; right; auto).
    rewrite Nat2Z.inj_succ. replace (c + Z.succ (Z.of_nat (len l)))%Z with ((c + 1) + Z.of_nat (len l))%Z by lia.
    replace (vl ++ mkvar c d :: mkvars (c + 1) l) with ((vl ++ [mkvar c d]) ++ mkvars (c + 1) l) by (rewrite <- app_assoc; reflexivity).
    destruct (nd_next d) as [s|].
    + rewrite append_ptr. cbn [bind]. rewrite <- ptr_snoc.
      destruct (IH (c + 1)%Z lab3 (vl ++ [mkvar c d]) (rl ++ [(len vl, s)]) ps ST' LB' LA' ltac:(lia)) as (lab' & E).
      exists lab'. rewrite E. rewrite app_length. cbn [len]. rewrite Nat.add_1_r, <- !app_assoc. reflexivity.
    + cbn [bind app]. rewrite <- ptr_snoc.
      destruct (IH (c + 1)%Z lab3 (vl ++ [mkvar c d]) rl ps ST' LB' LA' ltac:(lia)) as (lab' & E).
      exists lab'. rewrite E. rewrite app_length. cbn [len]. rewrite Nat.add_1_r. reflexivity.
Qed.

Lemma mkvars_nth : forall l c v, nth_error (mkvars c l) v =
  option_map (mkvar (c + Z.of_nat v)) (nth_error l v).
Proof.
  induction l as [|d l IH]; intros c [|v]; cbn [mkvars nth_error option_map]; auto.
  - now rewrite Z.add_0_r.
  - rewrite IH. rewrite Nat2Z.inj_succ. replace (c + 1 + Z.of_nat v)%Z with (c + Z.succ (Z.of_nat v))%Z by lia. reflexivity.
Qed.
Lemma mkvars_length : forall l c, len (mkvars c l) = len l.
Proof. induction l; intros; cbn; auto. Qed.
Lemma mkrels_in : forall l i u s, In (u, s) (mkrels i l) <->
  exists d, i <= u /\ nth_error l (u - i) = Some d /\ nd_next d = Some s.
Proof.
  induction l as [|d l IH]; intros i u s; cbn [mkrels].
  - split; [intros []|]. intros (d & _ & H & _). destruct (u - i); discriminate.
  - rewrite in_app_iff, IH. split.
    + intros [H|(d' & H1 & H2 & H3)].
      * destruct (nd_next d) as [s'|] eqn:E; [|destruct H]. destruct H as [H|[]]. injection H as -> ->.
        exists d. rewrite Nat.sub_diag. auto.
      * exists d'. split; [lia|]. replace (u - i) with (S (u - S i)) by lia. auto.
    + intros (d' & H1 & H2 & H3). destruct (Nat.eq_dec u i) as [->|N].
      * left. rewrite Nat.sub_diag in H2. injection H2 as ->. rewrite H3. left. auto.
      * right. exists d'. split; [lia|]. replace (u - i) with (S (u - S i)) in H2 by lia. auto.
Qed.
Lemma mkrels_fst : forall l i, NoDup (map fst (mkrels i l)).
Proof.
  induction l as [|d l IH]; intros i; cbn [mkrels]; [constructor|]. rewrite map_app.
  destruct (nd_next d); cbn; auto. constructor; auto. intros H. apply in_map_iff in H. destruct H as ([u s'] & E & H).
  cbn in E. subst u. apply mkrels_in in H. destruct H as (_ & H & _). lia.
Qed.

(** ** Records of variables *)
Definition pv0 : pvar := mkPV (mkNamed 0 None 1 NamesNull []) None None [] 0.
Definition pv (vl : list pvar) (v : nat) : pvar := nth v vl pv0.
(** Everything but parents, next, previous and the status. *)
Lemma rd_pv : forall vl v, v < len vl -> rd vl v = Ok (pv vl v).
Proof. intros. unfold pv. now apply rd_ok. Qed.
Lemma pv_set : forall vl v x w, v < len vl -> pv (set_nth vl v x) w = if Nat.eqb w v then x else pv vl w.
Proof. intros. unfold pv. now rewrite nth_set_nth. Qed.

(** ** The graph *)
Lemma vars_to_graph_ok : forall vs g g', add_nodes g vs = Ok (g', NO_ERROR) ->
  vars_to_graph g vs = Ok (Some g').
Proof.
  induction vs as [|v vs IH]; intros g g' H; cbn [add_nodes vars_to_graph] in *.
  - injection H as ->. reflexivity.
  - destruct (graph_add_node g v) as [[g1 e]| |]; cbn [bind] in *; try discriminate.
    destruct (is_err e) eqn:E; [injection H as -> ->; discriminate E|]. now apply IH.
Qed.
Lemma add_arcs_app : forall l1 l2 g g', add_arcs g (l1 ++ l2) = Ok (g', NO_ERROR) ->
  exists g1, add_arcs g l1 = Ok (g1, NO_ERROR) /\ add_arcs g1 l2 = Ok (g', NO_ERROR).
Proof.
  induction l1 as [|[u v] l1 IH]; intros l2 g g' H; cbn [app add_arcs] in *.
  - eauto.
  - destruct (graph_add_child g u v) as [[g1 e]| |]; cbn [bind] in *; try discriminate.
    destruct (is_err e) eqn:E; [injection H as -> ->; discriminate E|]. now apply IH.
Qed.
Lemma add_arcs_snoc : forall l u v g g', add_arcs g (l ++ [(u, v)]) = Ok (g', NO_ERROR) ->
  exists g1, add_arcs g l = Ok (g1, NO_ERROR) /\ graph_add_child g1 u v = Ok (g', NO_ERROR).
Proof.
  intros l u v g g' H. apply add_arcs_app in H. destruct H as (g1 & E1 & E2). exists g1. split; auto.
  cbn [add_arcs] in E2. destruct (graph_add_child g1 u v) as [[g2 e]| |]; cbn [bind] in *; try discriminate.
  destruct (is_err e) eqn:E; [|exact E2 || (destruct e; try discriminate; congruence)].
  injection E2 as -> ->. discriminate E.
Qed.

(** [e] with no error is NO_ERROR. *)
Lemma arcs_loop : forall (parents : list nat) child g g' n, n <= len parents ->
  add_arcs g (map (fun u => (u, child)) (firstn n parents)) = Ok (g', NO_ERROR) ->
  for_up 0 n
    (fun i r =>
       match r with
       | None => Ok None
       | Some g =>
           let* u := rd parents i in
           let* (g, e) := graph_add_child g u child in
           if is_err e then Ok None else Ok (Some g)
       end) (Some g) = Ok (Some g').
Proof.
  intros parents child g g' n. revert g'. induction n as [|n IH]; intros g' Hn H.
  - cbn in H. injection H as ->. reflexivity.
  - rewrite (firstn_S_nth _ parents n 0), map_app in H by lia. cbn [map] in H.
    apply add_arcs_snoc in H. destruct H as (g1 & E1 & E2).
    rewrite for_up_snoc by lia. rewrite (IH g1) by (auto; lia). cbn [bind].
    rewrite (rd_ok _ parents n 0) by lia. cbn [bind]. rewrite E2. reflexivity.
Qed.
Lemma copy_loop : forall (parents : list nat) n, n = len parents ->
  for_up 0 n (fun i l => let* u := rd parents i in wr l i u) (repeat 0 n) = Ok parents.
Proof.
  intros parents n ->.
  match goal with |- context [for_up 0 ?k ?b0 ?s0] =>
    destruct (for_up_inv (list nat) (fun t l => len l = len parents /\ forall j, j < t -> nth j l 0 = nth j parents 0) b0 0 k s0)
      as (l & E & L & Q) end.
  - lia.
  - rewrite repeat_length. split; auto. intros; lia.
  - intros i l Hi (L & Q). rewrite (rd_ok _ parents i 0) by lia. cbn [bind]. rewrite wr_ok by lia.
    eexists. split; [reflexivity|]. rewrite set_nth_length. split; auto. intros j Hj. rewrite nth_set_nth by lia.
    destruct (Nat.eqb_spec j i) as [->|]; auto. apply Q. lia.
  - rewrite E. f_equal. apply (list_ext_nth _ 0); auto. intros j Hj. apply Q. lia.
Qed.

Section Net.
Variable t : net.
Hypothesis NO : net_ok t.

Lemma pot_dim : forall d p, pot_means t d p -> dimensionality (pp_data p) - 1 = len (parents_of t d).
Proof.
  intros d p (_ & _ & vs & P & _ & T & _). unfold dimensionality. destruct T as (_ & _ & ->).
  rewrite map_length, (Permutation_length P). cbn. lia.
Qed.

Lemma potentials_to_graph_ok : forall ds ps, Forall2 (pot_means t) ds ps ->
  forall g g' vl, (forall d, In d ds -> child_of t d < len vl) -> NoDup (map (child_of t) ds) ->
  add_arcs g (flat_map (fun d => map (fun u => (u, child_of t d)) (parents_of t d)) ds) = Ok (g', NO_ERROR) ->
  exists vl', potentials_to_graph g vl ps = Ok (Some (g', vl')) /\ len vl' = len vl /\
    (forall d, In d ds -> pv vl' (child_of t d) = set_parents (pv vl (child_of t d)) (parents_of t d)) /\
    (forall v, ~ In v (map (child_of t) ds) -> pv vl' v = pv vl v).
Proof.
  induction 1 as [|d p ds ps M F IH]; intros g g' vl HC ND H.
  - cbn in *. injection H as ->. exists vl. split; auto. split; auto. split; [intros d []|auto].
  - cbn [flat_map] in H. apply add_arcs_app in H. destruct H as (g1 & E1 & E2).
    cbn [potentials_to_graph]. rewrite (pot_dim d p M). destruct M as (M1 & M2 & _). rewrite M1, M2.
    rewrite (arcs_loop _ _ g g1) by (auto; now rewrite firstn_all). cbn [bind].
    rewrite copy_loop by auto. cbn [bind].
    assert (C0 : child_of t d < len vl) by (apply HC; left; auto).
    rewrite rd_pv by auto. cbn [bind]. rewrite wr_ok by auto. cbn [bind].
    inversion ND as [|? ? N1 ND']; subst.
    destruct (IH g1 g' (set_nth vl (child_of t d) (set_parents (pv vl (child_of t d)) (parents_of t d)))) as (vl' & E & L & A & B); auto.
    { intros x Hx. rewrite set_nth_length. apply HC. right. auto. }
    exists vl'. split; auto. rewrite set_nth_length in L. split; auto. split.
    + intros x [<-|Hx].
      * rewrite B by auto. rewrite pv_set by auto. now rewrite Nat.eqb_refl.
      * rewrite A by auto. rewrite pv_set by auto. destruct (Nat.eqb_spec (child_of t x) (child_of t d)) as [E3|]; auto.
        exfalso. apply N1. rewrite <- E3. now apply in_map.
    + intros v Hv. cbn in Hv. rewrite B by tauto. rewrite pv_set by auto. destruct (Nat.eqb_spec v (child_of t d)) as [->|]; auto.
      exfalso. apply Hv. left. auto.
Qed.

(** ** Relations *)
Lemma relations_ok : forall rl vl, vars_ok t vl -> NoDup (map fst rl) -> NoDup (map (fun r => number t (snd r)) rl) ->
  (forall u s, In (u, s) rl -> u < size t /\ In s (symbols t) /\ card_in t u = card_in t (number t s)) ->
  exists vl', relations_to_vars vl rl = Ok (Some vl') /\ vars_ok t vl' /\
    forall v, pv_named (pv vl' v) = pv_named (pv vl v) /\ pv_parents (pv vl' v) = pv_parents (pv vl v) /\
      pv_iface (pv vl' v) = pv_iface (pv vl v) /\
      (forall s, In (v, s) rl -> pv_next (pv vl' v) = Some (number t s)) /\
      (~ In v (map fst rl) -> pv_next (pv vl' v) = pv_next (pv vl v)) /\
      (forall u s, In (u, s) rl -> number t s = v -> pv_previous (pv vl' v) = Some u) /\
      (~ In v (map (fun r => number t (snd r)) rl) -> pv_previous (pv vl' v) = pv_previous (pv vl v)).
Proof.
  induction rl as [|[u s] rl IH]; intros vl VL N1 N2 H; cbn [relations_to_vars].
  - exists vl. split; auto. split; auto. intros v. split; auto. split; auto. split; auto.
    split; [intros s []|]. split; auto. split; [intros u s []|auto].
  - destruct (H u s (or_introl eq_refl)) as (Hu & Hs & HE).
    destruct (search_ok t vl VL s Hs) as (-> & Hn). cbn [bind].
    rewrite !(cardp_in t vl VL), HE, Nat.eqb_refl.
    assert (LV : len vl = size t) by apply VL.
    rewrite rd_pv by lia. cbn [bind]. rewrite wr_ok by lia. cbn [bind].
    rewrite rd_pv by (rewrite set_nth_length; lia). cbn [bind]. rewrite wr_ok by (rewrite set_nth_length; lia). cbn [bind].
    set (v2 := number t s) in *. set (vl1 := set_nth vl u (set_next (pv vl u) (Some v2))).
    set (vl2 := set_nth vl1 v2 (set_previous (pv vl1 v2) (Some u))).
    assert (L1 : len vl1 = size t) by (unfold vl1; rewrite set_nth_length; auto).
    assert (P1 : forall w, pv vl1 w = if Nat.eqb w u then set_next (pv vl u) (Some v2) else pv vl w) by (intros; apply pv_set; lia).
    assert (P2 : forall w, pv vl2 w = if Nat.eqb w v2 then set_previous (pv vl1 v2) (Some u) else pv vl1 w) by (intros; apply pv_set; lia).
    assert (ST : forall w, pv_named (pv vl2 w) = pv_named (pv vl w) /\ pv_parents (pv vl2 w) = pv_parents (pv vl w) /\
        pv_iface (pv vl2 w) = pv_iface (pv vl w)).
    { intros w. rewrite P2. destruct (Nat.eqb_spec w v2) as [->|]; cbn; rewrite P1.
      - destruct (Nat.eqb_spec v2 u) as [->|]; cbn; auto.
      - destruct (Nat.eqb_spec w u) as [->|]; cbn; auto. }
    assert (NX : forall w, pv_next (pv vl2 w) = if Nat.eqb w u then Some v2 else pv_next (pv vl w)).
    { intros w. rewrite P2. destruct (Nat.eqb_spec w v2) as [->|]; cbn; rewrite P1; [destruct (Nat.eqb_spec v2 u) as [->|]|destruct (Nat.eqb_spec w u) as [->|]]; auto. }
    assert (PX : forall w, pv_previous (pv vl2 w) = if Nat.eqb w v2 then Some u else pv_previous (pv vl w)).
    { intros w. rewrite P2. destruct (Nat.eqb_spec w v2) as [->|]; cbn; auto. rewrite P1. destruct (Nat.eqb_spec w u) as [->|]; auto. }
    assert (VL2 : vars_ok t vl2).
    { assert (L2 : len vl2 = size t) by (unfold vl2; rewrite set_nth_length; auto). split; auto.
      intros v x E. assert (Hv : v < len vl2) by (apply nth_error_Some; congruence).
      assert (x = pv vl2 v) as -> by (unfold pv; symmetry; now apply nth_error_nth).
      destruct (ST v) as (-> & _). apply (proj2 VL). unfold pv. apply nth_error_nth'. lia. }
    inversion N1 as [|? ? N1a N1b]; subst. inversion N2 as [|? ? N2a N2b]; subst.
    destruct (IH vl2 VL2 N1b N2b) as (vl' & E & V' & Q). { intros a b Hab. apply H. right. auto. }
    exists vl'. split; auto. split; auto. intros v. destruct (Q v) as (Q1 & Q2 & Q3 & Q4 & Q5 & Q6 & Q7).
    destruct (ST v) as (S1 & S2 & S3). split; [congruence|]. split; [congruence|]. split; [congruence|].
    split; [|split; [|split]].
    + intros s' [W|W]; [|now apply Q4]. injection W as -> ->. rewrite Q5 by auto. rewrite NX. now rewrite Nat.eqb_refl.
    + cbn. intros W. rewrite Q5 by tauto. rewrite NX. destruct (Nat.eqb_spec v u) as [->|]; auto. exfalso. apply W. left. auto.
    + intros u' s' [W|W] Ev; [|now apply (Q6 u' s')]. injection W as -> ->. rewrite Q7 by (rewrite <- Ev; exact N2a). rewrite PX. fold v2 in Ev. rewrite <- Ev. now rewrite Nat.eqb_refl.
    + cbn. intros W. rewrite Q7 by tauto. rewrite PX. destruct (Nat.eqb_spec v v2) as [->|]; auto. exfalso. apply W. left. auto.
Qed.
End Net.

(** ** Classification *)
(** Same variables but for the status. *)
Definition same_static (vl vl' : list pvar) : Prop :=
  len vl' = len vl /\ forall v, pv_named (pv vl' v) = pv_named (pv vl v) /\ pv_next (pv vl' v) = pv_next (pv vl v) /\
    pv_previous (pv vl' v) = pv_previous (pv vl v) /\ pv_parents (pv vl' v) = pv_parents (pv vl v).
Lemma same_static_refl : forall vl, same_static vl vl.
Proof. intros vl. split; auto. Qed.
Lemma same_static_trans : forall a b c, same_static a b -> same_static b c -> same_static a c.
Proof.
  intros a b c (L1 & H1) (L2 & H2). split; [congruence|]. intros v.
  destruct (H1 v) as (A & B & C & D), (H2 v) as (A' & B' & C' & D'). repeat split; congruence.
Qed.
Definition bit (vl : list pvar) (v k : nat) : Prop := Nat.testbit (pv_iface (pv vl v)) k = true.

Lemma mark_ok : forall vl v b, v < len vl -> exists vl', mark_interface vl v (2 ^ b) = Ok vl' /\ same_static vl vl' /\
  forall w k, bit vl' w k <-> bit vl w k \/ (w = v /\ k = b).
Proof.
  intros vl v b Hv. unfold mark_interface. rewrite rd_pv by auto. cbn [bind]. rewrite wr_ok by auto.
  eexists. split; [reflexivity|]. split.
  - split; [apply set_nth_length|]. intros w. rewrite pv_set by auto. destruct (Nat.eqb_spec w v) as [->|]; cbn; auto.
  - intros w k. unfold bit. rewrite pv_set by auto. destruct (Nat.eqb_spec w v) as [->|N].
    + cbn [pv_iface add_status]. rewrite Nat.lor_spec, orb_true_iff, Nat.pow2_bits_eqb, Nat.eqb_eq. intuition.
    + split; [auto|]. intros [H|[H _]]; [auto|contradiction].
Qed.

Section Classify.
Variable vl0 : list pvar.
Local Notation next u := (pv_next (pv vl0 u)).
Local Notation parents v := (pv_parents (pv vl0 v)).
Hypothesis HP : forall v u, v < len vl0 -> In u (parents v) -> u < len vl0.
Hypothesis HN : forall v w, v < len vl0 -> next v = Some w -> w < len vl0.

(** The marks that the parents [ps] of [j] give rise to. *)
Definition marks1 (ps : list nat) (j v k : nat) : Prop :=
  exists u w, In u ps /\ next u = Some w /\ ((v = u /\ k = 2) \/ (v = w /\ k = 1) \/ (v = j /\ k = 0)).
Definition marks2 (ps : list nat) (v k : nat) : Prop := In v ps /\ next v = None /\ k = 0.
Definition old_parent (ps : list nat) : Prop := exists u, In u ps /\ next u <> None.
Definition marks (j v k : nat) : Prop :=
  marks1 (parents j) j v k \/ (old_parent (parents j) /\ marks2 (parents j) v k).

Lemma marks1_app : forall a b j v k, marks1 (a ++ b) j v k <-> marks1 a j v k \/ marks1 b j v k.
Proof.
  intros. unfold marks1. split.
  - intros (u & w & H & R). apply in_app_iff in H. destruct H; [left|right]; exists u, w; auto.
  - intros [(u & w & H & R)|(u & w & H & R)]; exists u, w; rewrite in_app_iff; auto.
Qed.
Lemma marks2_app : forall a b v k, marks2 (a ++ b) v k <-> marks2 a v k \/ marks2 b v k.
Proof. intros. unfold marks2. rewrite in_app_iff. tauto. Qed.
Lemma old_parent_app : forall a b, old_parent (a ++ b) <-> old_parent a \/ old_parent b.
Proof.
  intros. unfold old_parent. split.
  - intros (u & H & R). apply in_app_iff in H. destruct H; [left|right]; exists u; auto.
  - intros [(u & H & R)|(u & H & R)]; exists u; rewrite in_app_iff; auto.
Qed.

Lemma classify_ok : forall vl j, same_static vl0 vl -> j < len vl0 ->
  exists vl', classify vl j = Ok vl' /\ same_static vl0 vl' /\
    forall v k, bit vl' v k <-> bit vl v k \/ marks j v k.
Proof.
  intros vl j S Hj. unfold classify. assert (LV : len vl = len vl0) by apply S.
  rewrite rd_pv by lia. cbn [bind]. destruct (proj2 S j) as (_ & _ & _ & EP). rewrite EP.
  set (ps := parents j) in *.
  assert (PL : forall i, i < len ps -> nth i ps 0 < len vl0). { intros i Hi. apply (HP j); auto. apply nth_In. auto. }
  match goal with |- context [for_up 0 (len ps) ?b0 (vl, false)] =>
    destruct (for_up_inv (list pvar * bool)
      (fun i '(x, m) => same_static vl0 x /\ (m = true <-> old_parent (firstn i ps)) /\
         forall v k, bit x v k <-> bit vl v k \/ marks1 (firstn i ps) j v k) b0 0 (len ps) (vl, false))
      as ([x m] & E & S1 & M1 & B1) end.
  - lia.
  - split; auto. cbn [firstn]. split; [split; [discriminate|intros (u & [] & _)]|].
    intros v k. split; auto. intros [H|(u & w & [] & _)]; auto.
  - intros i [x m] Hi (S1 & M1 & B1). assert (Pi := PL i ltac:(lia)).
    rewrite (rd_ok _ ps i 0) by lia. cbn [bind]. set (u := nth i ps 0) in *.
    rewrite rd_pv by (rewrite (proj1 S1); auto). cbn [bind]. destruct (proj2 S1 u) as (_ & -> & _).
    rewrite (firstn_S_nth _ ps i 0) by lia. fold u.
    destruct (next u) as [w|] eqn:EN.
    + assert (Hw := HN u w Pi EN).
      change INTERFACE_OLD_OUTGOING with (2 ^ 2). change INTERFACE_OUTGOING with (2 ^ 1). change INTERFACE_INCOMING with (2 ^ 0).
      destruct (mark_ok x u 2) as (x1 & -> & T1 & C1). { rewrite (proj1 S1). auto. }
      cbn [bind]. assert (S2 := same_static_trans _ _ _ S1 T1).
      destruct (mark_ok x1 w 1) as (x2 & -> & T2 & C2). { rewrite (proj1 S2). auto. }
      cbn [bind]. assert (S3 := same_static_trans _ _ _ S2 T2).
      destruct (mark_ok x2 j 0) as (x3 & -> & T3 & C3). { rewrite (proj1 S3). auto. }
      cbn [bind]. eexists. split; [reflexivity|]. cbv beta iota. split; [eapply same_static_trans; eauto|]. split.
      * split; auto. intros _. apply old_parent_app. right. exists u. split; [left; auto|congruence].
      * intros v k. rewrite C3, C2, C1, B1, marks1_app. split.
        -- intros [[[[H|H]|H]|H]|H]; auto; right; right; exists u, w; (split; [left; auto|]; split; auto).
        -- intros [H|[H|(u' & w' & [<-|[]] & E2 & R)]]; auto. rewrite EN in E2. injection E2 as <-. tauto.
    + eexists. split; [reflexivity|]. cbv beta iota. split; auto. split.
      * rewrite M1, old_parent_app. split; auto. intros [H|(u' & [<-|[]] & W)]; auto. contradiction.
      * intros v k. rewrite B1, marks1_app. split; [tauto|]. intros [H|[H|(u' & w' & [<-|[]] & E2 & _)]]; auto. congruence.
  - rewrite E. cbn [bind]. rewrite firstn_all in M1, B1. destruct m.
    + match goal with |- context [for_up 0 (len ps) ?b0 x] =>
        destruct (for_up_inv (list pvar)
          (fun i y => same_static vl0 y /\ forall v k, bit y v k <-> bit x v k \/ marks2 (firstn i ps) v k) b0 0 (len ps) x)
          as (y & E2 & S2 & B2) end.
      * lia.
      * split; auto. intros v k. cbn [firstn]. unfold marks2. cbn [In]. tauto.
      * intros i y Hi (S2 & B2). assert (Pi := PL i ltac:(lia)).
        rewrite (rd_ok _ ps i 0) by lia. cbn [bind]. set (u := nth i ps 0) in *.
        rewrite rd_pv by (rewrite (proj1 S2); auto). cbn [bind]. destruct (proj2 S2 u) as (_ & -> & _).
        rewrite (firstn_S_nth _ ps i 0) by lia. fold u.
        destruct (next u) as [w|] eqn:EN.
        -- eexists. split; [reflexivity|]. split; auto. intros v k. rewrite B2, marks2_app. split; [tauto|].
           intros [H|[H|([<-|[]] & W & _)]]; auto. congruence.
        -- change INTERFACE_INCOMING with (2 ^ 0).
           destruct (mark_ok y u 0) as (y1 & -> & T1 & C1). { rewrite (proj1 S2). auto. }
           eexists. split; [reflexivity|]. split; [eapply same_static_trans; eauto|].
           intros v k. rewrite C1, B2, marks2_app. split.
           ++ intros [[H|H]|[-> ->]]; auto. right. right. split; [left; auto|]. auto.
           ++ intros [H|[H|([<-|[]] & W & ->)]]; auto.
      * rewrite E2. exists y. split; auto. split; auto. intros v k. rewrite B2, B1, firstn_all. unfold marks. fold ps. 
        assert (old_parent ps) by (apply M1; auto). tauto.
    + exists x. split; auto. split; auto. intros v k. rewrite B1. unfold marks. fold ps.
      assert (~ old_parent ps) by (intros W; apply M1 in W; discriminate). tauto.
Qed.

Lemma classify_all : exists vl', for_up 0 (len vl0) (fun j vl => classify vl j) vl0 = Ok vl' /\ same_static vl0 vl' /\
  forall v k, bit vl' v k <-> bit vl0 v k \/ exists j, j < len vl0 /\ marks j v k.
Proof.
  destruct (for_up_inv (list pvar)
     (fun i y => same_static vl0 y /\ forall v k, bit y v k <-> bit vl0 v k \/ exists j, j < i /\ marks j v k)
     (fun j vl => classify vl j) 0 (len vl0) vl0) as (y & E & S & B).
  - lia.
  - split; [apply same_static_refl|]. intros v k. split; auto. intros [H|(j & H & _)]; auto. lia.
  - intros i y Hi (S & B). destruct (classify_ok y i S ltac:(lia)) as (y' & -> & S' & B'). eexists. split; [reflexivity|].
    split; auto. intros v k. rewrite B', B. split.
    + intros [[H|(j & H & M)]|H]; auto; right; [exists j|exists i]; split; auto.
    + intros [H|(j & H & M)]; auto. destruct (Nat.eq_dec j i) as [->|]; auto. left. right. exists j. split; auto. lia.
  - eauto.
Qed.
End Classify.
