(** * Proofs: files with the same declarations have the same graph *)
From Coq Require Import String Permutation QArith.QArith QArith.Qcanon.
From Verif Require Import Base BaseProofs PotentialModel PotentialSpec VariableModel JoinTreeModel
  AssignSpec JoinTreeSpec NipModel NipSpec SliceModel SliceSpec LearnSpec GraphModel GraphSpec GraphProofs
  ParseModel ParseSpec ParseProofs3 ParseProofs6 ParseProofs8 NetLexModel NetGrammarModel NetSpec WriteModel WriteSpec WriteProofs7.
Import ListNotations.
Open Scope nat_scope.
Local Open Scope res_scope.
Local Notation len := List.length.

Lemma add_nodes_index : forall vs g g', vs <> [] -> g_top g + len vs = g_size g -> add_nodes g vs = Ok (g', NO_ERROR) -> g_ind g' <> None.
Proof.
  induction vs as [|v l IH]; intros g g' NE SZ H; [congruence|]. cbn [add_nodes] in H. unfold graph_add_node in H.
  cbn [List.length] in SZ. replace (Nat.eqb (g_top g) (g_size g)) with false in H by (symmetry; apply Nat.eqb_neq; lia).
  destruct (wr (g_vars g) (g_top g) (Some v)) as [xs| |]; cbn [bind] in H; try discriminate H. cbn [g_top g_size] in H.
  destruct l as [|w l].
  - rewrite (proj2 (Nat.eqb_eq (S (g_top g)) (g_size g))) in H by (cbn [List.length] in SZ; lia).
    unfold build_graph_index in H. match type of H with context [for_up ?a ?b ?f ?s] => destruct (for_up a b f s) as [ind| |] end; cbn [bind] in H; try discriminate H.
    cbn [is_err add_nodes] in H. injection H as <-. cbn. discriminate.
  - rewrite (proj2 (Nat.eqb_neq (S (g_top g)) (g_size g))) in H by (cbn [List.length] in SZ; lia). cbn [bind is_err] in H.
    eapply IH; [| |exact H]; [discriminate|cbn [g_top g_size List.length] in *; lia].
Qed.

Lemma graph_index_same : forall g v o g', g_ind g <> None -> graph_index g v = Ok (o, g') -> g' = g.
Proof.
  intros g v o g' HI H. unfold graph_index in H. destruct (g_ind g) as [ind|] eqn:E; [|congruence]. cbn [bind] in H. rewrite E in H.
  destruct (id_offset v (g_min g)) as [k| |]; cbn [bind] in H; try discriminate H.
  destruct (rd ind k) as [i| |]; cbn [bind] in H; try discriminate H.
  destruct (rd (g_vars g) i) as [[w|]| |]; cbn [bind] in H; try discriminate H; [destruct (equal_variables w v)|]; congruence.
Qed.
Lemma add_arcs_frame : forall arcs g g' e, g_ind g <> None -> add_arcs g arcs = Ok (g', e) -> set_adj g' [] = set_adj g [].
Proof.
  induction arcs as [|[u v] l IH]; intros g g' e HI H; cbn [add_arcs] in H; [congruence|]. unfold graph_add_child in H.
  destruct (graph_index g u) as [[pi g1]| |] eqn:E1; cbn [bind] in H; try discriminate H. apply graph_index_same in E1; auto. subst g1.
  destruct (graph_index g v) as [[ci g1]| |] eqn:E1; cbn [bind] in H; try discriminate H. apply graph_index_same in E1; auto. subst g1.
  assert (Q : forall g1, set_adj g1 [] = set_adj g [] -> g_ind g1 <> None /\ (forall r, set_adj r [] = set_adj g1 [] -> set_adj r [] = set_adj g [])).
  { intros g1 K. split; [injection K; intros; congruence|congruence]. }
  destruct pi as [i|]; [destruct ci as [j|]|]; cbn [bind is_err] in H; try (injection H as <- <-; reflexivity).
  unfold set_adjm in H. destruct (wr (g_adj g) (i * g_size g + j) true) as [a| |]; cbn [bind is_err] in H; try discriminate H.
  destruct (Q (set_adj g a) eq_refl) as (Q1 & Q2). apply Q2. eapply IH; eauto.
Qed.

Lemma graph_from_same : forall vs arcs arcs', vs <> [] -> NoDup vs -> (forall u v, In (u, v) arcs -> In u vs /\ In v vs) ->
  (forall u v, In (u, v) arcs' <-> In (u, v) arcs) -> graph_from vs arcs' = graph_from vs arcs.
Proof.
  intros vs arcs arcs' NE ND HI SA.
  destruct (graph_from_ok vs arcs ND HI) as (g & E & O & A).
  destruct (graph_from_ok vs arcs' ND) as (g' & E' & O' & A'). { intros u v H. apply HI. now apply SA. }
  rewrite E, E'. do 2 f_equal.
  destruct (parts_of_graph _ _ _ E) as (g1 & N1 & R1). destruct (parts_of_graph _ _ _ E') as (g2 & N2 & R2).
  assert (g2 = g1) as -> by congruence. assert (I1 : g_ind g1 <> None) by (apply (add_nodes_index vs (new_graph (len vs))); auto).
  assert (F1 := add_arcs_frame _ _ _ _ I1 R1). assert (F2 := add_arcs_frame _ _ _ _ I1 R2).
  assert (F : set_adj g' [] = set_adj g []) by congruence.
  assert (AD : g_adj g' = g_adj g).
  { assert (L := gk_adj _ _ O). assert (L' := gk_adj _ _ O'). assert (S := gk_size _ _ O). assert (S' := gk_size _ _ O').
    apply (list_ext_nth _ false); [congruence|]. intros k Hk. set (n := len vs) in *.
    assert (n <> 0) by (subst n; destruct vs; [congruence|discriminate]).
    assert (DK := Nat.div_mod k n ltac:(auto)). set (i := k / n) in *. set (j := k mod n) in *.
    assert (Hj : j < n) by (apply Nat.mod_upper_bound; auto). assert (Hi : i < n) by (apply Nat.div_lt_upper_bound; auto; lia).
    destruct (nth_error vs i) as [u|] eqn:Eu; [|apply nth_error_None in Eu; fold n in Eu; lia].
    destruct (nth_error vs j) as [v|] eqn:Ev; [|apply nth_error_None in Ev; fold n in Ev; lia].
    assert (B := arc_adj vs g O i j u v Eu Ev). assert (B' := arc_adj vs g' O' i j u v Eu Ev). unfold adj in B, B'. rewrite S in B. rewrite S' in B'.
    rewrite DK. replace (n * i + j) with (i * n + j) by lia. apply Bool.eq_true_iff_eq. rewrite <- B, <- B', A, A'. apply SA. }
  destruct g, g'. cbn in *. unfold set_adj in F. cbn in F. congruence.
Qed.

(** ** Files *)
Lemma acyclic_children_first : forall t, net_ok t -> children_first t -> acyclic t.
Proof.
  intros t NO CF. exists (rev (seq 0 (ParseSpec.size t))). split; [symmetry; apply Permutation_rev|].
  intros l1 v l2 E u Hu. assert (L := CF u v Hu). destruct (parent_lt t NO 0%Z u v Hu) as (Ul & Vl & _).
  apply (f_equal (@rev nat)) in E. rewrite rev_involutive, rev_app_distr in E. cbn [rev] in E. rewrite <- app_assoc in E. cbn [app] in E.
  assert (P : len (rev l2) = v).
  { assert (K : nth (len (rev l2)) (seq 0 (ParseSpec.size t)) 0 = v) by (rewrite E, app_nth2, Nat.sub_diag by lia; reflexivity).
    rewrite seq_nth in K; [exact K|]. rewrite <- (seq_length (ParseSpec.size t) 0), E, app_length. cbn. lia. }
  assert (K : nth u (seq 0 (ParseSpec.size t)) 0 = u) by now rewrite seq_nth.
  rewrite E, app_nth2 in K by lia. rewrite P in K. destruct (u - v) as [|d] eqn:D; [lia|]. cbn [nth] in K.
  apply in_rev. rewrite <- K. apply nth_In.
  assert (Q : ParseSpec.size t = v + S (len (rev l1))) by (rewrite <- (seq_length (ParseSpec.size t) 0), E, app_length, P; reflexivity). lia.
Qed.

Section Same.
Variable t t' : net.
Hypothesis NO : net_ok t.
Hypothesis NO' : net_ok t'.
Hypothesis SD : same_declarations t t'.

Lemma same_size : ParseSpec.size t' = ParseSpec.size t.
Proof. rewrite <- (symbols_length t'), <- (symbols_length t), (sd_symbols _ _ SD). reflexivity. Qed.
Lemma node_out : forall (s : net) v, ParseSpec.size s <= v -> node s v = mkNode EmptyString None (Some [EmptyString]) None.
Proof. intros s v H. unfold node. apply nth_overflow. exact H. Qed.
Lemma same_card : forall v, card_in t' v = card_in t v.
Proof.
  intros v. unfold card_in. destruct (Nat.lt_ge_cases v (ParseSpec.size t)) as [L|G].
  - now destruct (sd_node _ _ SD v L) as (-> & _).
  - rewrite !node_out; auto. now rewrite same_size.
Qed.
Lemma same_next : forall v, next_in t' v = next_in t v.
Proof.
  intros v. destruct (Nat.lt_ge_cases v (ParseSpec.size t)) as [L|G].
  - now destruct (sd_node _ _ SD v L) as (_ & -> & _).
  - unfold next_in. rewrite !node_out; auto. now rewrite same_size.
Qed.
Lemma same_parent : forall u v, parent t' u v <-> parent t u v.
Proof.
  intros u v. rewrite (parent_iff t' NO'), (parent_iff t NO), same_size. split; intros (L & H); split; auto; [rewrite <- (sd_parents _ _ SD) by auto|rewrite (sd_parents _ _ SD) by auto]; auto.
Qed.
Lemma same_old : forall v, old_outgoing t' v <-> old_outgoing t v.
Proof. intros v. unfold old_outgoing. rewrite same_next. split; intros (A & w & B); split; auto; exists w; now apply same_parent. Qed.
Lemma same_outgoing : forall v, outgoing t' v <-> outgoing t v.
Proof. intros v. unfold outgoing. split; intros (u & A & B); exists u; [rewrite <- same_next|rewrite same_next]; split; auto; now apply same_old. Qed.
Lemma same_children_first : children_first t -> children_first t'.
Proof. intros H u v P. apply H. now apply same_parent. Qed.
Lemma same_two_slices : two_slices t -> two_slices t'.
Proof. intros H u v O P. apply (H u v); [now apply same_old|now apply same_parent]. Qed.
Lemma arcs_parent : forall s u v, In (u, v) (arcs_of s) <-> parent s u v.
Proof.
  intros s u v. unfold arcs_of, parent. rewrite in_flat_map. split.
  - intros (d & Hd & H). apply in_map_iff in H. destruct H as (w & E & Hw). injection E as <- <-. eauto.
  - intros (d & Hd & E & H). subst v. exists d. split; auto. apply in_map_iff. eauto.
Qed.
Lemma same_fit : forall k1 k2, cliques_fit k1 k2 t -> cliques_fit k1 k2 t'.
Proof.
  intros k1 k2 H vl iface g gt c E HI T ND IN CO. rewrite same_size in *.
  rewrite (graph_from_same _ (arcs_of t)) in E.
  - assert (F : fits (card_in t) c).
    { eapply H; eauto. intros v Hv. rewrite <- same_old, <- same_outgoing. now apply HI. }
    unfold fits in *. rewrite (map_ext _ _ same_card). exact F.
  - intros K. apply (f_equal (@List.length nat)) in K. rewrite seq_length in K. apply (no_nodes _ NO). unfold ParseSpec.size in K. destruct (n_nodes t); [auto|discriminate K].
  - apply seq_NoDup.
  - intros u v Q. apply arcs_parent in Q. destruct (parent_lt t NO 0%Z u v Q) as (A & B & _). split; apply in_seq; lia.
  - intros u v. rewrite !arcs_parent. apply same_parent.
Qed.
End Same.
