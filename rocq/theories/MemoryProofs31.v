(** * The steps of parse_model one by one (for C92) *)
From Coq Require Import Permutation Sorted String.
From Verif Require Import Base BaseProofs PotentialModel PotentialSpec VariableModel VariableProofs JoinTreeModel
  NipModel GraphModel GraphSpec GraphTheory GraphProofs ReorderProofs GraphProofs7 GraphProofs8 HeapProofs ParseModel
  ParseSpec ParseProofs ParseProofs2 ParseProofs3 ParseProofs4 ParseProofs5 ParseProofs6 ParseProofs7 ParseProofs8.
Import ListNotations.
Open Scope nat_scope.
Local Open Scope res_scope.
Local Notation len := List.length.

Section Net.
Variable t : net.
Hypothesis NO : net_ok t.
Variable c0 : Z.
Local Notation n := (size t).

Lemma parse_steps : (c0 + Z.of_nat n <= LONG_MAX)%Z ->
  exists g vl0 gn gr vl1 vl ps, node_declarations (fresh_globals c0) (n_nodes t) = Ok (Some g) /\ g_parsed g = Live vl0 /\ g_potentials g = Null /\ len vl0 = n /\
    potential_declarations vl0 (n_potentials t) Null = Ok (Some (Live ps)) /\
    vars_to_graph (new_graph n) (seq 0 n) = Ok (Some gn) /\ potentials_to_graph gn vl0 ps = Ok (Some (gr, vl1)) /\
    interface_to_vars (g_relations g) vl1 = Ok (Some vl) /\
    graph_ok gr (seq 0 n) /\ (forall u, ~ arc gr u u) /\ (forall v, 0 < cardp vl v) /\ 0 < n /\
    (forall p, In p ps -> pp_child p < n).
Proof.
  intros HC. assert (V0 := vl0_ok t NO c0).
  destruct (node_declarations_ok (n_nodes t) c0 Null [] [] Null) as (lab & E1); auto.
  { apply (no_states t NO). } { apply (no_labels t NO). }
  cbn [app] in E1. change (len (@nil pvar)) with 0 in E1. fold (vl0 t c0) in E1.
  assert (EP : ptr (vl0 t c0) = Live (vl0 t c0)).
  { assert (L : len (vl0 t c0) = n) by apply V0. clear - L NO. destruct (vl0 t c0); auto. cbn in L. assert (H := n_pos t NO). lia. }
  rewrite EP in E1.
  destruct (potential_declarations_first t NO (vl0 t c0) V0 (n_potentials t) (pots_ne t NO) (no_decl t NO)) as (ps & F & E2).
  destruct (graph_from_ok (seq 0 n) (arcs_of t) (seq_NoDup _ _)) as (gr & EG & OG & AG).
  { intros u v H. apply arcs_parent, (parent_lt t NO c0) in H. rewrite !in_seq. lia. }
  destruct (parts_of_graph _ _ _ EG) as (gn & EN & EA). rewrite seq_length in EN.
  destruct (potentials_to_graph_ok t (n_potentials t) ps F gn gr (vl0 t c0)) as (vl1 & E3 & L1 & Q1 & _); auto.
  { intros d Hd. rewrite (proj1 V0). now apply (child_lt t NO c0). } { now apply children_nodup. }
  assert (P1 : forall v, v < n -> pv vl1 v = set_parents (pv (vl0 t c0) v) (parents_of t (decl_of t v))).
  { intros v Hv. destruct (decl_of_ok t NO v Hv) as (A & B). rewrite <- B at 1 2. now apply Q1. }
  destruct (interface_ok t NO c0 vl1) as (vl & E4 & FV); auto.
  { split; [rewrite L1; apply V0|]. intros v x E. assert (Hv : v < n). { rewrite <- (proj1 V0), <- L1. apply nth_error_Some. congruence. }
    assert (x = pv vl1 v) as -> by (unfold pv; symmetry; now apply nth_error_nth). rewrite P1 by auto.
    apply (proj2 V0 v (pv (vl0 t c0) v)). unfold pv. apply nth_error_nth'. now rewrite (proj1 V0). }
  eexists _, (vl0 t c0), gn, gr, vl1, vl, ps. split; [exact E1|]. cbn [g_parsed g_potentials g_relations]. split; [reflexivity|]. split; [reflexivity|]. split; [apply V0|].
  split; [exact E2|]. split; [apply (vars_to_graph_ok _ _ _ EN)|]. split; [exact E3|]. split; [exact E4|]. split; [exact OG|].
  split. { intros u Q. apply AG, arcs_parent, (parent_lt t NO c0) in Q. lia. }
  split. { intros v. rewrite (cardp_in t vl (proj1 FV)). now apply card_in_pos. }
  split; [apply (n_pos t NO)|].
  intros p Hp. clear - F Hp NO c0. revert Hp. assert (D : forall d, In d (n_potentials t) -> child_of t d < n) by (intros d Hd; now apply (child_lt t NO c0)). revert D F. generalize (n_potentials t). clear. intros ds D F.
  induction F as [|d q ds ps (C & _) F IH]; intros Hp; [destruct Hp|]. destruct Hp as [<-|Hp]; [rewrite C; apply D; left; reflexivity|]. apply IH; [|exact Hp]. intros e He. apply D. right. exact He.
Qed.
End Net.
