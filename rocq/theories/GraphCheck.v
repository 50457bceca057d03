(** * A concrete graph for the properties of src/nipgraph.c *)
From Verif Require Import Base PotentialModel HeapModel JoinTreeModel JoinTreeSpec GraphModel GraphSpec GraphProofs.
Import ListNotations.
Open Scope nat_scope.
Local Open Scope res_scope.

(** Seven variables, not in the order of their identifiers.  The arcs contain
    an undirected cycle of length five (0, 1, 3, 5, 2), a child with two
    unmarried parents (5 with 3 and 2) and an outgoing interface {4, 6} with
    its old version {0, 1}. *)
Definition gx_vars : list nat := [3; 0; 5; 1; 6; 2; 4].
Definition gx_arcs : list (nat * nat) :=
  [(0, 1); (0, 2); (1, 3); (3, 5); (2, 5); (5, 4); (5, 6); (4, 6)].
Definition gx_card (v : nat) : nat := if Nat.eqb v 3 then 3 else 2.
Definition gx_iface (v : nat) : nat :=
  match v with 4 | 6 => 2 | 0 | 1 => 4 | _ => 0 end.
Definition gx_parents (v : nat) : list nat :=
  map fst (filter (fun a => Nat.eqb (snd a) v) gx_arcs).
Definition gx_k1 := cluster_primary_cost gx_parents.
Definition gx_k2 := cluster_secondary_cost gx_card.

Definition gx_graph : graph :=
  match graph_from gx_vars gx_arcs with
  | Ok (g, _) => g
  | _ => new_graph 0
  end.

Lemma ok_fst : forall (A B : Type) (a c : A) (b d : B), Ok (a, b) = Ok (c, d) -> a = c.
Proof. intros A B a c b d H. injection H. auto. Qed.

Lemma gx_from : graph_from gx_vars gx_arcs = Ok (gx_graph, NO_ERROR).
Proof. vm_compute. reflexivity. Qed.

Lemma gx_pre : NoDup gx_vars /\ forall u v, In (u, v) gx_arcs -> In u gx_vars /\ In v gx_vars.
Proof.
  split.
  - unfold gx_vars. repeat (constructor; [cbn; lia|]). constructor.
  - intros u v H. cbn in H.
    repeat (destruct H as [H|H]; [injection H as <- <-; cbn; lia|]). destruct H.
Qed.

Lemma gx_ok : graph_ok gx_graph gx_vars.
Proof.
  destruct gx_pre as [H1 H2]. destruct (graph_from_ok gx_vars gx_arcs H1 H2) as (g & E & O & _).
  rewrite gx_from in E. apply ok_fst in E. rewrite <- E in *. exact O.
Qed.

Lemma gx_irrefl : forall v, ~ arc gx_graph v v.
Proof.
  destruct gx_pre as [H1 H2]. destruct (graph_from_ok gx_vars gx_arcs H1 H2) as (g & E & O & A).
  rewrite gx_from in E. apply ok_fst in E. rewrite <- E in *. intros v H. apply A in H. cbn in H.
  repeat (destruct H as [H|H]; [congruence|]). destruct H.
Qed.

Lemma gx_card_pos : forall v, 0 < gx_card v.
Proof. intros v. unfold gx_card. destruct (Nat.eqb v 3); lia. Qed.

Definition gx_jt : jtree :=
  match graph_to_cliques gx_k1 gx_k2 gx_card gx_iface gx_graph with
  | Ok (jt, _) => jt
  | _ => mkJT [] []
  end.
(** It comes out as a tree of four cliques. *)
Lemma gx_result : graph_to_cliques gx_k1 gx_k2 gx_card gx_iface gx_graph = Ok (gx_jt, NO_ERROR).
Proof. vm_compute. reflexivity. Qed.
