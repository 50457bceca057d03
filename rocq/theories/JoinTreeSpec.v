(** * Specification of join trees *)
From Coq Require Import Relations Permutation.
From Verif Require Import Base PotentialModel PotentialSpec JoinTreeModel AssignSpec.
Import ListNotations.
Open Scope nat_scope.

(** The clique and the sepset at an address (only used in range). *)
Definition clq (jt : jtree) (i : nat) : clique :=
  nth i (cls jt) (mkClique [] (mkPot [] []) (mkPot [] []) [] false).
Definition sep (jt : jtree) (s : nat) : sepset :=
  nth s (sps jt) (mkSepset [] (mkPot [] []) (mkPot [] []) 0 0).

(** Sepset [s] lies between cliques [i] and [j]. *)
Definition joins (jt : jtree) (s i j : nat) : Prop :=
  (s_first (sep jt s) = i /\ s_second (sep jt s) = j) \/
  (s_first (sep jt s) = j /\ s_second (sep jt s) = i).

Section JoinTree.
Variable card : nat -> nat.

(** What clique [i] and sepset [s] currently say about an assignment. *)
Definition phi (jt : jtree) (i : nat) (a : nat -> nat) : Qc :=
  den (c_vars (clq jt i)) (c_p (clq jt i)) a.
Definition psi (jt : jtree) (s : nat) (a : nat -> nat) : Qc :=
  den (s_vars (sep jt s)) (s_new (sep jt s)) a.

(** The function that a join tree represents: product of the clique tables
    divided by the product of the sepset tables (x / 0 is 0). *)
Definition joint (jt : jtree) (a : nat -> nat) : Qc :=
  (qprod (map (fun i => phi jt i a) (seq 0 (length (cls jt)))) /
   qprod (map (fun s => psi jt s a) (seq 0 (length (sps jt)))))%Qc.

(** All variables of the tree, each once. *)
Definition all_vars (jt : jtree) : list nat :=
  nodup Nat.eq_dec (flat_map c_vars (cls jt)).

(** The data structure is consistent: tables have the shape given by the
    variables, sepsets lie between two different cliques and their variables
    belong to both, each clique lists exactly the sepsets it is an end of. *)
Definition shape_ok (jt : jtree) : Prop :=
  (forall v, 0 < card v) /\
  (forall i, i < length (cls jt) ->
     table card (c_vars (clq jt i)) (c_p (clq jt i)) /\
     table card (c_vars (clq jt i)) (c_orig (clq jt i)) /\
     c_vars (clq jt i) <> [] /\
     NoDup (c_sepsets (clq jt i)) /\
     forall s, In s (c_sepsets (clq jt i)) <->
       s < length (sps jt) /\ (s_first (sep jt s) = i \/ s_second (sep jt s) = i)) /\
  (forall s, s < length (sps jt) ->
     table card (s_vars (sep jt s)) (s_old (sep jt s)) /\
     table card (s_vars (sep jt s)) (s_new (sep jt s)) /\
     s_first (sep jt s) < length (cls jt) /\
     s_second (sep jt s) < length (cls jt) /\
     s_first (sep jt s) <> s_second (sep jt s) /\
     incl (s_vars (sep jt s)) (c_vars (clq jt (s_first (sep jt s)))) /\
     incl (s_vars (sep jt s)) (c_vars (clq jt (s_second (sep jt s))))).

(** A set of cliques and sepsets that is a tree: one clique, or a tree with
    one more clique hung to it by one more sepset. *)
Inductive tree_of (jt : jtree) : list nat -> list nat -> Prop :=
| tree_one : forall r, tree_of jt [r] []
| tree_leaf : forall ns es s i j, tree_of jt ns es ->
    In i ns -> ~ In j ns -> ~ In s es -> joins jt s i j ->
    tree_of jt (j :: ns) (s :: es).

(** All cliques and sepsets together are a tree. *)
Definition is_tree (jt : jtree) : Prop :=
  exists ns es, tree_of jt ns es /\
    Permutation ns (seq 0 (length (cls jt))) /\
    Permutation es (seq 0 (length (sps jt))).

(** Running intersection: between any two cliques that contain [v] there is a
    way through sepsets that contain [v]. *)
Definition step_through (jt : jtree) (v i j : nat) : Prop :=
  exists s, s < length (sps jt) /\ joins jt s i j /\ In v (s_vars (sep jt s)).
Definition running_intersection (jt : jtree) : Prop :=
  forall v i j, i < length (cls jt) -> j < length (cls jt) ->
    In v (c_vars (clq jt i)) -> In v (c_vars (clq jt j)) ->
    clos_refl_trans nat (step_through jt v) i j.

(** All tables are non-negative. *)
Definition tables_nonneg (jt : jtree) : Prop :=
  (forall i, i < length (cls jt) -> nonneg (c_p (clq jt i))) /\
  (forall s, s < length (sps jt) -> nonneg (s_new (sep jt s))).

(** Every sepset table is the marginal of both neighbouring cliques. *)
Definition calibrated (jt : jtree) : Prop :=
  forall s i a, s < length (sps jt) ->
    (s_first (sep jt s) = i \/ s_second (sep jt s) = i) -> valid card a ->
    psi jt s a =
    sumv card (minus (c_vars (clq jt i)) (s_vars (sep jt s))) (phi jt i) a.

End JoinTree.

(** Two trees that differ only in their current tables and marks. *)
Definition same_shape (jt jt' : jtree) : Prop :=
  length (cls jt') = length (cls jt) /\ length (sps jt') = length (sps jt) /\
  (forall i, c_vars (clq jt' i) = c_vars (clq jt i) /\
     c_sepsets (clq jt' i) = c_sepsets (clq jt i) /\
     c_orig (clq jt' i) = c_orig (clq jt i)) /\
  (forall s, s_vars (sep jt' s) = s_vars (sep jt s) /\
     s_first (sep jt' s) = s_first (sep jt s) /\
     s_second (sep jt' s) = s_second (sep jt s)).

(** A sequence of messages (sender, sepset, receiver). *)
Fixpoint pass_all (jt : jtree) (ms : list (nat * nat * nat)) : res jtree :=
  match ms with
  | [] => Ok jt
  | (c1, s, c2) :: ms' =>
      bind (message_pass jt c1 s c2) (fun '(jt', _) => pass_all jt' ms')
  end.
