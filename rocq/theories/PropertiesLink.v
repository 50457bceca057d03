(** * C103: Graphs built and asked step by step *)
From Verif Require Import Base VariableModel GraphModel LinkSpec LinkModel LinkProofs LinkProofs2.
Import ListNotations.
Open Scope nat_scope.

(** C103, for identifiers between those of variables of the graph: nodes and children may
    be added in any order, with questions in between, and every answer is the one of the
    specification. *)
Theorem C103_answers : forall n l, proper n [] l ->
  exists g, acts (new_graph n) l = Ok (expected n [] [] l, g).
Proof. exact acts_ok. Qed.

(** Refuted for all other identifiers: a place outside the index is read, where the header
    promises an error or 0. *)
Theorem C103_outside_refuted : forall n l u v, inside n [] l ->
  ~ between (nodes_after n [] l) u \/ between (nodes_after n [] l) u /\ ~ between (nodes_after n [] l) v ->
  acts (new_graph n) (l ++ [Linked u v]) = UB /\ acts (new_graph n) (l ++ [Child u v]) = UB.
Proof. exact outside_again. Qed.

(** The same variable may be added again: nothing undefined happens, and it is not refused,
    but the graph forgets the arcs of that variable. *)
Theorem C103_again : forall n l, inside n [] l ->
  exists g, acts (new_graph n) l = Ok (forgetful n [] [] l, g).
Proof. exact acts_again. Qed.

(** So, whatever was done before: [v] has been made a child of [u], and is none after [u]
    was added again. *)
Theorem C103_forgotten_refuted : forall n l u v, inside n [] l ->
  In u (nodes_after n [] l) -> In v (nodes_after n [] l) -> List.length (nodes_after n [] l) < n ->
  exists xs g, acts (new_graph n) (l ++ [Child u v; Linked u v; Node u; Linked u v]) = Ok ((xs ++ [Done; Yes; Done; No])%list, g) /\
    List.length xs = List.length l.
Proof. exact arc_forgotten. Qed.

(** Room for three variables.  Children are added before all nodes are there, 6 is unknown
    at first, and there is no room for 8. *)
Definition link_case : list action :=
  [Node 7; Node 4; Child 7 4; Linked 7 4; Linked 4 7; Child 6 4; Linked 6 4; Node 6; Child 6 4; Linked 6 4; Linked 7 4; Node 8;
   Child 5 7; Linked 4 4].
Example C103_case : proper 3 [] link_case /\
  expected 3 [] [] link_case = [Done; Done; Done; Yes; No; Refused; No; Done; Done; Yes; Yes; Refused; Refused; No] /\
  nodes_after 3 [] link_case = [7; 4; 6] /\ ~ between (nodes_after 3 [] link_case) 8.
Proof.
  assert (B : forall v, 4 <= v <= 7 -> forall nodes, In 4 nodes -> In 7 nodes -> between nodes v) by (intros v H nodes; exists 4, 7; auto).
  split; [|split; [reflexivity|split; [reflexivity|]]].
  - cbn. repeat split; try (apply B; cbn; lia); cbn; lia.
  - intros (a & b & _ & H & L). cbn in H. lia.
Qed.
(** One place is left after the first two variables. *)
Example C103_again_case : inside 3 [] [Node 7; Node 4; Child 4 7] /\ nodes_after 3 [] [Node 7; Node 4; Child 4 7] = [7; 4] /\
  inside 3 [] [Node 7; Node 4; Child 7 4; Node 7; Linked 7 4] /\
  forgetful 3 [] [] [Node 7; Node 4; Child 7 4; Node 7; Linked 7 4] = [Done; Done; Done; Done; No] /\
  expected 3 [] [] [Node 7; Node 4; Child 7 4; Node 7; Linked 7 4] = [Done; Done; Done; Done; Yes].
Proof.
  assert (B : forall v nodes, In v nodes -> between nodes v) by (intros v nodes H; exists v, v; auto).
  repeat split; cbn; try (apply B; cbn; lia); auto.
Qed.
Print Assumptions C103_answers.
Print Assumptions C103_outside_refuted.
Print Assumptions C103_again.
Print Assumptions C103_forgotten_refuted.
