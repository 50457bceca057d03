(** * The memory of parsing a network (Property C92) *)
From Coq Require Import String QArith Qcanon.
From Verif Require Import Base VariableModel JoinTreeModel NipModel ParseModel ParseSpec NetGrammarModel MemoryModel MemorySpec MemoryModel3 MemorySpec3 MemoryModel4 MemorySpec4 MemoryProofs32 ParseProofs10 ParseCheck.
Import ListNotations.
Open Scope nat_scope.
Local Open Scope res_scope.
Local Open Scope string_scope.

(** C92.  A proper file is parsed by a fresh process and the model is freed.  No
    memory that is not allocated is used, nothing is freed twice, and the model
    is the one of C61.  What is left at the end: the texts of a node that do not
    count since the node says the same thing twice, and the sepsets that the
    construction of the join tree loses (C91), 11 or 12 blocks each. *)
Theorem C92_parse_memory : forall k1 k2 s c names M g, source_ok s -> (c + Z.of_nat (List.length (s_nodes s)) <= LONG_MAX)%Z ->
  parse_model k1 k2 (fresh_globals c) (net_of s) = Ok (Some (names, M, g)) ->
  exists m x leak m2, m_parse_model k1 k2 (fresh_globals c) s = Ok (Some (m, Some x, names, M, g)) /\ leaked (m_jt M) leak /\
    free_model m (Some x) = Ok m2 /\ ignored s + 11 * List.length leak <= live m2 <= ignored s + 12 * List.length leak.
Proof. exact C92_lemma. Qed.
Print Assumptions C92_parse_memory.

(** In particular nothing is left if no node says anything twice, and cliques
    that are no neighbours share fewer variables than any sepset has. *)
Theorem C92_nothing_left : forall k1 k2 s c names M g, source_ok s -> said_once s -> (c + Z.of_nat (List.length (s_nodes s)) <= LONG_MAX)%Z ->
  parse_model k1 k2 (fresh_globals c) (net_of s) = Ok (Some (names, M, g)) ->
  (forall a b z, a < b < List.length (cls (m_jt M)) -> In z (sps (m_jt M)) ->
     neighbouring (m_jt M) a b \/ shared (m_jt M) a b < List.length (s_vars z)) ->
  exists m x m2, m_parse_model k1 k2 (fresh_globals c) s = Ok (Some (m, Some x, names, M, g)) /\ free_model m (Some x) = Ok m2 /\ all_free m2.
Proof. exact C92_kept_lemma. Qed.
Print Assumptions C92_nothing_left.

(** The file of ParseCheck.v (a hidden Markov model), and the same where the
    node Y has two labels and two lists of states, and X0 says twice which
    variable it becomes. *)
Definition px_source : source := mkSource
  [ ("Y", [F_label "output"; F_position 1 2; F_states ["low"; "high"; "off"]]);
    ("X", [F_states ["a"; "b"]; F_unknown; F_label "state"]);
    ("X0", [F_label "old state"; F_next "X"; F_states ["a"; "b"]]) ]
  (n_potentials px_net).
Definition px_twice : source := mkSource
  [ ("Y", [F_label "output"; F_label "result"; F_states ["yes"; "no"]; F_states ["low"; "high"; "off"]]);
    ("X", [F_states ["a"; "b"]; F_unknown; F_label "state"]);
    ("X0", [F_label "old state"; F_next "X"; F_states ["a"; "b"]; F_next "X"]) ]
  (n_potentials px_net).
(** What is allocated after parsing and freeing the model. *)
Definition left_over (k1 k2 : list pvar -> list nat -> Z) (s : source) : res nat :=
  let* r := m_parse_model k1 k2 (fresh_globals 0) s in
  match r with
  | None => UB
  | Some (m, x, _, _, _) => let* m := free_model m x in Ok (live m)
  end.

(** That nothing is left of parsing and freeing a model is false, although no
    sepset is lost here: both files have the same model, but five blocks of the
    second are never freed. *)
Theorem C92_everything_freed_refuted : source_ok px_twice /\ net_of px_twice = net_of px_source /\
  left_over kz kz px_source = Ok 0 /\ left_over kz kz px_twice = Ok 5.
Proof.
  split; [split; [exact px_ok|]|].
  - intros x l Hx Hl. cbn in Hx. repeat (destruct Hx as [<-|Hx]; [cbn in Hl; repeat (destruct Hl as [<-|Hl]; [discriminate|]); destruct Hl|]). destruct Hx.
  - split; [reflexivity|]. split; vm_compute; reflexivity.
Qed.
Print Assumptions C92_everything_freed_refuted.

(** The file meets the hypotheses. *)
Example C92_case : source_ok px_source /\ said_once px_source /\ net_of px_source = px_net /\ cliques_fit kz kz px_net /\
  match parse_model kz kz (fresh_globals 0) (net_of px_source) with
  | Ok (Some (_, M, _)) => map c_vars (cls (m_jt M)) = [[0; 1]; [1; 2]]%nat /\ map (fun z => (s_first z, s_second z)) (sps (m_jt M)) = [(0, 1)]%nat
  | _ => False
  end.
Proof.
  split; [split; [exact px_ok|]|].
  - intros x l Hx Hl. cbn in Hx. repeat (destruct Hx as [<-|Hx]; [cbn in Hl; repeat (destruct Hl as [<-|Hl]; [discriminate|]); destruct Hl|]). destruct Hx.
  - split; [intros x Hx; cbn in Hx; repeat (destruct Hx as [<-|Hx]; [cbn; lia|]); destruct Hx|]. split; [reflexivity|]. split; [apply px_fits|]. vm_compute. split; reflexivity.
Qed.
