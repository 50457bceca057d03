(** * Concrete files for C104 *)
From Coq Require Import String Ascii.
From Verif Require Import Base StringSpec ParseModel NetLexModel NetGrammarModel NetSpec ParseCheck NetCheck RereadSpec KeptSpec KeptModel KeptProofs.
Import ListNotations.
Open Scope nat_scope.
Local Open Scope string_scope.
Local Open Scope list_scope.
Local Notation len := List.length.
Local Notation chars := list_ascii_of_string.

(** The corrected file with the node of the rejected one in front. *)
Definition doubled_lines : list string := "node A" :: "{ states = (""a"" ""b""); }" :: corrected_lines.
Definition doubled_file : list ascii := join doubled_lines.

Definition node_words (s : string) : list string := ["node"; s; "{"; "states"; "="; "("; """a"""; """b"""; ")"; ";"; "}"].
Definition potential_words (s : string) : list string := ["potential"; "("; s; ")"; "{"; "}"].
Definition keyword_words : list (list ascii) :=
  map chars (node_words "A" ++ node_words "data" ++ potential_words "A" ++ potential_words "data").
Definition corrected_words : list (list ascii) :=
  map chars (node_words "A" ++ node_words "D" ++ potential_words "A" ++ potential_words "D").
Definition doubled_words : list (list ascii) :=
  map chars (node_words "A" ++ node_words "A" ++ node_words "D" ++ potential_words "A" ++ potential_words "D").

Definition node_terminals (s : terminal) : list terminal :=
  [T_key K_node] ++ [s] ++ marks "{" ++ [T_key K_states] ++ marks "=(" ++ texts ["a"; "b"] ++ marks ");}".
Definition potential_terminals (s : terminal) : list terminal := [T_key K_potential] ++ marks "(" ++ [s] ++ marks "){}".
Definition t_A : terminal := T_unquoted (chars "A").
Definition t_D : terminal := T_unquoted (chars "D").
Definition keyword_terminals : list terminal :=
  node_terminals t_A ++ node_terminals (T_key K_data) ++ potential_terminals t_A ++ potential_terminals (T_key K_data).
Definition corrected_terminals : list terminal :=
  node_terminals t_A ++ node_terminals t_D ++ potential_terminals t_A ++ potential_terminals t_D.
Definition doubled_terminals : list terminal :=
  node_terminals t_A ++ node_terminals t_A ++ node_terminals t_D ++ potential_terminals t_A ++ potential_terminals t_D.

Definition node_called (s : string) : node_decl := mkNode s None (Some ["a"; "b"]) None.
Definition potential_of_node (s : string) : pot_decl := mkDecl s None None.

Ltac lines_tac ls :=
  let X := fresh in
  match goal with |- text_tokens _ ?w =>
    assert (X : exists toks, Forall2 (fun l t => line_ok (chars l) t) ls toks /\ concat toks = w);
    [ eexists; split; [repeat (apply Forall2_cons; [line_tac|]); apply Forall2_nil|reflexivity]
    | let toks := fresh in let H := fresh in let E := fresh in destruct X as (toks & H & E); rewrite <- E; apply (join_tokens ls); exact H ] end.
Lemma keyword_tokens : text_tokens keyword_file keyword_words.
Proof. lines_tac keyword_lines. Qed.
Lemma corrected_tokens : text_tokens corrected_file corrected_words.
Proof. lines_tac corrected_lines. Qed.
Lemma doubled_tokens : text_tokens doubled_file doubled_words.
Proof. lines_tac doubled_lines. Qed.

Ltac reads_tac :=
  cbv [keyword_words corrected_words doubled_words keyword_terminals corrected_terminals doubled_terminals node_words potential_words
       node_terminals potential_terminals t_A t_D map app marks names texts list_ascii_of_string];
  repeat (apply Forall2_cons; [token_tac|]); apply Forall2_nil.
Lemma keyword_reads : Forall2 reads_as keyword_words keyword_terminals.
Proof. reads_tac. Qed.
Lemma corrected_reads : Forall2 reads_as corrected_words corrected_terminals.
Proof. reads_tac. Qed.
Lemma doubled_reads : Forall2 reads_as doubled_words doubled_terminals.
Proof. reads_tac. Qed.

Lemma called_text : forall s, node_in_text (node_called s) (mkLooks None 100 100) (node_terminals (T_unquoted (chars s))).
Proof.
  intros s. refine (node_of false s [F_states ["a"; "b"]] (([T_key K_states] ++ marks "=(" ++ texts ["a"; "b"] ++ marks ");") ++ []) _).
  apply more_fields; [reflexivity|apply text_states; discriminate|apply no_fields].
Qed.
Lemma potential_text : forall s, potential_in_text (potential_of_node s) (potential_terminals (T_unquoted (chars s))).
Proof. intros s. exact (potential_of s None None [] no_data). Qed.

Lemma keyword_rejected : rejected_text [node_called "A"] keyword_terminals 13.
Proof.
  apply (rejected_at [node_called "A"] [mkLooks None 100 100] (node_terminals t_A) _ 2).
  - pose proof (more_nodes_text _ _ _ _ _ _ (called_text "A") no_nodes_text) as H. rewrite app_nil_r in H. exact H.
  - apply wrong_symbol. discriminate.
Qed.
Lemma keyword_left : left_on_line keyword_file 13 [].
Proof.
  assert (L1 : line_ok (chars "node A") [chars "node"; chars "A"]) by line_tac.
  assert (L2 : line_ok (chars "{ states = (""a"" ""b""); }") (map chars ["{"; "states"; "="; "("; """a"""; """b"""; ")"; ";"; "}"])) by line_tac.
  assert (L3 : line_ok (chars "node data") ([chars "node"; chars "data"] ++ [])) by line_tac.
  apply (left_later _ _ _ 11 [] L1). apply (left_later _ _ _ 2 [] L2). apply (left_here _ _ [] _ L3). discriminate.
Qed.
Lemma keyword_fine : nodes_fine [node_called "A"].
Proof.
  split; [constructor; [split; discriminate|constructor]|].
  intros l1 d1 l2 d2 l3 E. destruct l1 as [|? l1]; [|destruct l1; discriminate]. destruct l2; discriminate.
Qed.
Lemma corrected_document : document (mkNet [node_called "A"; node_called "D"] [potential_of_node "A"; potential_of_node "D"])
  [mkLooks None 100 100; mkLooks None 100 100] (80, 60)%Z corrected_terminals.
Proof.
  pose proof (plain_document _ _ _ _ _
    (more_nodes_text _ _ _ _ _ _ (called_text "A") (more_nodes_text _ _ _ _ _ _ (called_text "D") no_nodes_text))
    (more_potentials_text _ _ _ _ (potential_text "A") (more_potentials_text _ _ _ _ (potential_text "D") no_potentials_text))) as H.
  exact H.
Qed.
Lemma doubled_document :
  document (mkNet ([node_called "A"] ++ [node_called "A"; node_called "D"]) [potential_of_node "A"; potential_of_node "D"])
  [mkLooks None 100 100; mkLooks None 100 100; mkLooks None 100 100] (80, 60)%Z doubled_terminals.
Proof.
  pose proof (plain_document _ _ _ _ _
    (more_nodes_text _ _ _ _ _ _ (called_text "A") (more_nodes_text _ _ _ _ _ _ (called_text "A")
      (more_nodes_text _ _ _ _ _ _ (called_text "D") no_nodes_text)))
    (more_potentials_text _ _ _ _ (potential_text "A") (more_potentials_text _ _ _ _ (potential_text "D") no_potentials_text))) as H.
  exact H.
Qed.
