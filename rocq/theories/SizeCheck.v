(** * Concrete files for C107 *)
From Coq Require Import String Ascii QArith Qcanon Qabs.
From Verif Require Import Base StringSpec SeriesFileModel ParseModel NetLexModel NetGrammarModel NetSpec ParseCheck NetCheck KeptProofs KeptCheck
  SizeModel SizeSpec SizeProofs.
Import ListNotations.
Open Scope nat_scope.
Local Open Scope string_scope.
Local Open Scope list_scope.
Local Notation chars := list_ascii_of_string.
Local Notation Fin x := (Finite (Q2Qc x)).

(** A net block, then a node with a keyword as its name: nothing else is left of it. *)
Definition sized_lines : list string :=
  ["net"; "{ node_size = (80 40); }"; "node data"; "{ states = (""a"" ""b""); }"; "potential (data) { }"].
Definition sized_file : list ascii := join sized_lines.
Definition sized_words : list (list ascii) :=
  map chars (["net"; "{"; "node_size"; "="; "("; "80"; "40"; ")"; ";"; "}"] ++ node_words "data" ++ potential_words "data").
Definition sized_rest : list terminal := marks "}" ++ node_terminals (T_key K_data) ++ potential_terminals (T_key K_data).
Definition sized_terminals : list terminal :=
  [T_key K_net] ++ marks "{" ++ (([T_key K_node_size] ++ marks "=(" ++ [T_number (Fin 80); T_number (Fin 40)] ++ marks ");") ++ []) ++ sized_rest.

Lemma sized_tokens : text_tokens sized_file sized_words.
Proof. lines_tac sized_lines. Qed.
Lemma sized_reads : Forall2 reads_as sized_words sized_terminals.
Proof.
  cbv [sized_words sized_terminals sized_rest node_words potential_words node_terminals potential_terminals map app marks names texts list_ascii_of_string].
  repeat (apply Forall2_cons; [first [token_tac | plain "" [8; 0] (@nil nat) "" | plain "" [4; 0] (@nil nat) ""]|]). apply Forall2_nil.
Qed.
Lemma sized_head : head sized_terminals [F_size 80 40].
Proof.
  apply head_net; [|exact I].
  apply more_fields; [reflexivity|apply (text_size (Fin 80) (Fin 40)); whole_tac|apply no_fields].
Qed.
Lemma sized_starts : starts_with sized_file [F_size 80 40].
Proof. exists sized_words, sized_terminals. split; [exact sized_tokens|]. split; [exact sized_reads|exact sized_head]. Qed.
Lemma sized_rejected : parse_file kz kz (fresh_globals 0) sized_file = Ok None.
Proof. vm_compute. reflexivity. Qed.

(** Two sizes, the second one with a number missing. *)
Definition broken_lines : list string := ["net"; "{ node_size = (80 40);"; "  node_size = (80);"; "}"].
Definition broken_file : list ascii := join broken_lines.
Definition broken_words : list (list ascii) :=
  map chars ["net"; "{"; "node_size"; "="; "("; "80"; "40"; ")"; ";"; "node_size"; "="; "("; "80"; ")"; ";"; "}"].
Definition broken_rest : list terminal := [T_key K_node_size] ++ marks "=(" ++ [T_number (Fin 80)] ++ marks ");}".
Definition broken_terminals : list terminal :=
  [T_key K_net] ++ marks "{" ++ (([T_key K_node_size] ++ marks "=(" ++ [T_number (Fin 80); T_number (Fin 40)] ++ marks ");") ++ []) ++ broken_rest.
Lemma broken_tokens : text_tokens broken_file broken_words.
Proof. lines_tac broken_lines. Qed.
Lemma broken_reads : Forall2 reads_as broken_words broken_terminals.
Proof.
  cbv [broken_words broken_terminals broken_rest map app marks names texts list_ascii_of_string].
  repeat (apply Forall2_cons; [first [token_tac | plain "" [8; 0] (@nil nat) "" | plain "" [4; 0] (@nil nat) ""]|]). apply Forall2_nil.
Qed.
Lemma broken_starts : starts_with broken_file [F_size 80 40].
Proof.
  exists broken_words, broken_terminals. split; [exact broken_tokens|]. split; [exact broken_reads|].
  apply head_net; [|exact I].
  apply more_fields; [reflexivity|apply (text_size (Fin 80) (Fin 40)); whole_tac|apply no_fields].
Qed.
Lemma corrected_head : head corrected_terminals [].
Proof. apply head_other; discriminate. Qed.

Lemma carried_refutes : exists names m g ks,
  parse_file kz kz (fresh_globals 0) sized_file = Ok None /\
  parse_file kz kz (fresh_globals 0) corrected_file = Ok (Some (names, m, g, ks, (80, 60)%Z)) /\
  parse_following kz kz (fresh_globals 0) [sized_file] corrected_file = Ok (Some (names, m, g, ks, (80, 40)%Z)).
Proof.
  destruct (parse_file kz kz (fresh_globals 0) corrected_file) as [[[[[[names m] g] ks] size]|]| |] eqn:E;
    try (vm_compute in E; discriminate E).
  exists names, m, g, ks. split; [exact sized_rejected|].
  rewrite (NetGrammarProofs.C69_lemma _ _ _ _ _ _ _ _ _ corrected_tokens corrected_reads corrected_document) in E.
  rewrite (C107_lemma _ _ _ [sized_file] [[F_size 80 40]] _ _ _ _ _ _ [] (Forall2_cons _ _ sized_starts (Forall2_nil _))
     corrected_tokens corrected_reads corrected_document corrected_head).
  destruct (parse_model _ _ _ _) as [[[[names' m'] g']|]| |]; cbn [bind] in *; try discriminate E.
  injection E as -> -> -> <- <-. split; reflexivity.
Qed.
