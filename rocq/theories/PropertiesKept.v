(** * C104: A file that was rejected leaves no variables behind *)
From Coq Require Import String Ascii.
From Verif Require Import Base StringSpec VariableModel JoinTreeModel NipModel ParseModel NetLexModel NetGrammarModel NetSpec ParseCheck NetCheck
  RereadSpec RereadModel KeptSpec KeptModel KeptProofs KeptCheck.
Import ListNotations.
Open Scope nat_scope.
Local Open Scope list_scope.

(** A file is rejected, without undefined behaviour, if a node declaration goes wrong
    before its brace after others that are fine. *)
Theorem C104_rejected : forall k1 k2 c f tokens ds ts k,
  text_tokens f tokens -> Forall2 reads_as tokens ts -> rejected_text ds ts k -> left_on_line f k [] ->
  nodes_fine ds -> (c + Z.of_nat (List.length ds) <= LONG_MAX)%Z ->
  parse_file k1 k2 (fresh_globals c) f = Ok None /\ exists g x, give_up (fresh_globals c) f = Ok (Some (g, x)).
Proof. exact file_rejected. Qed.

(** What is then read from the next file [f2]: the model of a file [f3] that declares the
    nodes of the rejected file, then those of [f2], and the potentials of [f2]. *)
Theorem C104_nodes_kept_refuted : forall k1 k2 g f1 tokens1 ds ts1 k g1 x f2 tokens2 ts2 ds2 ps ks2 size2 f3 tokens3 ts3 ks3 size3,
  text_tokens f1 tokens1 -> Forall2 reads_as tokens1 ts1 -> rejected_text ds ts1 k -> left_on_line f1 k [] ->
  give_up g f1 = Ok (Some (g1, x)) ->
  text_tokens f2 tokens2 -> Forall2 reads_as tokens2 ts2 -> document (mkNet ds2 ps) ks2 size2 ts2 ->
  text_tokens f3 tokens3 -> Forall2 reads_as tokens3 ts3 -> document (mkNet (ds ++ ds2) ps) ks3 size3 ts3 ->
  model_of (parse_from k1 k2 g1 (another_file x f2)) = model_of (parse_file k1 k2 g f3).
Proof. exact file_kept. Qed.

(** A file is rejected because of a keyword as a name; read again with another name it
    gives a model with one variable twice. *)
Theorem C104_corrected_refuted : exists g1 x, parse_file kz kz (fresh_globals 0) keyword_file = Ok None /\
  give_up (fresh_globals 0) keyword_file = Ok (Some (g1, x)) /\
  symbols_of (parse_file kz kz (fresh_globals 0) corrected_file) = [Some "A"; Some "D"]%string /\
  symbols_of (parse_from kz kz g1 (another_file x corrected_file)) = [Some "A"; Some "A"; Some "D"]%string.
Proof. exact corrected_refutes. Qed.

(** These files meet the hypotheses. *)
Example C104_case :
  text_tokens keyword_file keyword_words /\ Forall2 reads_as keyword_words keyword_terminals /\
  rejected_text [node_called "A"] keyword_terminals 13 /\ left_on_line keyword_file 13 [] /\ nodes_fine [node_called "A"] /\
  text_tokens corrected_file corrected_words /\ Forall2 reads_as corrected_words corrected_terminals /\
  document (mkNet [node_called "A"; node_called "D"] [potential_of_node "A"; potential_of_node "D"])
    [mkLooks None 100 100; mkLooks None 100 100] (80, 60)%Z corrected_terminals /\
  text_tokens doubled_file doubled_words /\ Forall2 reads_as doubled_words doubled_terminals /\
  document (mkNet ([node_called "A"] ++ [node_called "A"; node_called "D"]) [potential_of_node "A"; potential_of_node "D"])
    [mkLooks None 100 100; mkLooks None 100 100; mkLooks None 100 100] (80, 60)%Z doubled_terminals.
Proof.
  exact (conj keyword_tokens (conj keyword_reads (conj keyword_rejected (conj keyword_left (conj keyword_fine
    (conj corrected_tokens (conj corrected_reads (conj corrected_document (conj doubled_tokens (conj doubled_reads doubled_document)))))))))).
Qed.
Print Assumptions C104_rejected.
Print Assumptions C104_nodes_kept_refuted.
Print Assumptions C104_corrected_refuted.
