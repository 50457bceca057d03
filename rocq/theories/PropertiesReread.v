(** * C102: A NET file after one that could not be read *)
From Coq Require Import String Ascii.
From Verif Require Import Base StringSpec NipModel SeriesFileModel VariableModel JoinTreeModel ParseModel NetLexModel NetGrammarModel NetSpec
  ParseCheck NetCheck RereadSpec RereadModel RereadProofs2.
Import ListNotations.
Open Scope nat_scope.
Local Open Scope list_scope.
Local Notation chars := list_ascii_of_string.

(** What is read after a file of which [k] tokens were read: the rest of the line of its
    [k]-th token, then the file. *)
Theorem C102_rest : forall f k rest, left_on_line f k rest ->
  forall f2 tokens ts, text_tokens f2 tokens -> Forall2 reads_as (rest ++ tokens) ts ->
  exists x, after_files [(f, k)] (start_lexer []) = Ok x /\ lex_from (another_file x f2) = Ok ts.
Proof. exact rest_read. Qed.

(** C102: after any number of files that were given up at the end of a line, a file is
    read as if there had been none (with the same variables of the parser). *)
Theorem C102_line_ends : forall k1 k2 g files f tokens,
  Forall (fun p => left_on_line (fst p) (snd p) []) files -> text_tokens f tokens ->
  parse_after k1 k2 g files f = parse_file k1 k2 g f.
Proof. exact ends_parse. Qed.

(** Refuted otherwise: if a token follows on the line that cannot begin a file, no file can
    be read after it; the parser uses a null pointer. *)
Theorem C102_rest_refuted : forall k1 k2 c f k t rest, left_on_line f k (t :: rest) -> ~ In t opening ->
  forall f2 tokens, text_tokens f2 tokens -> parse_after k1 k2 (fresh_globals c) [(f, k)] f2 = UB.
Proof. exact rest_undefined. Qed.

(** There is such a file, which itself is only rejected. *)
Theorem C102_reread_refuted : exists f k,
  (forall k1 k2 c, parse_file k1 k2 (fresh_globals c) f = Ok None) /\
  forall k1 k2 c f2 tokens, text_tokens f2 tokens -> parse_after k1 k2 (fresh_globals c) [(f, k)] f2 = UB.
Proof. exact misspelt_refutes. Qed.

(** A name after [net], at which the parser gives up (whatever follows): with and without
    the brace on the same line. *)
Example C102_case : left_on_line misspelt 2 [chars "{"] /\ left_on_line misspelt2 2 [] /\ text_tokens px_text px_tokens /\
  (forall k1 k2 c, parse_file k1 k2 (fresh_globals c) misspelt2 = Ok None) /\
  (forall k1 k2 c ts, input k1 k2 (fresh_globals c) (map classify_token [chars "net"; chars "x"] ++ ts) = Ok None) /\
  parse_after kz kz (fresh_globals 0) [(misspelt2, 2)] px_text = parse_file kz kz (fresh_globals 0) px_text /\
  parse_after kz kz (fresh_globals 0) [(misspelt, 2)] px_text = UB.
Proof. exact misspelt_case. Qed.
Print Assumptions C102_rest.
Print Assumptions C102_line_ends.
Print Assumptions C102_rest_refuted.
Print Assumptions C102_reread_refuted.
