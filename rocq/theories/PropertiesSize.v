(** * C107: The size of nodes is that of the file *)
From Coq Require Import String Ascii.
From Verif Require Import Base NipModel ParseModel NetLexModel NetGrammarModel NetSpec ParseCheck NetCheck KeptProofs KeptCheck
  SizeModel SizeSpec SizeProofs SizeCheck.
Import ListNotations.
Open Scope nat_scope.
Local Open Scope res_scope.
Local Open Scope list_scope.

(** The first file, right or wrong, is read as in C69: with the size it declares, or 80 and 60. *)
Theorem C107_first_file : forall k1 k2 g contents, parse_following k1 k2 g [] contents = parse_file k1 k2 g contents.
Proof. exact following_none. Qed.
Print Assumptions C107_first_file.

(** A file with a size of its own gets it, whatever the files before it declare. *)
Theorem C107_declared : forall k1 k2 g files ls contents tokens ts t ks size l,
  Forall2 starts_with files ls ->
  text_tokens contents tokens -> Forall2 reads_as tokens ts -> document t ks size ts -> head ts l -> sizes l <> [] ->
  parse_following k1 k2 g files contents = parse_file k1 k2 g contents.
Proof. exact declared_lemma. Qed.
Print Assumptions C107_declared.

(** In general it is the last size declared in any of the files. *)
Theorem C107_carried_refuted : forall k1 k2 g files ls contents tokens ts t ks size l,
  Forall2 starts_with files ls ->
  text_tokens contents tokens -> Forall2 reads_as tokens ts -> document t ks size ts -> head ts l ->
  parse_following k1 k2 g files contents =
    let* r := parse_model k1 k2 g t in
    Ok (match r with None => None | Some (names, m, g) => Some (names, m, g, ks, size_of (concat ls ++ l)) end).
Proof. exact C107_lemma. Qed.
Print Assumptions C107_carried_refuted.

(** So a file that declares none may get that of a file that was rejected. *)
Theorem C107_rejected_refuted : exists names m g ks,
  parse_file kz kz (fresh_globals 0) sized_file = Ok None /\
  parse_file kz kz (fresh_globals 0) corrected_file = Ok (Some (names, m, g, ks, (80, 60)%Z)) /\
  parse_following kz kz (fresh_globals 0) [sized_file] corrected_file = Ok (Some (names, m, g, ks, (80, 40)%Z)).
Proof. exact carried_refutes. Qed.
Print Assumptions C107_rejected_refuted.

(** Every file that can be read has such a start, and the size of C69 is the one declared there. *)
Theorem C107_every_document : forall t ks size ts, document t ks size ts -> exists l, head ts l /\ size = size_of l.
Proof. exact document_head. Qed.
Print Assumptions C107_every_document.

(** ** Cases *)
Example C107_case : Forall2 starts_with [sized_file; broken_file] [[F_size 80 40]; [F_size 80 40]] /\
  text_tokens corrected_file corrected_words /\ Forall2 reads_as corrected_words corrected_terminals /\
  (exists t ks, document t ks (80, 60)%Z corrected_terminals) /\ head corrected_terminals [].
Proof.
  split; [constructor; [exact sized_starts|constructor; [exact broken_starts|constructor]]|]. split; [exact corrected_tokens|]. split; [exact corrected_reads|].
  split; [eexists _, _; exact corrected_document|exact corrected_head].
Qed.
Example C107_declared_case : exists l, text_tokens px_text px_tokens /\ Forall2 reads_as px_tokens px_terminals /\
  document px_net px_looks (80, 40)%Z px_terminals /\ head px_terminals l /\ sizes l <> [].
Proof.
  destruct (document_head _ _ _ _ px_document) as (l & H & E). exists l. split; [exact px_text_tokens|]. split; [exact px_reads|].
  split; [exact px_document|]. split; [exact H|]. intros N. unfold size_of in E. rewrite N in E. discriminate E.
Qed.
