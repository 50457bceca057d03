(** * Properties C69-C71: the text of NET files (src/huginnet.y, src/nipparsers.c)

    The specification is in NetSpec.v.  [text_tokens contents toks]: the
    contents of a file consist of the tokens [toks], with white space and
    comments between them in any arrangement; [reads_as tok t]: the token is the
    keyword, mark, quoted string, symbol or numeral [t]; [document t ks size
    ts]: the terminals [ts] spell the declarations [t] (as in ParseSpec.v), with
    labels and positions [ks] and node size [size], fields in any order, numbers
    grouped with parentheses in any way.  [parse_file] models parse_model of
    nip.c from the contents of the file on. *)
From Coq Require Import String Ascii QArith.Qcanon.
From Verif Require Import Base StringSpec PotentialModel PotentialSpec VariableModel JoinTreeModel AssignSpec NipModel NipSpec
  SliceModel SliceSpec ParseModel ParseSpec ParseCheck ParseProofs10 NetLexModel NetGrammarModel NetSpec NetGrammarProofs
  NetGrammarProofs2 NetCheck NetLexProofs NetProofs3.
Import ListNotations.
Open Scope nat_scope.
Local Open Scope res_scope.
Local Notation chars := list_ascii_of_string.

(** C69.  A text that spells [t] is read as [t], whatever its layout. *)
Theorem C69_text_read_as_declared : forall k1 k2 g contents toks ts t ks size,
  text_tokens contents toks -> Forall2 reads_as toks ts -> document t ks size ts ->
  parse_file k1 k2 g contents =
    let* r := parse_model k1 k2 g t in
    Ok (match r with None => None | Some (names, m, g) => Some (names, m, g, ks, size) end).
Proof. exact C69_lemma. Qed.
Print Assumptions C69_text_read_as_declared.

(** From the text to the posterior. *)
Theorem C69_posterior_of_the_text : forall k1 k2 c contents toks ts t ks size obs,
  text_tokens contents toks -> Forall2 reads_as toks ts -> document t ks size ts ->
  net_ok t -> children_first t -> proper t -> cliques_fit k1 k2 t -> (c + Z.of_nat (ParseSpec.size t) <= LONG_MAX)%Z ->
  observations_ok t obs ->
  exists names m g m1 m2,
    parse_file k1 k2 (fresh_globals c) contents = Ok (Some (names, m, g, ks, size)) /\
    run names m (Priors false :: map (fun o => Insert (Hard (fst o) (snd o))) obs) = Ok m1 /\
    make_consistent_model m1 = Ok m2 /\
    (forall v, v < ParseSpec.size t -> exists m3 r, get_probability m2 v = Ok (m3, Some r) /\ length r = card_in t v /\
       forall x, x < card_in t v ->
         nth x r 0%Qc = (mass_where t (file_joint t) obs v x / mass t (file_joint t) obs)%Qc) /\
    exists m3, model_prob_mass m2 = Ok (m3, mass t (file_joint t) obs).
Proof. exact C69_posterior_lemma. Qed.
Print Assumptions C69_posterior_of_the_text.

(** C70.  Identifiers of at most 40 characters can be symbols, except for the
    reserved ones ... *)
Theorem C70_identifiers_are_symbols_partial : forall k1 k2 c contents s,
  identifier s -> ~ reserved s -> length s <= 40 -> (c < LONG_MAX)%Z ->
  text_tokens contents (one_node s) ->
  exists names m g ks size, parse_file k1 k2 (fresh_globals c) contents = Ok (Some (names, m, g, ks, size)) /\
    map symbol_of names = [string_of_list_ascii s].
Proof. exact C70_lemma. Qed.
Print Assumptions C70_identifiers_are_symbols_partial.

(** ... with which any file is rejected. *)
Theorem C70_reserved_identifiers_refuted : forall k1 k2 g contents s toks, identifier s -> reserved s ->
  text_tokens contents (chars "node" :: s :: toks) -> parse_file k1 k2 g contents = Ok None.
Proof. exact C70_reserved_lemma. Qed.
Print Assumptions C70_reserved_identifiers_refuted.

(** C71.  What is accepted is a NET file, and the model is that of its
    declarations: for texts made of well formed tokens, ... *)
Theorem C71_accepted_files : forall k1 k2 g contents toks ts names m g' ks size,
  text_tokens contents toks -> Forall2 reads_as toks ts ->
  parse_file k1 k2 g contents = Ok (Some (names, m, g', ks, size)) ->
  exists t, document t ks size ts /\ parse_model k1 k2 g t = Ok (Some (names, m, g')).
Proof. exact C71_spelled_lemma. Qed.
Print Assumptions C71_accepted_files.

(** ... and for any text, with the terminals that yylex returns for it; yylex
    returns for all texts without zero characters. *)
Theorem C71_accepted_terminals : forall k1 k2 g contents ts names m g' ks size,
  lex contents = Ok ts -> parse_file k1 k2 g contents = Ok (Some (names, m, g', ks, size)) ->
  exists t, document t ks size ts /\ parse_model k1 k2 g t = Ok (Some (names, m, g')).
Proof. exact C71_lemma. Qed.
Print Assumptions C71_accepted_terminals.
Theorem C71_lexer_total : forall contents, ~ In zero contents -> exists ts, lex contents = Ok ts.
Proof. exact lex_total. Qed.
Print Assumptions C71_lexer_total.

(** A file that does not start with a node or a net or class definition is not
    rejected: the parser dereferences NULL. *)
Theorem C71_no_nodes_refuted : forall k1 k2 c contents toks, text_tokens contents toks ->
  match toks with t :: _ => ~ In t opening | [] => True end ->
  parse_file k1 k2 (fresh_globals c) contents = UB.
Proof. exact C71_no_nodes_lemma. Qed.
Print Assumptions C71_no_nodes_refuted.

(** ** Cases *)

(** A hidden Markov model, with comments, all kinds of numerals and fields. *)
Example C69_case : text_tokens px_text px_tokens /\ Forall2 reads_as px_tokens px_terminals /\
  document px_net px_looks (80, 40)%Z px_terminals /\
  net_ok px_net /\ children_first px_net /\ proper px_net /\ cliques_fit kz kz px_net /\
  observations_ok px_net [("Y", "off"); ("X0", "a")]%string.
Proof.
  split; [exact px_text_tokens|]. split; [exact px_reads|]. split; [exact px_document|]. split; [exact px_ok|].
  split; [exact px_children_first|]. split; [exact px_proper|]. split; [exact px_fits|]. exact px_observations.
Qed.

Example C70_case : identifier (chars "X_1") /\ ~ reserved (chars "X_1") /\
  text_tokens (join (one_lines "X_1")) (one_node (chars "X_1")) /\
  identifier (chars "Infection") /\ reserved (chars "Infection") /\
  text_tokens (join (one_lines "Infection")) (one_node (chars "Infection")).
Proof.
  split; [split; [left; reflexivity|repeat constructor; vm_compute; tauto]|].
  split. { intros [(k & E)|[E|[E|E]]]; [destruct k; discriminate E|discriminate E..]. }
  split; [exact one_tokens|].
  split; [split; [left; reflexivity|repeat (constructor; [left; reflexivity|]); constructor]|].
  split; [right; left; reflexivity|exact infection_tokens].
Qed.

(** The hidden Markov model is accepted; a file of potentials only is not
    rejected. *)
Example C71_case :
  match parse_file kz kz (fresh_globals 0) px_text with
  | Ok (Some (names, _, _, ks, size)) => map symbol_of names = ["Y"; "X"; "X0"]%string /\ ks = px_looks /\ size = (80, 40)%Z
  | _ => False
  end /\
  ~ In zero px_text /\
  text_tokens (join other_lines) (map chars ["potential"; "("; "A"; ")"; "{"; "}"]%string) /\
  ~ In (chars "potential") opening.
Proof.
  split; [vm_compute; repeat split; reflexivity|]. split; [vm_compute; intuition discriminate|].
  split; [exact other_tokens|]. vm_compute. intuition discriminate.
Qed.
