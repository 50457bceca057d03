(** * Properties C72 and C73: writing NET files (write_model of src/nip.c)

    The specification is in WriteSpec.v.  [write_model opened closed names pages
    size m] gives the model afterwards, the contents of the file and the error
    code; [pages] are the labels and positions of the variables and their
    counterparts in the next slice.  [load] is parse_model of nip.c, from the
    contents of a file on, with these.  [writable]: the texts can be quoted and
    the numbers are in range; [describes card m names pages t]: the declarations
    [t] have the symbols, states, labels, slices and parents of the model, and its
    distributions rounded to six decimals. *)
From Coq Require Import String Ascii QArith.Qcanon.
From Verif Require Import Base StringSpec PotentialModel PotentialSpec VariableModel JoinTreeModel AssignSpec JoinTreeSpec NipModel NipSpec
  SliceModel SliceSpec LearnSpec ParseModel ParseSpec ParseCheck ParseProofs10 NetLexModel NetGrammarModel NetSpec NetCheck
  WriteModel WriteSpec WriteProofs6 WriteProofs7 WriteProofs8 WriteProofs11 WriteCheck.
Import ListNotations.
Open Scope nat_scope.

(** C72.  What is written is a NET file that spells out the model; the model is
    reset. *)
Theorem C72_written_text : forall card m names pages size, writable card m names pages size -> learnable card m ->
  exists m' text toks ts t, write_model true true names pages size m = Ok (m', Some text, NO_ERROR) /\
    model_ok card m' /\ same_model m m' /\
    (forall v, v < length (m_vars m) -> v_lik (var m' v) = repeat 1%Qc (card v) /\ v_entered (var m' v) = false) /\
    (forall a, valid card a -> joint (m_jt m') a = original m a) /\
    text_tokens text toks /\ Forall2 reads_as toks ts /\
    document t (map looks_on pages) size ts /\ describes card m names pages t.
Proof. exact write_model_ok. Qed.
Print Assumptions C72_written_text.

(** Nothing is done if the file cannot be opened, and it is an error if it cannot
    be closed. *)
Theorem C72_not_opened : forall closed names pages size m, write_model false closed names pages size m = Ok (m, None, EIO).
Proof. exact not_opened_lemma. Qed.
Print Assumptions C72_not_opened.
Theorem C72_not_closed : forall names pages size m m' text e,
  write_model true true names pages size m = Ok (m', text, e) -> write_model true false names pages size m = Ok (m', text, EIO).
Proof. exact not_closed_lemma. Qed.
Print Assumptions C72_not_closed.

(** The declarations are proper ones (which C61 is about). *)
Theorem C72_written_file_is_proper : forall card m names pages size t,
  writable card m names pages size -> learnable card m -> readable card m pages -> describes card m names pages t -> net_ok t.
Proof. exact proper_lemma. Qed.
Print Assumptions C72_written_file_is_proper.

(** C73.  The distributions that are written are those that the model was built
    from or that it has learned, except for the states of the parents that the
    table of the clique excludes. *)
Theorem C73_distributions_written : forall card m, learnable card m ->
  forall f, factored card m f -> conditional_factors card m f ->
  forall v a, v < length (m_vars m) -> v_parents (var m v) <> [] -> valid card a ->
    (possible card m v a -> distribution card m v a = f v a) /\
    (~ possible card m v a -> distribution card m v a = 0%Qc).
Proof. exact distributions_lemma. Qed.
Print Assumptions C73_distributions_written.

(** A file that was read is written with the same variables, labels, positions
    and arcs, and the rounded tables; what is written can be read again; with
    numbers of six decimals the distribution is the same. *)
Theorem C73_round_trip_partial : forall k1 k2 c contents toks ts t ks size,
  text_tokens contents toks -> Forall2 reads_as toks ts -> document t ks size ts ->
  net_ok t -> children_first t -> two_slices t -> columns_ok t -> roots_given t -> printable t ->
  (c + Z.of_nat (ParseSpec.size t) <= LONG_MAX)%Z ->
  forall names pages size' m g, load k1 k2 (fresh_globals c) contents = Ok (Some (names, pages, size', m, g)) ->
  exists m' text toks' ts' t',
    write_model true true names pages size' m = Ok (m', Some text, NO_ERROR) /\
    text_tokens text toks' /\ Forall2 reads_as toks' ts' /\ document t' (map labelled ks) size ts' /\
    net_ok t' /\ children_first t' /\ two_slices t' /\ roots_given t' /\ same_declarations t t' /\
    (forall v a, v < ParseSpec.size t -> valid (card_in t) a ->
       (happens t v a -> rounded (factor_of t (decl_of t v) a) (entry t' v a)) /\
       (rounded (factor_of t (decl_of t v) a) (entry t' v a) \/ entry t' v a = 0%Qc)) /\
    (forall v a, v < ParseSpec.size t -> valid (card_in t) a -> parents_of t (decl_of t v) <> [] ->
       ~ possible (card_in t) m v a -> entry t' v a = 0%Qc) /\
    ((forall v a, v < ParseSpec.size t -> valid (card_in t) a -> six_decimals (factor_of t (decl_of t v) a)) ->
       forall a, valid (card_in t) a -> parsed_joint t' a = parsed_joint t a) /\
    forall k1' k2' c', cliques_fit k1' k2' t -> (c' + Z.of_nat (ParseSpec.size t) <= LONG_MAX)%Z ->
      exists names2 pages2 m2 g2,
        load k1' k2' (fresh_globals c') text = Ok (Some (names2, pages2, size, m2, g2)) /\ parsed t' names2 m2.
Proof. exact trip_lemma. Qed.
Print Assumptions C73_round_trip_partial.

(** Numbers of six decimals are written exactly. *)
Theorem C73_six_decimals : forall x y, six_decimals x -> rounded x y -> y = x.
Proof. exact rounded_six. Qed.
Print Assumptions C73_six_decimals.

(** But a file of proper distributions need not be written as one: a column for
    impossible states of the parents is replaced by zeros. *)
Theorem C73_lost_columns_refuted : exists contents toks ts t ks size names pages m g m' text toks' ts' t',
  text_tokens contents toks /\ Forall2 reads_as toks ts /\ document t ks size ts /\
  net_ok t /\ children_first t /\ two_slices t /\ proper t /\ roots_given t /\ printable t /\
  load kz kz (fresh_globals 0) contents = Ok (Some (names, pages, size, m, g)) /\
  write_model true true names pages size m = Ok (m', Some text, NO_ERROR) /\
  text_tokens text toks' /\ Forall2 reads_as toks' ts' /\ document t' (map labelled ks) size ts' /\
  same_declarations t t' /\ ~ columns_ok t'.
Proof. exact lx_refuted. Qed.
Print Assumptions C73_lost_columns_refuted.

(** ** Cases *)

(** The hidden Markov model of NetCheck.v, after reading its text. *)
Example C72_case : exists names pages m g, load kz kz (fresh_globals 0) px_text = Ok (Some (names, pages, (80, 40)%Z, m, g)) /\
  writable (card_in px_net) m names pages (80, 40)%Z /\ learnable (card_in px_net) m /\ readable (card_in px_net) m pages /\
  factored (card_in px_net) m (fun v => factor_of px_net (decl_of px_net v)) /\
  conditional_factors (card_in px_net) m (fun v => factor_of px_net (decl_of px_net v)).
Proof. exact px_loaded. Qed.

(** What is written for it. *)
Example C72_text :
  match load kz kz (fresh_globals 0) px_text with
  | Ok (Some (names, pages, size, m, _)) =>
      match write_model true true names pages size m with
      | Ok (_, Some text, NO_ERROR) => text = join
          ["net"; "{"; "    node_size = (80 40);"; "}"; "";
           "node Y"; "{"; "    label = ""output"";"; "    position = (100 20);";
           "    states = ( ""low"" "; "               ""high"" "; "               ""off"" );"; "}"; "";
           "node X"; "{"; "    label = ""state"";"; "    position = (100 100);";
           "    states = ( ""a"" "; "               ""b"" );"; "}"; "";
           "node X0"; "{"; "    label = ""old state"";"; "    position = (100 100);";
           "    states = ( ""a"" "; "               ""b"" );"; "    NIP_next = ""X"";"; "}"; "";
           "potential (X0)"; "{"; "    data = ( 0.250000  0.750000  );"; "}"; "";
           "potential (Y | X)"; "{ "; "    data = ( 0.500000  0.250000  0.250000  % X=a ";
           "             0.125000  0.375000  0.500000 );"; "}"; "";
           "potential (X | X0)"; "{ "; "    data = ( 0.900000  0.100000  % X0=a ";
           "             0.200000  0.800000 );"; "}"]%string
      | _ => False
      end
  | _ => False
  end.
Proof. vm_compute. reflexivity. Qed.

Example C73_case : text_tokens px_text px_tokens /\ Forall2 reads_as px_tokens px_terminals /\
  document px_net px_looks (80, 40)%Z px_terminals /\
  net_ok px_net /\ children_first px_net /\ two_slices px_net /\ columns_ok px_net /\ roots_given px_net /\ printable px_net /\
  cliques_fit kz kz px_net /\
  (forall v a, v < ParseSpec.size px_net -> valid (card_in px_net) a -> six_decimals (factor_of px_net (decl_of px_net v) a)).
Proof.
  split; [exact px_text_tokens|]. split; [exact px_reads|]. split; [exact px_document|]. split; [exact px_ok|].
  split; [exact px_children_first|]. split; [exact px_two_slices|]. split; [exact px_columns|]. split; [exact px_roots|].
  split; [exact px_printable|]. split; [exact px_fits|]. exact px_six.
Qed.
