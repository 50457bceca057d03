(** * Proofs about reading a NET file after another one: parsing *)
From Coq Require Import String Ascii.
From Verif Require Import Base BaseProofs StringSpec StringModel StringProofs StringProofs2 NipModel SeriesFileModel SeriesFileProofs
  SeriesFileProofs2 VariableModel JoinTreeModel ParseModel NetLexModel NetGrammarModel NetSpec NetLexProofs NetLexProofs2 NetProofs3
  ParseCheck NetCheck RereadSpec RereadModel RereadProofs.
Import ListNotations.
Open Scope nat_scope.
Local Open Scope res_scope.
Local Open Scope list_scope.
Local Notation len := List.length.
Local Notation chars := list_ascii_of_string.

Lemma lex_switched_any : forall x L f T, line_state x L -> text_tokens f T ->
  lex_from (another_file x f) = Ok (until_end (map classify_token (L ++ T))).
Proof.
  intros x L f T H1 H2. pose proof (text_lexes f T H2) as HL. unfold lex_from.
  rewrite (terminals_ok (L ++ T) _ _ (switch x L f T H1 HL)); [reflexivity|].
  cbn [another_file x_file x_left]. rewrite app_length. pose proof (lexes_len f T HL). pose proof (left_len x L H1). lia.
Qed.

Lemma rest_read : forall f k L, left_on_line f k L -> forall f2 T2 ts, text_tokens f2 T2 -> Forall2 reads_as (L ++ T2) ts ->
  exists x, after_files [(f, k)] (start_lexer []) = Ok x /\ lex_from (another_file x f2) = Ok ts.
Proof.
  intros f k L H f2 T2 ts HT HR. destruct (first_file f k L (start_lexer []) H (fresh_line [])) as (x & E & LS).
  exists x. split; [exact E|]. exact (lex_switched x L f2 T2 ts LS HT HR).
Qed.

Lemma ends_state : forall files x, Forall (fun p => left_on_line (fst p) (snd p) []) files -> line_state x [] ->
  exists x', after_files files x = Ok x' /\ line_state x' [].
Proof.
  induction files as [|[f k] files IH]; intros x H LS; [exists x; auto|]. inversion H as [|? ? H1 H2]; subst. cbn [fst snd] in H1.
  destruct (first_file f k [] x H1 LS) as (y & E & LY). destruct (IH y H2 LY) as (z & EZ & LZ). exists z. split; [|exact LZ].
  change ((f, k) :: files) with ([(f, k)] ++ files). rewrite after_app, E. exact EZ.
Qed.
Lemma ends_parse : forall k1 k2 g files f T, Forall (fun p => left_on_line (fst p) (snd p) []) files -> text_tokens f T ->
  parse_after k1 k2 g files f = parse_file k1 k2 g f.
Proof.
  intros k1 k2 g files f T H HT. unfold parse_after. destruct (ends_state files _ H (fresh_line [])) as (x & E & LS).
  rewrite E. cbn [bind]. unfold parse_from, parse_file. rewrite (lex_switched_any x [] f T LS HT), (lex_ok f T (text_lexes f T HT)). reflexivity.
Qed.

Lemma rest_undefined : forall k1 k2 c f k t L, left_on_line f k (t :: L) -> ~ In t opening ->
  forall f2 T2, text_tokens f2 T2 -> parse_after k1 k2 (fresh_globals c) [(f, k)] f2 = UB.
Proof.
  intros k1 k2 c f k t L H HO f2 T2 HT. unfold parse_after.
  destruct (first_file f k (t :: L) (start_lexer []) H (fresh_line [])) as (x & E & LS). rewrite E. cbn [bind]. unfold parse_from.
  rewrite (lex_switched_any x _ f2 T2 LS HT). cbn [bind app].
  assert (B : forall ts, starts_node ts = false -> match ts with T_key K_net :: _ | T_key K_class :: _ => False | _ => True end ->
    input k1 k2 (fresh_globals c) ts = UB).
  { intros ts H1 H2. destruct ts as [|[[]| | | | |] ts]; try discriminate H1; try contradiction; reflexivity. }
  rewrite B; [reflexivity| |]; cbn [map until_end]; destruct (classify_token t) as [q|s|s|y|y|] eqn:EC; try reflexivity; try exact I;
    assert (X := classify_key _ _ EC); subst t; destruct q; try reflexivity; try exact I; exfalso; apply HO; cbn; tauto.
Qed.

Definition misspelt : list ascii := chars "net x {
}
".
Definition misspelt2 : list ascii := chars "net x
{ }
".
Lemma misspelt_line : line_ok (chars "net x {") ([chars "net"; chars "x"] ++ [chars "{"]).
Proof.
  split; [cbn; intuition discriminate|]. split; [cbn; intuition discriminate|]. split; [cbn [len chars]; lia|].
  assert (W : forall c, In c (chars "netx") -> word_char c /\ c <> percent).
  { intros c H. cbn in H. repeat (destruct H as [<-|H]; [split; [split; [reflexivity|discriminate]|discriminate]|]). contradiction. }
  cbn [app]. apply (line_word "n"%char (chars "et") (chars " x {")).
  - discriminate.
  - apply W. cbn. tauto.
  - repeat (constructor; [apply W; cbn; tauto|]). constructor.
  - cbn. intros [X _]. discriminate X.
  - apply (line_white " "%char); [reflexivity|]. apply (line_word "x"%char [] (chars " {")).
    + discriminate.
    + apply W. cbn. tauto.
    + constructor.
    + cbn. intros [X _]. discriminate X.
    + apply (line_white " "%char); [reflexivity|]. apply line_separator; [reflexivity|constructor].
Qed.
Lemma misspelt2_line : line_ok (chars "net x") ([chars "net"; chars "x"] ++ []).
Proof.
  split; [cbn; intuition discriminate|]. split; [cbn; intuition discriminate|]. split; [cbn [len chars]; lia|].
  assert (W : forall c, In c (chars "netx") -> word_char c /\ c <> percent).
  { intros c H. cbn in H. repeat (destruct H as [<-|H]; [split; [split; [reflexivity|discriminate]|discriminate]|]). contradiction. }
  cbn [app]. apply (line_word "n"%char (chars "et") (chars " x")).
  - discriminate.
  - apply W. cbn. tauto.
  - repeat (constructor; [apply W; cbn; tauto|]). constructor.
  - cbn. intros [X _]. discriminate X.
  - apply (line_white " "%char); [reflexivity|]. apply (line_word "x"%char [] []).
    + discriminate.
    + apply W. cbn. tauto.
    + constructor.
    + cbn. tauto.
    + constructor.
Qed.
Lemma misspelt_left : left_on_line misspelt 2 [chars "{"].
Proof. exact (left_here (chars "net x {") [chars "net"; chars "x"] [chars "{"] (chars "}
") misspelt_line ltac:(discriminate)). Qed.
Lemma misspelt2_left : left_on_line misspelt2 2 [].
Proof. exact (left_here (chars "net x") [chars "net"; chars "x"] [] (chars "{ }
") misspelt2_line ltac:(discriminate)). Qed.

Lemma brace_not_opening : ~ In (chars "{") opening.
Proof. cbn. intuition discriminate. Qed.
Lemma misspelt_refutes : exists f k,
  (forall k1 k2 c, parse_file k1 k2 (fresh_globals c) f = Ok None) /\
  forall k1 k2 c f2 T2, text_tokens f2 T2 -> parse_after k1 k2 (fresh_globals c) [(f, k)] f2 = UB.
Proof.
  exists misspelt, 2. split; [intros; vm_compute; reflexivity|]. intros k1 k2 c f2 T2 H.
  exact (rest_undefined k1 k2 c misspelt 2 (chars "{") [] misspelt_left brace_not_opening f2 T2 H).
Qed.
Lemma misspelt_case : left_on_line misspelt 2 [chars "{"] /\ left_on_line misspelt2 2 [] /\ text_tokens px_text px_tokens /\
  (forall k1 k2 c, parse_file k1 k2 (fresh_globals c) misspelt2 = Ok None) /\
  (forall k1 k2 c ts, input k1 k2 (fresh_globals c) (map classify_token [chars "net"; chars "x"] ++ ts) = Ok None) /\
  parse_after kz kz (fresh_globals 0) [(misspelt2, 2)] px_text = parse_file kz kz (fresh_globals 0) px_text /\
  parse_after kz kz (fresh_globals 0) [(misspelt, 2)] px_text = UB.
Proof.
  split; [exact misspelt_left|]. split; [exact misspelt2_left|]. split; [exact px_text_tokens|].
  split; [intros; vm_compute; reflexivity|]. split; [intros; reflexivity|]. split.
  - apply (ends_parse kz kz (fresh_globals 0) [(misspelt2, 2)] px_text px_tokens); [|exact px_text_tokens].
    constructor; [exact misspelt2_left|constructor].
  - exact (rest_undefined kz kz 0%Z misspelt 2 (chars "{") [] misspelt_left brace_not_opening px_text px_tokens px_text_tokens).
Qed.
