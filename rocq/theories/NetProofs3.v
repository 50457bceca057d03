(** * Proofs about symbols and rejected files (C70, C71) and from text to posterior *)
From Coq Require Import Permutation String Ascii QArith.QArith QArith.Qcanon.
From Verif Require Import Base BaseProofs StringSpec StringModel PotentialModel PotentialSpec VariableModel JoinTreeModel AssignSpec NipModel NipSpec
  SliceModel SliceSpec SeriesFileModel SeriesFileProofs2 ParseModel ParseSpec ParseProofs8 ParseProofs9 ParseProofs10
  NetLexModel NetGrammarModel NetSpec NetLexProofs NetLexProofs2 NetGrammarProofs NetGrammarProofs2.
Import ListNotations.
Open Scope nat_scope.
Local Open Scope res_scope.
Local Notation len := List.length.
Local Notation chars := list_ascii_of_string.

Lemma ident_char : forall x, letter x = true \/ digit_char x = true \/ x = underscore -> word_char x.
Proof.
  intros x H. assert (B : (letter x || digit_char x || Ascii.eqb x underscore)%bool = true).
  { destruct H as [H|[H| ->]]; [rewrite H; reflexivity|rewrite H; apply orb_true_iff; left; apply orb_true_r|reflexivity]. }
  clear H. destruct x as [[] [] [] [] [] [] [] []]; vm_compute in B; try discriminate B; (split; [reflexivity|discriminate]).
Qed.
Lemma ident_start : forall x, letter x = true \/ x = underscore -> member x (chars "0123456789+-.") = false /\
  isspace x = false /\ Ascii.eqb x (ascii_of_nat 45) = false /\ Ascii.eqb x (ascii_of_nat 43) = false /\
  Ascii.eqb x QUOTE = false.
Proof.
  intros x H. assert (B : (letter x || Ascii.eqb x underscore)%bool = true).
  { destruct H as [H| ->]; [rewrite H; reflexivity|reflexivity]. }
  clear H. destruct x as [[] [] [] [] [] [] [] []]; vm_compute in B; try discriminate B; repeat split; reflexivity.
Qed.

Lemma identifier_symbol : forall s, identifier s -> ~ reserved s -> symbol_ok s.
Proof.
  intros s H HR. destruct s as [|c w]; [destruct H|]. destruct H as [HC HW].
  split; [discriminate|]. split.
  { constructor; [apply ident_char; tauto|]. eapply Forall_impl; [|exact HW]. intros x. apply ident_char. }
  destruct (ident_start c HC) as [S1 _].
  split; [|split].
  - cbv beta iota delta [like_number]. rewrite S1. cbn [orb].
    destruct (list_eq_dec _ _ (chars "inf")) as [E|]; [exfalso; apply HR; right; left; exact E|].
    destruct (list_eq_dec _ _ (chars "nan")) as [E|]; [exfalso; apply HR; right; right; left; exact E|]. reflexivity.
  - intros k E. apply HR. left. exists k. exact E.
  - intros x E. injection E as -> ->. destruct HC as [HC| ->]; [exact HC|]. exfalso. apply HR. right. right. right. reflexivity.
Qed.

Lemma prefix_inf_true : forall s, map lower (firstn 3 s) = chars "inf" -> prefix_nocase (str "inf") s = true.
Proof.
  intros s H. change (str "inf") with ["i"%char; "n"%char; "f"%char]. destruct s as [|a [|b [|c s]]]; try discriminate H.
  cbn [firstn map list_ascii_of_string] in H. injection H as A B C. cbn [prefix_nocase].
  rewrite nocase_i, nocase_n, nocase_f, A, B, C. reflexivity.
Qed.
Lemma prefix_nan_true : forall s, map lower (firstn 3 s) = chars "nan" -> prefix_nocase (str "nan") s = true.
Proof.
  intros s H. change (str "nan") with ["n"%char; "a"%char; "n"%char]. destruct s as [|a [|b [|c s]]]; try discriminate H.
  cbn [firstn map list_ascii_of_string] in H. injection H as A B C. cbn [prefix_nocase].
  rewrite nocase_n, nocase_a, nocase_n, A, B, C. reflexivity.
Qed.

Lemma classify_reserved : forall s, identifier s -> reserved s ->
  match classify_token s with T_key _ | T_number _ | T_char _ => True | _ => False end.
Proof.
  intros s H HR. destruct HR as [(k & ->)|[E|[E| ->]]].
  - destruct k; exact I.
  - destruct s as [|c w]; [destruct H|]. destruct H as [HC HW]. destruct (ident_start c HC) as (S1 & S2 & S3 & S4 & S5).
    destruct w as [|x w]; [discriminate E|]. unfold classify_token. destruct (find_keyword (c :: x :: w)); [exact I|].
    rewrite S5. cbn [andb]. unfold strtod. cbn [skip_space]. rewrite S2. cbn [read_sign]. rewrite S3, S4.
    rewrite (prefix_inf_true _ E). exact I.
  - destruct s as [|c w]; [destruct H|]. destruct H as [HC HW]. destruct (ident_start c HC) as (S1 & S2 & S3 & S4 & S5).
    destruct w as [|x w]; [discriminate E|]. unfold classify_token. destruct (find_keyword (c :: x :: w)); [exact I|].
    rewrite S5. cbn [andb]. unfold strtod. cbn [skip_space]. rewrite S2. cbn [read_sign]. rewrite S3, S4.
    rewrite (prefix_nan_true _ E), orb_true_r. exact I.
  - exact I.
Qed.

Lemma C70_reserved_lemma : forall k1 k2 g contents s toks, identifier s -> reserved s ->
  text_tokens contents (chars "node" :: s :: toks) -> parse_file k1 k2 g contents = Ok None.
Proof.
  intros k1 k2 g contents s toks HI HR HT. unfold parse_file.
  rewrite (lex_ok _ _ (text_lexes _ _ HT)). cbn [bind map]. change (classify_token (chars "node")) with (T_key K_node).
  pose proof (classify_reserved s HI HR) as HC. cbn [until_end].
  destruct (classify_token s); try contradiction; reflexivity.
Qed.

(** ** A file with one node *)
Definition node_net (s : list ascii) : net :=
  mkNet [mkNode (string_of_list_ascii s) None (Some ["a"; "b"]%string) None] [mkDecl (string_of_list_ascii s) None None].

Lemma node_net_ok : forall s, len s <= 40 -> net_ok (node_net s).
Proof.
  assert (SL : forall s, String.length (string_of_list_ascii s) = len s)
    by (induction s; cbn; congruence).
  intros s L.
  assert (NUM : ParseSpec.number (node_net s) (string_of_list_ascii s) = 0).
  { unfold ParseSpec.number, symbols, node_net. cbn [n_nodes map nd_symbol position]. rewrite String.eqb_refl. reflexivity. }
  assert (CELLS : cells_of (node_net s) (mkDecl (string_of_list_ascii s) None None) = 2).
  { unfold cells_of, family_of, child_of, parents_of. cbn [pd_child given_symbols pd_parents rev map]. rewrite NUM. reflexivity. }
  constructor.
  - discriminate.
  - split; [cbn; constructor; [intros []|constructor]|].
    constructor; [cbn [nd_symbol]; rewrite SL; exact L|constructor].
  - intros d [<-|[]]. split; discriminate.
  - intros l1 d1 l2 d2 l3 E. cbn in E. destruct l1 as [|? l1]; [|destruct l1; discriminate]. destruct l2; discriminate.
  - apply Permutation_refl.
  - intros d [<-|[]]. unfold decl_ok. split; [cbn; intros x [<-|[]]; left; reflexivity|].
    split; [cbn; repeat constructor; intros []|]. split; [discriminate|]. split; [discriminate|].
    rewrite CELLS. unfold INT_MAX. lia.
  - intros d x [<-|[]]. discriminate.
  - intros d1 d2 x [<-|[]] [<-|[]]. reflexivity.
  - intros d [<-|[]] _. unfold table_of. cbn [data pd_data]. rewrite CELLS. exists 1%Qc. split; [left; reflexivity|reflexivity].
  - vm_compute. discriminate.
Qed.

Lemma C70_lemma : forall k1 k2 c contents s, identifier s -> ~ reserved s -> len s <= 40 -> (c < LONG_MAX)%Z ->
  text_tokens contents (one_node s) ->
  exists names m g ks size, parse_file k1 k2 (fresh_globals c) contents = Ok (Some (names, m, g, ks, size)) /\
    map symbol_of names = [string_of_list_ascii s].
Proof.
  intros k1 k2 c contents s HI HR L LC HT.
  pose proof (node_net_ok s L) as NO.
  assert (FIT : cliques_fit k1 k2 (node_net s)).
  { apply small_fits; [exact NO|]. vm_compute. discriminate. }
  destruct (parse_succeeds (node_net s) NO c k1 k2) as (names & m & g & E & P); [cbn; lia|exact FIT|].
  assert (D : document (node_net s) [mkLooks None 100 100] (80, 60)%Z
    ((([T_key K_node] ++ NetSpec.names [string_of_list_ascii s] ++ marks "{" ++
       (([T_key K_states] ++ marks "=(" ++ texts ["a"; "b"]%string ++ marks ");") ++ []) ++ marks "}") ++ []) ++
     (([T_key K_potential] ++ marks "(" ++ NetSpec.names [string_of_list_ascii s] ++ given_text None ++ marks "){" ++ [] ++ marks "}") ++ []))%list).
  { apply plain_document.
    - apply more_nodes_text; [|constructor].
      apply (node_of false (string_of_list_ascii s) [F_states ["a"; "b"]%string]).
      apply more_fields; [reflexivity|apply text_states; discriminate|constructor].
    - apply more_potentials_text; [|constructor]. apply potential_of. constructor. }
  pose proof (identifier_symbol s HI HR) as SO.
  match type of D with document _ _ _ ?ts => assert (RD : Forall2 reads_as (one_node s) ts) end.
  {
    unfold NetSpec.names. cbn [map]. rewrite list_ascii_of_string_of_list_ascii.
    cbn [app marks map list_ascii_of_string texts given_text one_node].
    assert (K : forall k, reads_as (chars (keyword_text k)) (T_key k)) by (intros; constructor).
    assert (C : forall x, In x (chars "(){}=,;|") -> reads_as [x] (T_char x)) by (intros; constructor; assumption).
    repeat (apply Forall2_cons; [first [exact (K K_node) | exact (K K_states) | exact (K K_potential)
       | apply reads_symbol; exact SO | apply C; cbn; tauto
       | exact (reads_quoted ["a"%char]) | exact (reads_quoted ["b"%char])]|]). apply Forall2_nil. }
  rewrite (C69_lemma k1 k2 (fresh_globals c) contents _ _ _ _ _ HT RD D), E. cbn [bind].
  do 5 eexists. split; [reflexivity|]. rewrite (pa_symbols _ _ _ P). reflexivity.
Qed.

(** ** Rejected files *)
Lemma classify_key : forall t k, classify_token t = T_key k -> t = chars (keyword_text k).
Proof.
  intros t k E. destruct t as [|a [|b t]]; [discriminate E| |]; unfold classify_token in E.
  - destruct (isalpha a); [discriminate|]. destruct (isdigit a); [destruct (strtod [a]); discriminate|].
    destruct (Nat.leb _ _); discriminate.
  - destruct (find_keyword (a :: b :: t)) as [k'|] eqn:EF.
    + injection E as <-. apply find_keyword_some. exact EF.
    + destruct (_ && _)%bool; [discriminate|]. destruct (strtod _); discriminate.
Qed.
Lemma C71_no_nodes_lemma : forall k1 k2 c contents toks, text_tokens contents toks ->
  match toks with t :: _ => ~ In t opening | [] => True end ->
  parse_file k1 k2 (fresh_globals c) contents = UB.
Proof.
  intros k1 k2 c contents toks HT HO. unfold parse_file.
  rewrite (lex_ok _ _ (text_lexes _ _ HT)). cbn [bind].
  assert (B : forall ts, starts_node ts = false -> match ts with T_key K_net :: _ | T_key K_class :: _ => False | _ => True end ->
    input k1 k2 (fresh_globals c) ts = UB).
  { intros ts H1 H2. destruct ts as [|[[]| | | | |] ts]; try discriminate H1; try contradiction; reflexivity. }
  rewrite B; [reflexivity| |].
  - destruct toks as [|t toks]; [reflexivity|]. cbn [map until_end].
    destruct (classify_token t) as [k|s|s|x|x|] eqn:E; try reflexivity.
    assert (X := classify_key _ _ E).
    subst t. destruct k; try reflexivity; exfalso; apply HO; cbn; tauto.
  - destruct toks as [|t toks]; [exact I|]. cbn [map until_end].
    destruct (classify_token t) as [k|s|s|x|x|] eqn:E; try exact I.
    assert (X := classify_key _ _ E).
    subst t. destruct k; try exact I; exfalso; apply HO; cbn; tauto.
Qed.

Lemma C71_spelled_lemma : forall k1 k2 g contents toks ts names m g' ks size,
  text_tokens contents toks -> Forall2 reads_as toks ts ->
  parse_file k1 k2 g contents = Ok (Some (names, m, g', ks, size)) ->
  exists t, document t ks size ts /\ parse_model k1 k2 g t = Ok (Some (names, m, g')).
Proof.
  intros k1 k2 g contents toks ts names m g' ks size H1 H2. apply C71_lemma. apply (lex_text contents toks ts H1 H2).
Qed.

(** ** From the text to the posterior *)
Lemma C69_posterior_lemma : forall k1 k2 c contents toks ts t ks size obs,
  text_tokens contents toks -> Forall2 reads_as toks ts -> document t ks size ts ->
  net_ok t -> children_first t -> proper t -> cliques_fit k1 k2 t -> (c + Z.of_nat (ParseSpec.size t) <= LONG_MAX)%Z ->
  observations_ok t obs ->
  exists names m g m1 m2,
    parse_file k1 k2 (fresh_globals c) contents = Ok (Some (names, m, g, ks, size)) /\
    run names m (Priors false :: map (fun o => Insert (Hard (fst o) (snd o))) obs) = Ok m1 /\
    make_consistent_model m1 = Ok m2 /\
    (forall v, v < ParseSpec.size t -> exists m3 r, get_probability m2 v = Ok (m3, Some r) /\ length r = card_in t v /\
       forall x, x < card_in t v ->
         nth x r 0%Qc = (mass_where t (file_joint t) obs v x / mass t (file_joint t) obs)%Qc) /\
    exists m3, model_prob_mass m2 = Ok (m3, mass t (file_joint t) obs).
Proof.
  intros k1 k2 c contents toks ts t ks size obs H1 H2 H3 NO CF PR FIT LC OB.
  destruct (parse_succeeds t NO c k1 k2 LC FIT) as (names & m & g & E & P).
  destruct (C65_lemma t names m obs NO CF PR P OB) as (m1 & m2 & X).
  exists names, m, g, m1, m2. split; [|exact X].
  rewrite (C69_lemma k1 k2 (fresh_globals c) contents toks ts t ks size H1 H2 H3), E. reflexivity.
Qed.
