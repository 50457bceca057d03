(** * Proofs about what a rejected NET file leaves behind *)
From Coq Require Import String Ascii.
From Verif Require Import Base BaseProofs StringSpec StringModel StringProofs StringProofs2 NipModel SeriesFileModel SeriesFileProofs
  SeriesFileProofs2 VariableModel JoinTreeModel ParseModel ParseSpec ParseProofs4 NetLexModel NetGrammarModel NetSpec NetLexProofs NetLexProofs2 NetGrammarProofs
  NetProofs3 ParseCheck NetCheck RereadSpec RereadModel RereadProofs RereadProofs2 KeptSpec KeptModel.
Import ListNotations.
Open Scope nat_scope.
Local Open Scope res_scope.
Local Open Scope list_scope.
Local Notation len := List.length.
Local Notation chars := list_ascii_of_string.

Lemma header_right : forall d k t r, node_in_text d k t -> wrong_at (t ++ r) = None.
Proof. intros d k t r H. destruct H as [[] s l ts H]; reflexivity. Qed.
Lemma header_wrong : forall w j, wrong_header w j -> starts_node w = true /\ wrong_at w = Some j /\ forall g, node_text g w = Ok None.
Proof.
  intros w j H. destruct H as [x r H|s x r H].
  - split; [reflexivity|]. destruct x as [q|s|s|y|y|]; try (split; reflexivity). exfalso. exact (H s eq_refl).
  - split; [reflexivity|]. destruct x as [q|s'|s'|y|y|]; try (split; reflexivity).
    cbn [wrong_at]. destruct (Ascii.eqb_spec y LBRACE) as [->|NE]; [exfalso; exact (H eq_refl)|]. split; [reflexivity|].
    intros g. cbn [node_text]. unfold supported, braced_params. cbn [expect]. destruct (Ascii.eqb_spec LBRACE y) as [X|_]; [congruence|].
    reflexivity.
Qed.

Lemma left_ok : forall ds ks t, nodes_in_text ds ks t -> forall w j, wrong_header w j -> forall fuel g n, len t < fuel ->
  nodes_left fuel g n (t ++ w) =
    let* x := node_declarations g ds in Ok (match x with None => None | Some g => Some (g, n + len t + j) end).
Proof.
  intros ds ks t H w j HW. destruct (header_wrong w j HW) as (W1 & W2 & _).
  induction H as [|d k t ds ks ts HX H IH]; intros fuel g n L; (destruct fuel as [|fuel]; [lia|]).
  - cbn [app nodes_left node_declarations bind]. rewrite W1, W2. cbn [len]. do 3 f_equal. lia.
  - rewrite app_length in L. destruct (node_starts d k t (ts ++ w) HX) as [S1 S2]. rewrite <- app_assoc.
    cbn [nodes_left node_declarations]. rewrite S1, (header_right d k t _ HX), (node_text_ok d k t g (ts ++ w) HX). cbn [bind].
    destruct (node_declaration g d) as [[g'|]| |]; cbn [bind]; try reflexivity. rewrite IH by lia.
    destruct (node_declarations g' ds) as [[g2|]| |]; cbn [bind]; try reflexivity.
    rewrite !app_length. do 3 f_equal. lia.
Qed.
Lemma rejected_nodes : forall ds ks t, nodes_in_text ds ks t -> forall w j, wrong_header w j -> forall fuel g, len t < fuel ->
  nodes fuel g (t ++ w) = let* x := node_declarations g ds in Ok None.
Proof.
  intros ds ks t H w j HW. destruct (header_wrong w j HW) as (W1 & _ & W3).
  induction H as [|d k t ds ks ts HX H IH]; intros fuel g L; (destruct fuel as [|fuel]; [lia|]).
  - cbn [app nodes node_declarations bind]. rewrite W1, W3. reflexivity.
  - rewrite app_length in L. destruct (node_starts d k t (ts ++ w) HX) as [S1 S2]. rewrite <- app_assoc.
    cbn [nodes node_declarations]. rewrite S1, (node_text_ok d k t g (ts ++ w) HX). cbn [bind].
    destruct (node_declaration g d) as [[g'|]| |]; cbn [bind]; try reflexivity. rewrite IH by lia.
    destruct (node_declarations g' ds) as [[g2|]| |]; reflexivity.
Qed.
Lemma rejected_start : forall ds ks t w j, nodes_in_text ds ks t -> wrong_header w j -> starts_node (t ++ w) = true.
Proof.
  intros ds ks t w j H HW. destruct H as [|d k t ds ks ts HX H]; [exact (proj1 (header_wrong w j HW))|].
  rewrite <- app_assoc. exact (proj1 (node_starts d k t (ts ++ w) HX)).
Qed.
Lemma input_nodes : forall k1 k2 g ts, starts_node ts = true -> input k1 k2 g ts = blocks k1 k2 g [] (node_size []) ts.
Proof. intros k1 k2 g ts H. destruct ts as [|[[]| | | | |] ts]; try discriminate H; reflexivity. Qed.

Lemma give_up_is : forall ds ts k f T g, text_tokens f T -> Forall2 reads_as T ts -> rejected_text ds ts k -> left_on_line f k [] ->
  exists x, line_state x [] /\ give_up g f = let* r := node_declarations g ds in Ok (match r with None => None | Some g1 => Some (g1, x) end).
Proof.
  intros ds ts k f T g HT HR HX HL. destruct HX as [ds ks t w j H HW]. unfold give_up. rewrite (lex_text f T _ HT HR). cbn [bind].
  destruct (first_file f _ [] (start_lexer []) HL (fresh_line [])) as (x & E & LS). exists x. split; [exact LS|].
  rewrite (left_ok ds ks t H w j HW) by (rewrite app_length; lia).
  destruct (node_declarations g ds) as [[g1|]| |]; cbn [bind]; try reflexivity. cbn [Nat.add]. rewrite E. reflexivity.
Qed.

Lemma declare_app : forall ds1 ds2 g, node_declarations g (ds1 ++ ds2) =
  let* r := node_declarations g ds1 in match r with None => Ok None | Some g1 => node_declarations g1 ds2 end.
Proof.
  induction ds1 as [|d l IH]; intros ds2 g; [reflexivity|]. cbn [app node_declarations].
  destruct (node_declaration g d) as [[g'|]| |]; cbn [bind]; [apply IH|reflexivity..].
Qed.
Lemma parse_kept : forall k1 k2 g g1 ds t, node_declarations g ds = Ok (Some g1) ->
  parse_model k1 k2 g1 t = parse_model k1 k2 g (mkNet (ds ++ n_nodes t) (n_potentials t)).
Proof.
  intros k1 k2 g g1 ds t E. unfold parse_model, yyparse. cbn [n_nodes n_potentials]. rewrite declare_app, E. reflexivity.
Qed.

(** The result without labels, positions and sizes. *)
Definition model_of (r : res (option (list named_variable * model * globals * list looks * (Z * Z))))
  : res (option (list named_variable * model * globals)) :=
  let* r := r in Ok (match r with None => None | Some (names, m, g, _, _) => Some (names, m, g) end).

Lemma file_kept : forall k1 k2 g f1 T1 ds ts1 k g1 x f2 T2 ts2 ds2 ps ks2 size2 f3 T3 ts3 ks3 size3,
  text_tokens f1 T1 -> Forall2 reads_as T1 ts1 -> rejected_text ds ts1 k -> left_on_line f1 k [] ->
  give_up g f1 = Ok (Some (g1, x)) ->
  text_tokens f2 T2 -> Forall2 reads_as T2 ts2 -> document (mkNet ds2 ps) ks2 size2 ts2 ->
  text_tokens f3 T3 -> Forall2 reads_as T3 ts3 -> document (mkNet (ds ++ ds2) ps) ks3 size3 ts3 ->
  model_of (parse_from k1 k2 g1 (another_file x f2)) = model_of (parse_file k1 k2 g f3).
Proof.
  intros k1 k2 g f1 T1 ds ts1 k g1 x f2 T2 ts2 ds2 ps ks2 size2 f3 T3 ts3 ks3 size3 A1 A2 A3 A4 E B1 B2 B3 C1 C2 C3.
  destruct (give_up_is ds ts1 k f1 T1 g A1 A2 A3 A4) as (x' & LS & E'). rewrite E in E'.
  destruct (node_declarations g ds) as [[g1'|]| |] eqn:ED; cbn [bind] in E'; try discriminate E'. injection E' as <- <-.
  assert (P : parse_from k1 k2 g1 (another_file x f2) = parse_file k1 k2 g1 f2).
  { unfold parse_from, parse_file. rewrite (lex_switched x [] f2 T2 ts2 LS B1 B2), (lex_text f2 T2 ts2 B1 B2). reflexivity. }
  rewrite P, (C69_lemma k1 k2 g1 f2 T2 ts2 _ _ _ B1 B2 B3), (C69_lemma k1 k2 g f3 T3 ts3 _ _ _ C1 C2 C3).
  rewrite (parse_kept k1 k2 g g1 ds _ ED). cbn [n_nodes n_potentials]. unfold model_of.
  destruct (parse_model k1 k2 g (mkNet (ds ++ ds2) ps)) as [[[[names m] g2]|]| |]; reflexivity.
Qed.

Lemma fine_declared : forall c ds, nodes_fine ds -> (c + Z.of_nat (len ds) <= LONG_MAX)%Z ->
  exists g1, node_declarations (fresh_globals c) ds = Ok (Some g1).
Proof.
  intros c ds [H1 H2] HC. destruct (node_declarations_ok ds c Null [] [] Null) as (lab & E); [|exact H2|left; reflexivity|exact HC|].
  - intros d Hd. rewrite Forall_forall in H1. destruct (H1 d Hd) as (A & B). split; [exact A|].
    unfold states. destruct (nd_states d) as [l|]; [congruence|contradiction].
  - eexists. exact E.
Qed.
Lemma file_rejected : forall k1 k2 c f1 T1 ds ts1 k, text_tokens f1 T1 -> Forall2 reads_as T1 ts1 -> rejected_text ds ts1 k ->
  left_on_line f1 k [] -> nodes_fine ds -> (c + Z.of_nat (len ds) <= LONG_MAX)%Z ->
  parse_file k1 k2 (fresh_globals c) f1 = Ok None /\ exists g1 x, give_up (fresh_globals c) f1 = Ok (Some (g1, x)).
Proof.
  intros k1 k2 c f1 T1 ds ts1 k A1 A2 A3 A4 F HC. destruct (fine_declared c ds F HC) as (g1 & E). split.
  - unfold parse_file. rewrite (lex_text f1 T1 ts1 A1 A2). cbn [bind]. destruct A3 as [ds ks t w j H HW].
    rewrite (input_nodes k1 k2 _ _ (rejected_start ds ks t w j H HW)). unfold blocks.
    rewrite (rejected_nodes ds ks t H w j HW) by (rewrite app_length; lia). rewrite E. reflexivity.
  - destruct (give_up_is ds ts1 k f1 T1 (fresh_globals c) A1 A2 A3 A4) as (x & _ & EX). rewrite E in EX. exists g1, x. exact EX.
Qed.

(** ** A file with a keyword as a name, and the file corrected *)
Definition keyword_lines : list string :=
  ["node A"; "{ states = (""a"" ""b""); }"; "node data"; "{ states = (""a"" ""b""); }"; "potential (A) { }"; "potential (data) { }"]%string.
Definition corrected_lines : list string :=
  ["node A"; "{ states = (""a"" ""b""); }"; "node D"; "{ states = (""a"" ""b""); }"; "potential (A) { }"; "potential (D) { }"]%string.
Definition keyword_file : list ascii := join keyword_lines.
Definition corrected_file : list ascii := join corrected_lines.
Definition symbols_of (r : res (option (list named_variable * model * globals * list looks * (Z * Z)))) : list (option string) :=
  match r with Ok (Some (names, _, _, _, _)) => map nv_symbol names | _ => [] end.
Lemma corrected_refutes : exists g1 x, parse_file kz kz (fresh_globals 0) keyword_file = Ok None /\
  give_up (fresh_globals 0) keyword_file = Ok (Some (g1, x)) /\
  symbols_of (parse_file kz kz (fresh_globals 0) corrected_file) = [Some "A"; Some "D"]%string /\
  symbols_of (parse_from kz kz g1 (another_file x corrected_file)) = [Some "A"; Some "A"; Some "D"]%string.
Proof.
  destruct (give_up (fresh_globals 0) keyword_file) as [[[g1 x]|]| |] eqn:E; try (vm_compute in E; discriminate E).
  exists g1, x. split; [vm_compute; reflexivity|]. split; [reflexivity|]. split; [vm_compute; reflexivity|].
  vm_compute in E. injection E as <- <-. vm_compute. reflexivity.
Qed.
