(** * Proofs about the grammar of NET files: documents are read *)
From Coq Require Import String Ascii QArith.QArith QArith.Qcanon QArith.Qabs.
From Verif Require Import Base BaseProofs StringSpec StringModel JoinTreeModel NipModel SeriesFileModel
  ParseModel NetLexModel NetGrammarModel NetSpec NetLexProofs NetLexProofs2.
Import ListNotations.
Open Scope nat_scope.
Local Open Scope res_scope.
Local Notation len := List.length.
Local Notation chars := list_ascii_of_string.

Lemma expect_marks : forall s ts, expect_all (chars s) (marks s ++ ts) = Some ts.
Proof.
  intros s ts. unfold marks. induction (chars s) as [|c l IH]; [reflexivity|]. cbn [map app expect_all expect].
  rewrite Ascii.eqb_refl. exact IH.
Qed.

Lemma strings_texts : forall l c r, strings (texts l ++ T_char c :: r) = (l, T_char c :: r).
Proof.
  induction l as [|s l IH]; intros c r; [reflexivity|]. cbn [texts map app strings]. fold (texts l). rewrite IH.
  rewrite string_of_list_ascii_of_string. reflexivity.
Qed.
Lemma symbols_names : forall l c r, symbol_list (names l ++ T_char c :: r) = (l, T_char c :: r).
Proof.
  induction l as [|s l IH]; intros c r; [reflexivity|]. cbn [names map app symbol_list]. fold (names l). rewrite IH.
  rewrite string_of_list_ascii_of_string. reflexivity.
Qed.

Definition prepend (l : list number) (x : option (list number * list terminal)) :=
  match x with Some (l', r) => Some (l ++ l', r) | None => None end.
Lemma numbers_nested : forall l ts, nested l ts -> forall d r, numbers d (ts ++ r) = prepend l (numbers d r).
Proof.
  intros l ts H. induction H as [|x l ts H IH|l1 l2 t1 t2 H1 IH1 H2 IH2]; intros d r.
  - cbn [app prepend]. destruct (numbers d r) as [[? ?]|]; reflexivity.
  - cbn [app numbers]. rewrite IH. destruct (numbers d r) as [[? ?]|]; reflexivity.
  - change (marks "(") with [T_char LPAR]. change (marks ")") with [T_char RPAR].
    cbn [app]. rewrite <- !app_assoc. cbn [app numbers]. rewrite Ascii.eqb_refl. rewrite IH1. cbn [numbers].
    change (Ascii.eqb RPAR LPAR) with false. rewrite Ascii.eqb_refl. cbn iota. rewrite IH2.
    destruct (numbers d r) as [[? ?]|]; [|reflexivity]. cbn [prepend]. rewrite app_assoc. reflexivity.
Qed.

Lemma int_of_whole : forall x n, int_of x = Ok n <-> whole x n.
Proof.
  intros x n. unfold int_of, whole. destruct x as [q|].
  2:{ split; [discriminate|]. intros (q & H & _). discriminate. }
  set (a := Qnum (this q)). set (b := Qden (this q)).
  assert (AQ : Qabs (this q) = Qmake (Z.abs a) b) by (unfold a, b; destruct (this q); reflexivity).
  assert (E : Z.abs (Z.quot a (Zpos b)) = (Z.abs a / Zpos b)%Z).
  { rewrite <- Z.quot_abs by lia. rewrite Z.quot_div_nonneg by lia. reflexivity. }
  assert (K : forall m, (Z.abs a / Zpos b)%Z = m <-> ((inject_Z m <= Qabs (this q))%Q /\ (Qabs (this q) < inject_Z (m + 1))%Q)).
  { intros m. rewrite AQ. unfold Qle, Qlt. cbn [Qnum Qden inject_Z]. rewrite Z.mul_1_r. split.
    - intros <-. pose proof (Z.mul_div_le (Z.abs a) (Zpos b)). pose proof (Z.mul_succ_div_gt (Z.abs a) (Zpos b)). lia.
    - intros [H1 H2]. symmetry. apply Z.div_unique with (r := (Z.abs a - m * Zpos b)%Z); lia. }
  cbv zeta. rewrite E. split.
  - destruct (Z.leb_spec (Z.abs a / Zpos b) INT_MAX) as [H|H]; intros X; [|discriminate]. injection X as <-.
    exists q. split; [reflexivity|]. split; [split; [apply Z.div_pos; lia|exact H]|]. apply K. reflexivity.
  - intros (q' & EQ & [H1 H2] & H). injection EQ as <-. apply K in H. rewrite H.
    destruct (Z.leb_spec n INT_MAX); [reflexivity|lia].
Qed.

Lemma finite_map : forall l, finite (map Finite l) = Ok l.
Proof. induction l as [|q l IH]; [reflexivity|]. cbn [map finite]. rewrite IH. reflexivity. Qed.

(** ** Fields *)
Lemma two_numbers_ok : forall a b x y r, whole a x -> whole b y ->
  two_numbers (marks "=(" ++ T_number a :: T_number b :: marks ");" ++ r) = Ok (Some (x, y, r)).
Proof.
  intros a b x y r HA HB. unfold two_numbers. change [EQUALS; LPAR] with (chars "=("). rewrite expect_marks.
  change [RPAR; SEMICOLON] with (chars ");"). rewrite expect_marks.
  apply int_of_whole in HA. apply int_of_whole in HB. rewrite HA. cbn [bind]. rewrite HB. reflexivity.
Qed.

Lemma expect_one : forall c r, expect c (T_char c :: r) = Some r.
Proof. intros. cbn. rewrite Ascii.eqb_refl. reflexivity. Qed.

Lemma one_string_ok : forall s r, one_string (marks "=" ++ texts [s] ++ marks ";" ++ r) = Some (s, r).
Proof.
  intros s r. unfold one_string. change (marks "=") with [T_char EQUALS]. change (marks ";") with [T_char SEMICOLON].
  cbn [app]. rewrite expect_one. cbn [texts map app]. rewrite expect_one, string_of_list_ascii_of_string. reflexivity.
Qed.

Lemma states_ok : forall l r, l <> [] -> states_declaration (marks "=(" ++ texts l ++ marks ");" ++ r) = Ok (Some (l, r)).
Proof.
  intros l r NE. unfold states_declaration. change [EQUALS; LPAR] with (chars "=("). rewrite expect_marks.
  change (marks ");" ++ r) with (T_char RPAR :: T_char SEMICOLON :: r). rewrite strings_texts.
  change (T_char RPAR :: T_char SEMICOLON :: r) with (marks ");" ++ r).
  change [RPAR; SEMICOLON] with (chars ");"). rewrite expect_marks. destruct l; [congruence|reflexivity].
Qed.

Lemma unknown_ok : forall v r, value_text v -> unknown_declaration (marks "=" ++ v ++ marks ";" ++ r) = Some r.
Proof.
  intros v r H. unfold unknown_declaration. change (marks "=") with [T_char EQUALS]. change (marks ";") with [T_char SEMICOLON].
  cbn [app]. rewrite expect_one. destruct H as [s|l ts H].
  - cbn [app]. apply expect_one.
  - assert (X : numbers 0 (ts ++ T_char SEMICOLON :: r) = Some (l, T_char SEMICOLON :: r)).
    { rewrite (numbers_nested l ts H). cbn. rewrite app_nil_r. reflexivity. }
    rewrite X. rewrite expect_one.
    destruct H; [cbn [app]| |]; reflexivity.
Qed.

Definition add_field (x : field) (y : res (option (list field * list terminal))) :=
  let* r := y in match r with Some (l, r) => Ok (Some (x :: l, r)) | None => Ok None end.

Lemma node_params_field : forall x t fuel r, field_text x t -> is_size x = false ->
  node_params (S fuel) (t ++ r) = add_field x (node_params fuel r).
Proof.
  intros x t fuel r H HS. destruct H as [l NE|s|s|a b x y HA HB|a b x y HA HB|s v HV]; try discriminate HS;
    rewrite <- !app_assoc; cbn [app node_params].
  - rewrite states_ok by exact NE. reflexivity.
  - rewrite (one_string_ok s r). reflexivity.
  - rewrite (one_string_ok s r). reflexivity.
  - rewrite (two_numbers_ok a b x y r HA HB). reflexivity.
  - rewrite (unknown_ok v r HV). reflexivity.
Qed.

Lemma parameters_field : forall x t fuel r, field_text x t -> (is_size x || is_other x)%bool = true ->
  parameters (S fuel) (t ++ r) = add_field x (parameters fuel r).
Proof.
  intros x t fuel r H HS. destruct H as [l NE|s|s|a b x y HA HB|a b x y HA HB|s v HV]; try discriminate HS;
    rewrite <- !app_assoc; cbn [app parameters].
  - rewrite (two_numbers_ok a b x y r HA HB). reflexivity.
  - rewrite (unknown_ok v r HV). reflexivity.
Qed.

Lemma field_len : forall x t, field_text x t -> 1 <= len t.
Proof. intros x t H. destruct H; cbn; lia. Qed.

Lemma node_params_ok : forall l ts, fields_text (fun x => negb (is_size x)) l ts -> forall fuel c r, len ts < fuel ->
  node_params fuel (ts ++ T_char c :: r) = Ok (Some (l, T_char c :: r)).
Proof.
  intros l ts H. induction H as [|x l t ts HK HX H IH]; intros fuel c r L; (destruct fuel as [|fuel]; [lia|]).
  - reflexivity.
  - rewrite app_length in L. pose proof (field_len x t HX). rewrite <- app_assoc.
    rewrite (node_params_field x t fuel _ HX) by (destruct (is_size x); [discriminate|reflexivity]).
    rewrite IH by lia. reflexivity.
Qed.

Definition no_parameter (ts : list terminal) : Prop :=
  match ts with T_unquoted _ :: _ | T_key K_node_size :: _ => False | _ => True end.
Lemma parameters_ok : forall l ts, fields_text (fun x => is_size x || is_other x)%bool l ts -> forall fuel r, len ts < fuel ->
  no_parameter r -> parameters fuel (ts ++ r) = Ok (Some (l, r)).
Proof.
  intros l ts H. induction H as [|x l t ts HK HX H IH]; intros fuel r L HR; (destruct fuel as [|fuel]; [lia|]).
  - cbn [app]. destruct r as [|[[]| | | | |] r]; try reflexivity; contradiction.
  - rewrite app_length in L. pose proof (field_len x t HX). rewrite <- app_assoc.
    rewrite (parameters_field x t fuel _ HX HK). rewrite IH by (assumption || lia). reflexivity.
Qed.

(** ** What counts among several fields *)
Lemma first_some_hd : forall A B (f : A -> option B) l,
  first_some f l = hd_error (flat_map (fun x => match f x with Some y => [y] | None => [] end) l).
Proof.
  intros A B f l. induction l as [|x l IH]; [reflexivity|]. cbn [first_some flat_map]. destruct (f x); [reflexivity|exact IH].
Qed.
Lemma flat_map_rev : forall A B (f : A -> option B) l,
  flat_map (fun x => match f x with Some y => [y] | None => [] end) (rev l)
  = rev (flat_map (fun x => match f x with Some y => [y] | None => [] end) l).
Proof.
  intros A B f l. induction l as [|x l IH]; [reflexivity|]. cbn [rev flat_map]. rewrite flat_map_app, IH, rev_app_distr.
  cbn [flat_map]. rewrite app_nil_r. destruct (f x); reflexivity.
Qed.
Lemma flat_map_ext_in : forall A B (f g : A -> list B) l, (forall x, f x = g x) -> flat_map f l = flat_map g l.
Proof. intros A B f g l H. induction l as [|x l IH]; [reflexivity|]. cbn. rewrite H, IH. reflexivity. Qed.

Lemma label_in_ok : forall l, label_in l = hd_error (labels l).
Proof.
  intros l. unfold label_in, labels. rewrite first_some_hd. f_equal. apply flat_map_ext_in. intros []; reflexivity.
Qed.
Lemma next_of_ok : forall l, next_of l = hd_error (nexts l).
Proof.
  intros l. unfold next_of, nexts. rewrite first_some_hd. f_equal. apply flat_map_ext_in. intros []; reflexivity.
Qed.
Lemma states_in_ok : forall l, states_in l = last_of (state_lists l).
Proof.
  intros l. unfold states_in, state_lists, last_of. rewrite first_some_hd, flat_map_rev. do 2 f_equal.
  apply flat_map_ext_in. intros []; reflexivity.
Qed.
Lemma position_in_ok : forall l, position_in l = last_of (positions l).
Proof.
  intros l. unfold position_in, positions, last_of. rewrite first_some_hd, flat_map_rev. do 2 f_equal.
  apply flat_map_ext_in. intros []; reflexivity.
Qed.
Lemma size_in_ok : forall l, size_in l = last_of (sizes l).
Proof.
  intros l. unfold size_in, sizes, last_of. rewrite first_some_hd, flat_map_rev. do 2 f_equal.
  apply flat_map_ext_in. intros []; reflexivity.
Qed.
Lemma node_size_ok : forall l, node_size l = size_of l.
Proof. intros l. unfold node_size, size_of. rewrite size_in_ok. reflexivity. Qed.
Lemma looks_of_ok : forall l, looks_of l = mkLooks (hd_error (labels l)) (fst (place l)) (snd (place l)).
Proof.
  intros l. unfold looks_of, place. rewrite position_in_ok, label_in_ok.
  destruct (last_of (positions l)) as [[x y]|]; reflexivity.
Qed.

(** ** Nodes *)
Lemma braced_ok : forall l ts r, fields_text (fun x => negb (is_size x)) l ts ->
  braced_params (marks "{" ++ ts ++ marks "}" ++ r) = Ok (Some (l, r)).
Proof.
  intros l ts r H. unfold braced_params. change (marks "{") with [T_char LBRACE]. change (marks "}") with [T_char RBRACE].
  cbn [app]. rewrite expect_one. rewrite (node_params_ok l ts H) by (rewrite app_length; lia). cbn [bind].
  rewrite expect_one. reflexivity.
Qed.

Lemma node_text_ok : forall d k t g r, node_in_text d k t -> node_text g (t ++ r) = Ok (Some (d, k, r)).
Proof.
  intros d k t g r H. destruct H as [kind s l ts H].
  assert (X : supported (chars s) (marks "{" ++ ts ++ marks "}" ++ r)
    = Ok (Some (mkNode s (hd_error (labels l)) (last_of (state_lists l)) (hd_error (nexts l)),
                mkLooks (hd_error (labels l)) (fst (place l)) (snd (place l)), r))).
  { unfold supported. rewrite (braced_ok l ts r H). cbn [bind].
    rewrite string_of_list_ascii_of_string, label_in_ok, states_in_ok, next_of_ok, looks_of_ok. reflexivity. }
  destruct kind; rewrite <- !app_assoc; cbn [node_start names map app node_text] in *; exact X.
Qed.

Lemma node_starts : forall d k t r, node_in_text d k t -> starts_node (t ++ r) = true /\ 1 <= len t.
Proof. intros d k t r H. destruct H as [[] s l ts H]; cbn; split; (reflexivity || lia). Qed.

Lemma nodes_ok : forall ds ks ts, nodes_in_text ds ks ts -> forall fuel g r, len ts < fuel -> starts_node r = false ->
  nodes fuel g (ts ++ r) =
    let* x := node_declarations g ds in
    match x with
    | None => Ok None
    | Some g => match g_parsed g with Live _ => Ok (Some (g, ks, r)) | _ => UB end
    end.
Proof.
  intros ds ks ts H. induction H as [|d k t ds ks ts HX H IH]; intros fuel g r L HR; (destruct fuel as [|fuel]; [lia|]).
  - cbn [app nodes]. rewrite HR. reflexivity.
  - rewrite app_length in L. destruct (node_starts d k t (ts ++ r) HX) as [S1 S2]. rewrite <- app_assoc.
    cbn [nodes node_declarations]. rewrite S1, (node_text_ok d k t g (ts ++ r) HX). cbn [bind].
    destruct (node_declaration g d) as [[g'|]| |]; cbn [bind]; try reflexivity.
    rewrite IH by (assumption || lia). destruct (node_declarations g' ds) as [[g2|]| |]; cbn [bind]; try reflexivity.
    destruct (g_parsed g2); reflexivity.
Qed.

(** ** Potentials *)
Lemma data_list_ok : forall l ts r, l <> [] -> nested (map Finite l) ts ->
  data_list (marks "=(" ++ ts ++ marks ");" ++ r) = Ok (Some (l, r)).
Proof.
  intros l ts r NE H. unfold data_list. change [EQUALS; LPAR] with (chars "=("). rewrite expect_marks.
  rewrite (numbers_nested _ ts H).
  change (numbers 0 (marks ");" ++ r)) with (Some (@nil number, marks ");" ++ r)). cbn [prepend].
  rewrite app_nil_r. change [RPAR; SEMICOLON] with (chars ");"). rewrite expect_marks.
  destruct l as [|q l]; [congruence|]. cbn [map]. change (Finite q :: map Finite l) with (map Finite (q :: l)).
  rewrite finite_map. reflexivity.
Qed.

Lemma potential_body_ok : forall dat ts r, data_in_text dat ts ->
  potential_body (marks "){" ++ ts ++ marks "}" ++ r) = Ok (Some (dat, r)).
Proof.
  intros dat ts r H. unfold potential_body. change [RPAR; LBRACE] with (chars "){"). rewrite expect_marks.
  change (marks "}") with [T_char RBRACE].
  destruct H as [|l ts NE H].
  - cbn [app]. rewrite expect_one. reflexivity.
  - rewrite <- !app_assoc. cbn [app]. rewrite (data_list_ok l ts (T_char RBRACE :: r) NE H). cbn [bind].
    rewrite expect_one. reflexivity.
Qed.

Lemma potential_text_ok : forall d t vl r, potential_in_text d t ->
  exists t', t ++ r = T_key K_potential :: t' /\ len r <= len t' /\
  (let* x := potential_text vl t' in
   match x with
   | None => Ok None
   | Some (d, r) => let* p := potential_declaration vl d in Ok (match p with Some p => Some (p, r) | None => None end)
   end) =
  let* p := potential_declaration vl d in Ok (match p with Some p => Some (p, r) | None => None end).
Proof.
  intros d t vl r H. destruct H as [s l dat ts H]. rewrite <- !app_assoc. cbn [app]. eexists. split; [reflexivity|].
  split; [rewrite !app_length; cbn; lia|].
  change (marks "(") with [T_char LPAR]. unfold potential_text. cbn [app]. rewrite expect_one.
  cbn [names map app]. rewrite string_of_list_ascii_of_string.
  destruct (search_list vl s 0) as [o| |] eqn:ES; cbn [bind].
  2,3: unfold potential_declaration; cbn [pd_child]; rewrite ES; reflexivity.
  destruct l as [l|]; cbn [given_text].
  - change (marks "|") with [T_char BAR]. cbn [app]. rewrite expect_one.
    change (marks "){" ++ ts ++ marks "}" ++ r) with (T_char RPAR :: T_char LBRACE :: ts ++ marks "}" ++ r).
    change (@app terminal [T_char BAR] (names l)) with (T_char BAR :: names l). cbn [app].
    rewrite symbols_names.
    destruct (parent_list vl l []) as [[ps|]| |] eqn:EP; cbn [bind].
    + change (T_char RPAR :: T_char LBRACE :: ts ++ marks "}" ++ r) with (marks "){" ++ ts ++ marks "}" ++ r).
      rewrite (potential_body_ok dat ts r H). reflexivity.
    + unfold potential_declaration. cbn [pd_child pd_parents]. rewrite ES. cbn [bind]. rewrite EP. reflexivity.
    + unfold potential_declaration. cbn [pd_child pd_parents]. rewrite ES. cbn [bind]. rewrite EP. reflexivity.
    + unfold potential_declaration. cbn [pd_child pd_parents]. rewrite ES. cbn [bind]. rewrite EP. reflexivity.
  - cbn [app]. change (expect BAR (marks "){" ++ ts ++ marks "}" ++ r)) with (@None (list terminal)). cbn [bind].
    rewrite (potential_body_ok dat ts r H). reflexivity.
Qed.

Lemma potentials_ok : forall ds ts, potentials_in_text ds ts -> forall fuel vl ps r, len ts < fuel ->
  match r with T_key K_potential :: _ => False | _ => True end ->
  potentials fuel vl ps (ts ++ r) =
    let* x := potential_declarations vl ds ps in
    Ok (match x with Some ps => Some (ps, r) | None => None end).
Proof.
  intros ds ts H. induction H as [|d t ds ts HX H IH]; intros fuel vl ps r L HR; (destruct fuel as [|fuel]; [lia|]).
  - cbn [app potentials potential_declarations bind]. destruct r as [|[[]| | | | |] r]; try reflexivity; contradiction.
  - rewrite app_length in L. rewrite <- app_assoc.
    destruct (potential_text_ok d t vl (ts ++ r) HX) as (t' & E & L' & ET). rewrite E.
    assert (len t >= 1) by (assert (len (t ++ ts ++ r) = S (len t')) by (rewrite E; reflexivity); rewrite !app_length in *; lia).
    cbn [potentials potential_declarations].
    assert (G : forall (k : parsed_potential -> list terminal -> res (option (pointer (list parsed_potential) * list terminal))),
      (let* x := potential_text vl t' in
       match x with
       | None => Ok None
       | Some (d, r) =>
          let* p := potential_declaration vl d in
              match p with
              | None => Ok None
              | Some p => k p r end end)
      = (let* x := (let* x := potential_text vl t' in
           match x with
           | None => Ok None
           | Some (d, r) => let* p := potential_declaration vl d in Ok (match p with Some p => Some (p, r) | None => None end)
           end) in match x with None => Ok None | Some (p, r) => k p r end)).
    { intros k. destruct (potential_text vl t') as [[[d' r']|]| |]; cbn [bind]; try reflexivity.
      destruct (potential_declaration vl d') as [[p|]| |]; reflexivity. }
    rewrite (G (fun p r => let* ps := append_to ps p in potentials fuel vl ps r)). rewrite ET.
    destruct (potential_declaration vl d) as [[p|]| |]; cbn [bind]; try reflexivity.
    destruct (append_to ps p) as [ps'| |]; cbn [bind]; try reflexivity. apply IH; [lia|exact HR].
Qed.

(** ** Files *)
Definition with_looks (ks : list looks) (size : Z * Z) (x : res (option (list pvar * model * globals))) :=
  let* r := x in Ok (match r with None => None | Some (vl, m, g) => Some (vl, m, g, ks, size) end).

Lemma potentials_start : forall ps t r, potentials_in_text ps t -> starts_node r = false -> starts_node (t ++ r) = false.
Proof. intros ps t r H HR. destruct H as [|d t ds ts HX H]; [exact HR|]. destruct HX. reflexivity. Qed.

Lemma blocks_ok : forall k1 k2 g cl size ds ks ps t1 t2, nodes_in_text ds ks t1 -> potentials_in_text ps t2 ->
  (cl = [] \/ cl = [RBRACE]) ->
  blocks k1 k2 g cl size (t1 ++ t2 ++ map T_char cl) = with_looks ks size (yyparse k1 k2 g (mkNet ds ps)).
Proof.
  intros k1 k2 g cl size ds ks ps t1 t2 H1 H2 HC. unfold blocks.
  rewrite (nodes_ok ds ks t1 H1).
  2:{ rewrite app_length. lia. }
  2:{ apply (potentials_start ps); [exact H2|]. destruct HC as [-> | ->]; reflexivity. }
  unfold yyparse, with_looks. cbn [n_nodes n_potentials].
  destruct (node_declarations g ds) as [[g'|]| |]; cbn [bind]; try reflexivity.
  destruct (g_parsed g') as [|vl|] eqn:EP; cbn [bind]; try reflexivity. rewrite EP.
  rewrite (potentials_ok ps t2 H2); [|rewrite app_length; lia|destruct HC as [-> | ->]; exact I].
  destruct (potential_declarations vl ps (g_potentials g')) as [[ps'|]| |]; cbn [bind]; try reflexivity.
  replace (expect_all cl (map T_char cl)) with (Some (@nil terminal)) by (destruct HC as [-> | ->]; reflexivity).
  destruct (input_action k1 k2 g' vl ps') as [[[[vl' m] g2]|]| |]; reflexivity.
Qed.

Lemma nodes_no_parameter : forall ds ks ps t1 t2 r, nodes_in_text ds ks t1 -> potentials_in_text ps t2 ->
  no_parameter r -> no_parameter (t1 ++ t2 ++ r).
Proof.
  intros ds ks ps t1 t2 r H1 H2 HR. destruct H1 as [|d k t ds ks ts HX H].
  - destruct H2 as [|d t ds ts HX H]; [exact HR|]. destruct HX. exact I.
  - destruct HX as [[] s l ts' H']; exact I.
Qed.

Lemma blocks_start : forall k1 k2 g ds ks ps t1 t2, nodes_in_text ds ks t1 -> potentials_in_text ps t2 ->
  input k1 k2 g (t1 ++ t2) = blocks k1 k2 g [] (80, 60)%Z (t1 ++ t2).
Proof.
  intros k1 k2 g ds ks ps t1 t2 H1 H2. destruct H1 as [|d k t ds ks ts HX H].
  - destruct H2 as [|d t ds ts HX H]; [reflexivity|]. destruct HX. reflexivity.
  - destruct HX as [[] s l ts' H']; reflexivity.
Qed.

Lemma input_ok : forall k1 k2 g t ks size ts, document t ks size ts ->
  input k1 k2 g ts = with_looks ks size (yyparse k1 k2 g t).
Proof.
  intros k1 k2 g t ks size ts H.
  destruct H as [ds ks ps t1 t2 H1 H2|l t0 ds ks ps t1 t2 H0 H1 H2|s l t0 ds ks ps t1 t2 H0 H1 H2].
  - rewrite (blocks_start k1 k2 g ds ks ps t1 t2 H1 H2).
    rewrite <- (blocks_ok k1 k2 g [] _ ds ks ps t1 t2 H1 H2) by (left; reflexivity).
    cbn [map]. rewrite !app_nil_r. reflexivity.
  - change (marks "{") with [T_char LBRACE]. change (marks "}") with [T_char RBRACE]. cbn [app input].
    rewrite expect_one. rewrite (parameters_ok l t0 H0); [|rewrite app_length; lia|exact I]. cbn [bind].
    rewrite expect_one, node_size_ok.
    rewrite <- (blocks_ok k1 k2 g [] _ ds ks ps t1 t2 H1 H2) by (left; reflexivity).
    cbn [map]. rewrite !app_nil_r. reflexivity.
  - change (marks "{") with [T_char LBRACE]. change (marks "}") with (map T_char [RBRACE]). cbn [app names map input].
    rewrite expect_one. rewrite (parameters_ok l t0 H0).
    2:{ rewrite app_length; lia. }
    2:{ apply (nodes_no_parameter ds ks ps); [exact H1|exact H2|exact I]. }
    cbn [bind]. rewrite node_size_ok.
    change [T_char RBRACE] with (map T_char [RBRACE]).
    rewrite (blocks_ok k1 k2 g [RBRACE] _ ds ks ps t1 t2 H1 H2) by (right; reflexivity). reflexivity.
Qed.

Lemma C69_lemma : forall k1 k2 g contents toks ts t ks size,
  text_tokens contents toks -> Forall2 reads_as toks ts -> document t ks size ts ->
  parse_file k1 k2 g contents =
    let* r := parse_model k1 k2 g t in
    Ok (match r with None => None | Some (names, m, g) => Some (names, m, g, ks, size) end).
Proof.
  intros k1 k2 g contents toks ts t ks size H1 H2 H3. unfold parse_file, parse_model.
  rewrite (lex_text contents toks ts H1 H2). cbn [bind]. rewrite (input_ok k1 k2 g t ks size ts H3).
  unfold with_looks. destruct (yyparse k1 k2 g t) as [[[[vl m] g']|]| |]; cbn [bind]; try reflexivity.
  destruct (finish vl m g') as [[[[names m'] g2]|]| |]; reflexivity.
Qed.
