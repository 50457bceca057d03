(** * Proofs about the grammar of NET files: what is accepted is a document *)
From Coq Require Import String Ascii QArith.QArith QArith.Qcanon QArith.Qabs.
From Verif Require Import Base BaseProofs StringSpec StringModel JoinTreeModel NipModel SeriesFileModel
  ParseModel NetLexModel NetGrammarModel NetSpec NetLexProofs NetLexProofs2 NetGrammarProofs.
Import ListNotations.
Open Scope nat_scope.
Local Open Scope res_scope.
Local Notation len := List.length.
Local Notation chars := list_ascii_of_string.

Lemma expect_inv : forall c ts r, expect c ts = Some r -> ts = T_char c :: r.
Proof.
  intros c ts r H. destruct ts as [|[| | | |d|] ts]; try discriminate H. cbn in H.
  destruct (Ascii.eqb_spec c d); [|discriminate]. congruence.
Qed.
Lemma expect_all_inv : forall cs ts r, expect_all cs ts = Some r -> ts = map T_char cs ++ r.
Proof.
  induction cs as [|c cs IH]; intros ts r H; cbn in H; [cbn; congruence|].
  destruct (expect c ts) as [ts'|] eqn:E; [|discriminate]. apply expect_inv in E. apply IH in H. subst. reflexivity.
Qed.

Lemma strings_inv : forall ts l r, strings ts = (l, r) -> ts = texts l ++ r.
Proof.
  induction ts as [|t ts IH]; intros l r H; [cbn in H; injection H as <- <-; reflexivity|].
  destruct t; try (cbn in H; injection H as <- <-; reflexivity).
  cbn [strings] in H. destruct (strings ts) as [l' r'] eqn:E. injection H as <- <-. cbn [texts map app].
  rewrite list_ascii_of_string_of_list_ascii. f_equal. apply IH. reflexivity.
Qed.
Lemma symbols_inv : forall ts l r, symbol_list ts = (l, r) -> ts = names l ++ r.
Proof.
  induction ts as [|t ts IH]; intros l r H; [cbn in H; injection H as <- <-; reflexivity|].
  destruct t; try (cbn in H; injection H as <- <-; reflexivity).
  cbn [symbol_list] in H. destruct (symbol_list ts) as [l' r'] eqn:E. injection H as <- <-. cbn [names map app].
  rewrite list_ascii_of_string_of_list_ascii. f_equal. apply IH. reflexivity.
Qed.

(** [d] groups are still open. *)
Inductive nested_open : nat -> list number -> list terminal -> Prop :=
| all_closed : forall l ts, nested l ts -> nested_open 0 l ts
| one_open : forall d l1 l2 t1 t2, nested l1 t1 -> nested_open d l2 t2 ->
    nested_open (S d) (l1 ++ l2) (t1 ++ T_char RPAR :: t2).
Lemma nested_open_number : forall d x l ts, nested_open d l ts -> nested_open d (x :: l) (T_number x :: ts).
Proof.
  intros d x l ts H. destruct H as [l ts H|d l1 l2 t1 t2 H1 H2].
  - constructor. constructor. exact H.
  - apply (one_open d (x :: l1) l2 (T_number x :: t1)); [constructor; exact H1|exact H2].
Qed.
Lemma nested_open_group : forall d l ts, nested_open (S d) l ts -> nested_open d l (T_char LPAR :: ts).
Proof.
  intros d l ts H. inversion H as [|d' l1 l2 t1 t2 H1 H2]; subst. destruct H2 as [l2 t2 H2|d l2 l3 t2 t3 H2 H3].
  - constructor. apply (nested_group l1 l2 t1 t2 H1 H2).
  - rewrite app_assoc. replace (T_char LPAR :: t1 ++ T_char RPAR :: t2 ++ T_char RPAR :: t3)
      with ((marks "(" ++ t1 ++ marks ")" ++ t2) ++ T_char RPAR :: t3)
      by (cbn [app marks map list_ascii_of_string]; rewrite <- !app_assoc; reflexivity).
    apply one_open; [apply nested_group; assumption|exact H3].
Qed.
Lemma numbers_inv : forall ts d l r, numbers d ts = Some (l, r) -> exists t, ts = t ++ r /\ nested_open d l t.
Proof.
  assert (Z0 : nested_open 0 [] []) by (constructor; constructor).
  induction ts as [|t ts IH]; intros d l r H.
  - cbn in H. destruct d; [|discriminate]. injection H as <- <-. exists []. split; [reflexivity|exact Z0].
  - destruct t as [k|s|s|x|c|]; cbn [numbers] in H;
      try (destruct d; [|discriminate]; injection H as <- <-; exists []; split; [reflexivity|exact Z0]).
    + destruct (numbers d ts) as [[l' r']|] eqn:E; [|discriminate]. injection H as <- <-.
      destruct (IH d l' r' E) as (t & -> & HT). exists (T_number x :: t). split; [reflexivity|].
      apply nested_open_number. exact HT.
    + destruct (Ascii.eqb_spec c LPAR) as [->|].
      { destruct (IH (S d) l r H) as (t & -> & HT). exists (T_char LPAR :: t). split; [reflexivity|].
        apply nested_open_group. exact HT. }
      destruct (Ascii.eqb_spec c RPAR) as [->|].
      * destruct d as [|d]; [injection H as <- <-; exists []; split; [reflexivity|exact Z0]|].
        destruct (IH d l r H) as (t & -> & HT). exists (T_char RPAR :: t). split; [reflexivity|].
        apply (one_open d [] l [] t); [constructor|exact HT].
      * destruct d; [|discriminate]. injection H as <- <-. exists []. split; [reflexivity|exact Z0].
Qed.
Lemma numbers0_inv : forall ts l r, numbers 0 ts = Some (l, r) -> exists t, ts = t ++ r /\ nested l t.
Proof.
  intros ts l r H. destruct (numbers_inv ts 0 l r H) as (t & E & HT). exists t. split; [exact E|].
  inversion HT; subst. assumption.
Qed.

Lemma finite_inv : forall l l', finite l = Ok l' -> l = map Finite l'.
Proof.
  induction l as [|x l IH]; intros l' H; cbn in H; [injection H as <-; reflexivity|].
  destruct x as [q|]; [|discriminate]. destruct (finite l) as [l2| |]; try discriminate. cbn in H. injection H as <-.
  cbn [map]. f_equal. apply IH. reflexivity.
Qed.

(** ** Fields *)
Lemma two_numbers_inv : forall ts x y r, two_numbers ts = Ok (Some (x, y, r)) ->
  exists a b, ts = marks "=(" ++ [T_number a; T_number b] ++ marks ");" ++ r /\ whole a x /\ whole b y.
Proof.
  intros ts x y r H. unfold two_numbers in H.
  destruct (expect_all [EQUALS; LPAR] ts) as [[|[| | |a| |] [|[| | |b| |] t]]|] eqn:E; try discriminate H.
  apply expect_all_inv in E.
  destruct (expect_all [RPAR; SEMICOLON] t) as [r'|] eqn:E2; [|discriminate]. apply expect_all_inv in E2.
  destruct (int_of a) as [x'| |] eqn:EA; try discriminate H. destruct (int_of b) as [y'| |] eqn:EB; try discriminate H.
  cbn in H. injection H as <- <- <-. apply int_of_whole in EA. apply int_of_whole in EB.
  exists a, b. subst. split; [reflexivity|]. split; assumption.
Qed.
Lemma one_string_inv : forall ts s r, one_string ts = Some (s, r) -> ts = marks "=" ++ texts [s] ++ marks ";" ++ r.
Proof.
  intros ts s r H. unfold one_string in H.
  destruct (expect EQUALS ts) as [[|[|q| | | |] t]|] eqn:E; try discriminate H. apply expect_inv in E.
  destruct (expect SEMICOLON t) as [r'|] eqn:E2; [|discriminate]. apply expect_inv in E2. injection H as <- <-. subst.
  cbn [texts map]. rewrite list_ascii_of_string_of_list_ascii. reflexivity.
Qed.
Lemma states_inv : forall ts l r, states_declaration ts = Ok (Some (l, r)) ->
  ts = marks "=(" ++ texts l ++ marks ");" ++ r /\ l <> [].
Proof.
  intros ts l r H. unfold states_declaration in H.
  destruct (expect_all [EQUALS; LPAR] ts) as [t|] eqn:E; [|discriminate H]. apply expect_all_inv in E.
  destruct (strings t) as [l' t'] eqn:ES. apply strings_inv in ES.
  destruct (expect_all [RPAR; SEMICOLON] t') as [r'|] eqn:E2; [|discriminate]. apply expect_all_inv in E2.
  destruct l' as [|s l']; [discriminate|]. injection H as <- <-. split; [|discriminate]. subst. reflexivity.
Qed.
Lemma unknown_inv : forall ts r, unknown_declaration ts = Some r ->
  exists v, ts = marks "=" ++ v ++ marks ";" ++ r /\ value_text v.
Proof.
  intros ts r H. unfold unknown_declaration in H. destruct (expect EQUALS ts) as [t|] eqn:E; [|discriminate H].
  apply expect_inv in E. subst ts.
  assert (X : (exists s t', t = T_quoted s :: t' /\ expect SEMICOLON t' = Some r) \/
              exists l t', numbers 0 t = Some (l, t') /\ expect SEMICOLON t' = Some r).
  { destruct t as [|[k|s|s|x|c|] t];
      try (right; destruct (numbers 0 _) as [[l t']|]; [|discriminate]; exists l, t'; split; [reflexivity|exact H]).
    left. exists s, t. split; [reflexivity|exact H]. }
  destruct X as [(s & t' & -> & E)|(l & t' & EN & E)]; apply expect_inv in E; subst t'.
  - exists [T_quoted s]. split; [reflexivity|constructor].
  - apply numbers0_inv in EN. destruct EN as (v & -> & HV). exists v. split; [reflexivity|]. apply (value_numbers l). exact HV.
Qed.

Ltac refold := cbn [app]; rewrite <- ?app_assoc; reflexivity.

Lemma node_params_inv : forall fuel ts l r, node_params fuel ts = Ok (Some (l, r)) ->
  exists t, ts = t ++ r /\ fields_text (fun x => negb (is_size x)) l t.
Proof.
  induction fuel as [|fuel IH]; intros ts l r H; [discriminate|].
  assert (DONE : Ok (Some ([], ts)) = Ok (Some (l, r)) -> exists t, ts = t ++ r /\ fields_text (fun x => negb (is_size x)) l t).
  { intros X. injection X as <- <-. exists []. split; [reflexivity|constructor]. }
  assert (MORE : forall x t0 r0, ts = t0 ++ r0 -> field_text x t0 -> is_size x = false ->
     (let* r := node_params fuel r0 in match r with Some (l, r) => Ok (Some (x :: l, r)) | None => Ok None end) = Ok (Some (l, r)) ->
     exists t, ts = t ++ r /\ fields_text (fun x => negb (is_size x)) l t).
  { intros x t0 r0 -> HX HS E. destruct (node_params fuel r0) as [[[l' r']|]| |] eqn:EN; try discriminate E.
    cbn in E. injection E as <- <-. destruct (IH r0 l' r' EN) as (t & -> & HT). exists (t0 ++ t).
    split; [apply app_assoc|]. constructor; [rewrite HS; reflexivity|exact HX|exact HT]. }
  cbn [node_params] in H.
  destruct ts as [|[k|s|s|x|c|] ts]; try exact (DONE H).
  - destruct k; try exact (DONE H).
    + destruct (one_string ts) as [[s r0]|] eqn:E; [|discriminate H]. apply one_string_inv in E. subst ts.
      eapply MORE; [|apply (text_label s)| |exact H]; [refold|reflexivity].
    + destruct (two_numbers ts) as [[[[x y] r0]|]| |] eqn:E; try discriminate H. apply two_numbers_inv in E.
      destruct E as (a & b & -> & HA & HB). cbn [bind] in H.
      eapply MORE; [|apply (text_position a b x y HA HB)| |exact H]; [refold|reflexivity].
    + destruct (states_declaration ts) as [[[l0 r0]|]| |] eqn:E; try discriminate H. apply states_inv in E.
      destruct E as (-> & NE). cbn [bind] in H.
      eapply MORE; [|apply (text_states l0 NE)| |exact H]; [refold|reflexivity].
    + destruct (one_string ts) as [[s r0]|] eqn:E; [|discriminate H]. apply one_string_inv in E. subst ts.
      eapply MORE; [|apply (text_next s)| |exact H]; [refold|reflexivity].
  - destruct (unknown_declaration ts) as [r0|] eqn:E; [|discriminate H]. apply unknown_inv in E.
    destruct E as (v & -> & HV).
    eapply MORE; [|apply (text_other s v HV)| |exact H]; [refold|reflexivity].
Qed.

Lemma parameters_inv : forall fuel ts l r, parameters fuel ts = Ok (Some (l, r)) ->
  exists t, ts = t ++ r /\ fields_text (fun x => is_size x || is_other x)%bool l t.
Proof.
  induction fuel as [|fuel IH]; intros ts l r H; [discriminate|].
  assert (DONE : Ok (Some ([], ts)) = Ok (Some (l, r)) -> exists t, ts = t ++ r /\ fields_text (fun x => is_size x || is_other x)%bool l t).
  { intros X. injection X as <- <-. exists []. split; [reflexivity|constructor]. }
  assert (MORE : forall x t0 r0, ts = t0 ++ r0 -> field_text x t0 -> (is_size x || is_other x)%bool = true ->
     (let* r := parameters fuel r0 in match r with Some (l, r) => Ok (Some (x :: l, r)) | None => Ok None end) = Ok (Some (l, r)) ->
     exists t, ts = t ++ r /\ fields_text (fun x => is_size x || is_other x)%bool l t).
  { intros x t0 r0 -> HX HS E. destruct (parameters fuel r0) as [[[l' r']|]| |] eqn:EN; try discriminate E.
    cbn in E. injection E as <- <-. destruct (IH r0 l' r' EN) as (t & -> & HT). exists (t0 ++ t).
    split; [apply app_assoc|]. constructor; [exact HS|exact HX|exact HT]. }
  cbn [parameters] in H.
  destruct ts as [|[k|s|s|x|c|] ts]; try exact (DONE H).
  - destruct k; try exact (DONE H).
    destruct (two_numbers ts) as [[[[x y] r0]|]| |] eqn:E; try discriminate H. apply two_numbers_inv in E.
    destruct E as (a & b & -> & HA & HB). cbn [bind] in H.
    eapply MORE; [|apply (text_size a b x y HA HB)| |exact H]; [refold|reflexivity].
  - destruct (unknown_declaration ts) as [r0|] eqn:E; [|discriminate H]. apply unknown_inv in E.
    destruct E as (v & -> & HV).
    eapply MORE; [|apply (text_other s v HV)| |exact H]; [refold|reflexivity].
Qed.

(** ** Nodes *)
Lemma braced_inv : forall ts l r, braced_params ts = Ok (Some (l, r)) ->
  exists t, ts = marks "{" ++ t ++ marks "}" ++ r /\ fields_text (fun x => negb (is_size x)) l t.
Proof.
  intros ts l r H. unfold braced_params in H. destruct (expect LBRACE ts) as [t|] eqn:E; [|discriminate].
  apply expect_inv in E. destruct (node_params (S (len t)) t) as [[[l' r']|]| |] eqn:EN; try discriminate H. cbn [bind] in H.
  destruct (expect RBRACE r') as [r2|] eqn:E2; [|discriminate]. apply expect_inv in E2. injection H as <- <-.
  destruct (node_params_inv _ _ _ _ EN) as (t' & -> & HT). exists t'. subst. split; [reflexivity|exact HT].
Qed.

Lemma node_text_inv : forall g ts d k r, node_text g ts = Ok (Some (d, k, r)) ->
  exists t, ts = t ++ r /\ node_in_text d k t.
Proof.
  assert (U : forall g ts x, unsupported g ts = Ok (Some x) -> False).
  { intros g ts x H. unfold unsupported in H. destruct (braced_params ts) as [[[l r]|]| |]; try discriminate H.
    cbn [bind] in H. destruct (label_in l), (g_label g); discriminate H. }
  assert (S1 : forall kind s ts d k r, supported s ts = Ok (Some (d, k, r)) ->
    exists t, node_start kind ++ T_unquoted s :: ts = t ++ r /\ node_in_text d k t).
  { intros kind s ts d k r H. unfold supported in H. destruct (braced_params ts) as [[[l r']|]| |] eqn:E; try discriminate H.
    cbn [bind] in H. injection H as <- <- <-. destruct (braced_inv _ _ _ E) as (t & -> & HT).
    rewrite label_in_ok, states_in_ok, next_of_ok, looks_of_ok.
    eexists. split; [|apply (node_of kind (string_of_list_ascii s) l t HT)].
    unfold names. cbn [map]. rewrite list_ascii_of_string_of_list_ascii. rewrite <- !app_assoc. cbn [app]. reflexivity. }
  intros g ts d k r H. unfold node_text in H.
  destruct ts as [|[[]| | | | |] ts]; try discriminate H; destruct ts as [|[[]| | | | |] ts]; try discriminate H;
    try (exfalso; exact (U _ _ _ H)).
  - destruct ts as [|[[]| | | | |] ts]; try discriminate H. apply (S1 true). exact H.
  - destruct ts as [|[[]| | | | |] ts]; try discriminate H. exfalso; exact (U _ _ _ H).
  - apply (S1 false). exact H.
Qed.

Lemma nodes_inv : forall fuel g ts g' ks r, nodes fuel g ts = Ok (Some (g', ks, r)) ->
  exists ds t, ts = t ++ r /\ nodes_in_text ds ks t /\ node_declarations g ds = Ok (Some g') /\
    starts_node r = false.
Proof.
  induction fuel as [|fuel IH]; intros g ts g' ks r H; [discriminate|]. cbn [nodes] in H.
  destruct (starts_node ts) eqn:ES.
  - destruct (node_text g ts) as [[[[d k] r0]|]| |] eqn:E; try discriminate H. cbn [bind] in H.
    destruct (node_declaration g d) as [[g2|]| |] eqn:ED; try discriminate H. cbn [bind] in H.
    destruct (nodes fuel g2 r0) as [[[[g3 ks'] r']|]| |] eqn:EN; try discriminate H. cbn [bind] in H.
    injection H as <- <- <-. destruct (node_text_inv _ _ _ _ _ E) as (t & -> & HT).
    destruct (IH _ _ _ _ _ EN) as (ds & t2 & -> & H1 & H2 & H3).
    exists (d :: ds), (t ++ t2). split; [apply app_assoc|]. split; [constructor; assumption|].
    split; [|exact H3]. cbn [node_declarations]. rewrite ED. cbn [bind]. exact H2.
  - destruct (g_parsed g); try discriminate H. injection H as <- <- <-.
    exists [], []. split; [reflexivity|]. split; [constructor|]. split; [reflexivity|exact ES].
Qed.

(** ** Potentials *)
Lemma data_list_inv : forall ts l r, data_list ts = Ok (Some (l, r)) ->
  exists t, ts = marks "=(" ++ t ++ marks ");" ++ r /\ l <> [] /\ nested (map Finite l) t.
Proof.
  intros ts l r H. unfold data_list in H.
  destruct (expect_all [EQUALS; LPAR] ts) as [t|] eqn:E; [|discriminate H]. apply expect_all_inv in E.
  destruct (numbers 0 t) as [[l' t']|] eqn:EN; [|discriminate H].
  destruct (expect_all [RPAR; SEMICOLON] t') as [r'|] eqn:E2; [|discriminate]. apply expect_all_inv in E2.
  destruct l' as [|x l']; [discriminate|].
  destruct (finite (x :: l')) as [l2| |] eqn:EF; try discriminate H. injection H as <- <-.
  apply finite_inv in EF. apply numbers0_inv in EN. destruct EN as (v & -> & HV). exists v. subst.
  split; [reflexivity|]. rewrite EF in HV. split; [|exact HV]. destruct l2; discriminate.
Qed.

Lemma potential_body_inv : forall ts dat r, potential_body ts = Ok (Some (dat, r)) ->
  exists t, ts = marks "){" ++ t ++ marks "}" ++ r /\ data_in_text dat t.
Proof.
  intros ts dat r H. unfold potential_body in H.
  destruct (expect_all [RPAR; LBRACE] ts) as [t|] eqn:E; [|discriminate H]. apply expect_all_inv in E.
  assert (X : (exists t', t = T_key K_data :: t' /\
      (let* x := data_list t' in
      match x with
      | Some (l, r) =>
          match expect RBRACE r with Some r => Ok (Some (Some l, r)) | None => Ok None end
      | None => Ok None
      end) = Ok (Some (dat, r))) \/
    match expect RBRACE t with Some r => Ok (Some (None, r)) | None => Ok None end = Ok (Some (dat, r))).
  { destruct t as [|[[]| | | | |] t]; try (right; exact H). left. exists t. split; [reflexivity|exact H]. }
  clear H. destruct X as [(t' & -> & H)|H].
  - destruct (data_list t') as [[[l r']|]| |] eqn:ED; try discriminate H. cbn [bind] in H.
    destruct (expect RBRACE r') as [r2|] eqn:E2; [|discriminate]. apply expect_inv in E2. injection H as <- <-.
    destruct (data_list_inv _ _ _ ED) as (v & -> & NE & HV).
    eexists. split; [|apply (some_data l v NE HV)]. subst. rewrite <- !app_assoc. reflexivity.
  - destruct (expect RBRACE t) as [r2|] eqn:E2; [|discriminate]. apply expect_inv in E2. injection H as <- <-.
    exists []. split; [subst; reflexivity|constructor].
Qed.

Lemma potential_text_inv : forall vl ts d r, potential_text vl ts = Ok (Some (d, r)) ->
  exists t, T_key K_potential :: ts = t ++ r /\ potential_in_text d t.
Proof.
  intros vl ts d r H. unfold potential_text in H. destruct (expect LPAR ts) as [t|] eqn:E; [|discriminate H].
  apply expect_inv in E. destruct t as [|[| |s| | |] t]; try discriminate H.
  destruct (search_list vl (string_of_list_ascii s) 0) as [o| |]; try discriminate H. cbn [bind] in H.
  assert (X : exists l t', t = given_text l ++ t' /\
     (let* y := potential_body t' in
          match y with
          | None => Ok None
          | Some (dat, r) => Ok (Some (mkDecl (string_of_list_ascii s) l dat, r))
          end) = Ok (Some (d, r))).
  { destruct (expect BAR t) as [t2|] eqn:EB.
    - apply expect_inv in EB. destruct (symbol_list t2) as [l t3] eqn:EL. apply symbols_inv in EL.
      destruct (parent_list vl l []) as [[ps|]| |]; try discriminate H. cbn [bind] in H.
      exists (Some l), t3. split; [subst; reflexivity|exact H].
    - cbn [bind] in H. exists None, t. split; [reflexivity|exact H]. }
  clear H. destruct X as (l & t' & -> & H).
  destruct (potential_body t') as [[[dat r']|]| |] eqn:EB; try discriminate H. cbn [bind] in H. injection H as <- <-.
  apply potential_body_inv in EB. destruct EB as (v & -> & HV).
  eexists. split; [|apply (potential_of (string_of_list_ascii s) l dat v HV)].
  subst. unfold names. cbn [map]. rewrite list_ascii_of_string_of_list_ascii. rewrite <- !app_assoc. reflexivity.
Qed.

Lemma potentials_inv : forall fuel vl ps ts ps' r, potentials fuel vl ps ts = Ok (Some (ps', r)) ->
  exists ds t, ts = t ++ r /\ potentials_in_text ds t /\ potential_declarations vl ds ps = Ok (Some ps').
Proof.
  induction fuel as [|fuel IH]; intros vl ps ts ps' r H; [discriminate|]. cbn [potentials] in H.
  assert (DONE : Ok (Some (ps, ts)) = Ok (Some (ps', r)) ->
    exists ds t, ts = t ++ r /\ potentials_in_text ds t /\ potential_declarations vl ds ps = Ok (Some ps')).
  { intros X. injection X as <- <-. exists [], []. split; [reflexivity|]. split; [constructor|reflexivity]. }
  destruct ts as [|[[]| | | | |] ts]; try exact (DONE H).
  destruct (potential_text vl ts) as [[[d r0]|]| |] eqn:E; try discriminate H. cbn [bind] in H.
  destruct (potential_declaration vl d) as [[p|]| |] eqn:ED; try discriminate H. cbn [bind] in H.
  destruct (append_to ps p) as [ps2| |] eqn:EA; try discriminate H. cbn [bind] in H.
  destruct (potential_text_inv _ _ _ _ E) as (t & E2 & HT).
  destruct (IH _ _ _ _ _ H) as (ds & t2 & -> & H1 & H2).
  exists (d :: ds), (t ++ t2). split; [rewrite E2; apply app_assoc|]. split; [constructor; assumption|].
  cbn [potential_declarations]. rewrite ED. cbn [bind]. rewrite EA. cbn [bind]. exact H2.
Qed.

(** ** Files *)
Lemma blocks_inv : forall k1 k2 g cl size ts vl m g' ks s, blocks k1 k2 g cl size ts = Ok (Some (vl, m, g', ks, s)) ->
  exists ds ps t1 t2, ts = t1 ++ t2 ++ map T_char cl /\ nodes_in_text ds ks t1 /\ potentials_in_text ps t2 /\ s = size /\
    yyparse k1 k2 g (mkNet ds ps) = Ok (Some (vl, m, g')).
Proof.
  intros k1 k2 g cl size ts vl m g' ks s H. unfold blocks in H.
  destruct (nodes (S (len ts)) g ts) as [[[[g2 ks'] r]|]| |] eqn:EN; try discriminate H. cbn [bind] in H.
  destruct (g_parsed g2) as [|vl0|] eqn:EP; try discriminate H.
  destruct (potentials (S (len r)) vl0 (g_potentials g2) r) as [[[ps r2]|]| |] eqn:EQ; try discriminate H. cbn [bind] in H.
  destruct (expect_all cl r2) as [r3|] eqn:EC; [|discriminate H]. apply expect_all_inv in EC.
  destruct (input_action k1 k2 g2 vl0 ps) as [[[[vl2 m2] g3]|]| |] eqn:EI; try discriminate H. cbn [bind] in H.
  destruct r3; [|discriminate H]. injection H as <- <- <- <- <-.
  destruct (nodes_inv _ _ _ _ _ _ EN) as (ds & t1 & -> & H1 & H2 & H3).
  destruct (potentials_inv _ _ _ _ _ _ EQ) as (qs & t2 & -> & H4 & H5).
  exists ds, qs, t1, t2. subst r2. rewrite app_nil_r. split; [reflexivity|]. split; [exact H1|]. split; [exact H4|]. split; [reflexivity|].
  unfold yyparse. cbn [n_nodes n_potentials]. rewrite H2. cbn [bind]. rewrite EP, H5. cbn [bind]. exact EI.
Qed.

Lemma input_inv : forall k1 k2 g ts vl m g' ks size, input k1 k2 g ts = Ok (Some (vl, m, g', ks, size)) ->
  exists t, document t ks size ts /\ yyparse k1 k2 g t = Ok (Some (vl, m, g')).
Proof.
  intros k1 k2 g ts vl m g' ks size H.
  assert (PLAIN : blocks k1 k2 g [] (node_size []) ts = Ok (Some (vl, m, g', ks, size)) ->
    exists t, document t ks size ts /\ yyparse k1 k2 g t = Ok (Some (vl, m, g'))).
  { intros X. destruct (blocks_inv _ _ _ _ _ _ _ _ _ _ _ X) as (ds & ps & t1 & t2 & -> & H1 & H2 & -> & H3).
    exists (mkNet ds ps). split; [|exact H3]. cbn [map]. rewrite app_nil_r. constructor; assumption. }
  unfold input in H. destruct ts as [|[[]| | | | |] ts]; try exact (PLAIN H).
  - destruct (expect LBRACE ts) as [t|] eqn:E; [|discriminate H]. apply expect_inv in E.
    destruct (parameters (S (len t)) t) as [[[l r]|]| |] eqn:EP; try discriminate H. cbn [bind] in H.
    destruct (expect RBRACE r) as [r2|] eqn:E2; [|discriminate H]. apply expect_inv in E2.
    destruct (parameters_inv _ _ _ _ EP) as (t0 & -> & H0).
    destruct (blocks_inv _ _ _ _ _ _ _ _ _ _ _ H) as (ds & ps & t1 & t2 & -> & H1 & H2 & -> & H3).
    exists (mkNet ds ps). split; [|exact H3]. subst. cbn [map]. rewrite app_nil_r, node_size_ok.
    apply (net_document l t0 ds ks ps t1 t2 H0 H1 H2).
  - destruct ts as [|[| |s| | |] ts]; try discriminate H.
    destruct (expect LBRACE ts) as [t|] eqn:E; [|discriminate H]. apply expect_inv in E.
    destruct (parameters (S (len t)) t) as [[[l r]|]| |] eqn:EP; try discriminate H. cbn [bind] in H.
    destruct (parameters_inv _ _ _ _ EP) as (t0 & -> & H0).
    destruct (blocks_inv _ _ _ _ _ _ _ _ _ _ _ H) as (ds & ps & t1 & t2 & -> & H1 & H2 & -> & H3).
    exists (mkNet ds ps). split; [|exact H3]. subst. rewrite node_size_ok.
    pose proof (class_document (string_of_list_ascii s) l t0 ds ks ps t1 t2 H0 H1 H2) as D.
    unfold names in D. cbn [map] in D. rewrite list_ascii_of_string_of_list_ascii in D. exact D.
Qed.

Lemma C71_lemma : forall k1 k2 g contents ts names m g' ks size, lex contents = Ok ts ->
  parse_file k1 k2 g contents = Ok (Some (names, m, g', ks, size)) ->
  exists t, document t ks size ts /\ parse_model k1 k2 g t = Ok (Some (names, m, g')).
Proof.
  intros k1 k2 g contents ts names m g' ks size HL H. unfold parse_file in H. rewrite HL in H. cbn [bind] in H.
  destruct (input k1 k2 g ts) as [[[[[[vl m0] g0] ks0] s0]|]| |] eqn:EI; try discriminate H. cbn [bind] in H.
  destruct (finish vl m0 g0) as [[[[n2 m2] g2]|]| |] eqn:EF; try discriminate H. cbn [bind] in H.
  injection H as <- <- <- <- <-.
  destruct (input_inv _ _ _ _ _ _ _ _ _ EI) as (t & HD & HY). exists t. split; [exact HD|].
  unfold parse_model. rewrite HY. cbn [bind]. exact EF.
Qed.
