(** * Proofs about the size of nodes *)
From Coq Require Import String Ascii.
From Verif Require Import Base StringModel VariableModel JoinTreeModel NipModel SeriesFileModel ParseModel NetLexModel NetGrammarModel NetSpec
  NetLexProofs2 NetGrammarProofs SizeModel SizeSpec.
Import ListNotations.
Open Scope nat_scope.
Local Open Scope res_scope.
Local Open Scope list_scope.
Local Notation len := List.length.

Definition size_from (s : Z * Z) (l : list field) : Z * Z := match last_of (sizes l) with Some p => p | None => s end.

Lemma size_from_cons : forall s x l, size_from s (x :: l) = size_from (size_from s [x]) l.
Proof.
  intros s x l. unfold size_from, last_of, sizes. cbn [flat_map]. rewrite app_nil_r, rev_app_distr.
  destruct (rev (flat_map _ l)); [|reflexivity]. cbn [app hd_error]. reflexivity.
Qed.
Lemma size_from_app : forall l1 l2 s, size_from s (l1 ++ l2) = size_from (size_from s l1) l2.
Proof.
  induction l1 as [|x l IH]; intros l2 s; [reflexivity|]. cbn [app].
  rewrite size_from_cons, IH, <- size_from_cons. reflexivity.
Qed.

Lemma sizes_read_is : forall fuel s ts,
  match parameters fuel ts with
  | Ok (Some (l, _)) => sizes_read fuel s ts = Ok (size_from s l)
  | Ok None => exists s', sizes_read fuel s ts = Ok s'
  | UB => sizes_read fuel s ts = UB
  | NoFuel => sizes_read fuel s ts = NoFuel
  end.
Proof.
  induction fuel as [|fuel IH]; intros s ts; [reflexivity|]. cbn [parameters sizes_read].
  destruct ts as [|[[]| | | | |] r]; try reflexivity.
  - destruct (two_numbers r) as [[[[x y] r']|]| |]; cbn [bind]; try reflexivity; [|eauto].
    specialize (IH (x, y) r'). destruct (parameters fuel r') as [[[l r2]|]| |]; cbn [bind]; try exact IH;
    rewrite size_from_cons; exact IH.
  - destruct (unknown_declaration r) as [r'|]; [|eauto].
    specialize (IH s r'). destruct (parameters fuel r') as [[[l r2]|]| |]; cbn [bind]; try exact IH;
    rewrite size_from_cons; exact IH.
Qed.

Lemma blocks_size : forall k1 k2 g cl s ts vl m g' ks s', blocks k1 k2 g cl s ts = Ok (Some (vl, m, g', ks, s')) -> s' = s.
Proof.
  intros k1 k2 g cl s ts vl m g' ks s' H. unfold blocks in H.
  repeat (match type of H with
    | (let* _ := ?x in _) = _ => destruct x as [?| |]; cbn [bind] in H; try discriminate H
    | match ?x with _ => _ end = _ => destruct x; try discriminate H
    end).
  injection H as _ _ _ _ <-. reflexivity.
Qed.

Lemma input_size : forall k1 k2 g ts,
  match size_after (80, 60)%Z ts with
  | Ok s => match input k1 k2 g ts with Ok (Some (_, _, _, _, s')) => s' = s | _ => True end
  | UB => input k1 k2 g ts = UB
  | NoFuel => input k1 k2 g ts = NoFuel
  end.
Proof.
  intros k1 k2 g ts.
  assert (P : forall cl s r0, match blocks k1 k2 g cl s r0 with Ok (Some (_, _, _, _, s')) => s' = s | _ => True end).
  { intros cl s r0. destruct (blocks k1 k2 g cl s r0) as [[[[[[vl m] g'] ks] s']|]| |] eqn:E; try exact I. exact (blocks_size _ _ _ _ _ _ _ _ _ _ _ E). }
  assert (Q : forall l, node_size l = size_from (80, 60)%Z l) by (intros l; rewrite node_size_ok; reflexivity).
  unfold size_after, input.
  destruct ts as [|[[]| | | | |] r]; try exact (P _ _ _).
  - destruct (expect LBRACE r) as [r1|]; [|exact I].
    pose proof (sizes_read_is (S (len r1)) (80, 60)%Z r1) as E. destruct (parameters (S (len r1)) r1) as [[[l r2]|]| |].
    + rewrite E. cbn [bind]. destruct (expect RBRACE r2) as [r3|]; [|exact I]. rewrite <- Q. apply P.
    + destruct E as (s' & ->). exact I.
    + rewrite E. reflexivity.
    + rewrite E. reflexivity.
  - destruct r as [|[[]| | | | |] r]; try exact I. destruct (expect LBRACE r) as [r1|]; [|exact I].
    pose proof (sizes_read_is (S (len r1)) (80, 60)%Z r1) as E. destruct (parameters (S (len r1)) r1) as [[[l r2]|]| |].
    + rewrite E. cbn [bind]. rewrite <- Q. apply P.
    + destruct E as (s' & ->). exact I.
    + rewrite E. reflexivity.
    + rewrite E. reflexivity.
Qed.

Lemma following_none : forall k1 k2 g contents, parse_following k1 k2 g [] contents = parse_file k1 k2 g contents.
Proof.
  intros k1 k2 g contents. unfold parse_following, parse_file. cbn [app size_after_files].
  destruct (lex contents) as [ts| |]; cbn [bind]; try reflexivity.
  pose proof (input_size k1 k2 g ts) as E. destruct (size_after (80, 60)%Z ts) as [s| |]; cbn [bind]; [|rewrite E; reflexivity..].
  destruct (input k1 k2 g ts) as [[[[[[vl m] g'] ks] s']|]| |]; cbn [bind]; try reflexivity. subst s'.
  destruct (finish vl m g') as [[[[names m'] g2]|]| |]; reflexivity.
Qed.

Lemma expect_mark : forall c x r, expect c (x :: r) = if is_mark c x then Some r else None.
Proof. intros c x r; destruct x; reflexivity. Qed.
Lemma two_numbers_wrong : forall r, ends_early [is_mark "="; is_mark "("; is_number; is_number; is_mark ")"; is_mark ";"]%char r ->
  two_numbers r = Ok None.
Proof.
  intros r H. unfold two_numbers. cbn [expect_all].
  destruct r as [|x1 r]; [reflexivity|]. cbn [ends_early] in H. rewrite expect_mark.
  change (is_mark EQUALS x1) with (is_mark "=" x1). destruct (is_mark "=" x1); [|reflexivity].
  destruct r as [|x2 r]; [reflexivity|]. cbn [ends_early] in H. rewrite expect_mark.
  change (is_mark LPAR x2) with (is_mark "(" x2). destruct (is_mark "(" x2); [|reflexivity].
  destruct r as [|x3 r]; [reflexivity|]. cbn [ends_early] in H. destruct x3; try reflexivity. cbn [is_number] in H.
  destruct r as [|x4 r]; [reflexivity|]. cbn [ends_early] in H. destruct x4; try reflexivity. cbn [is_number] in H.
  destruct r as [|x5 r]; [reflexivity|]. cbn [ends_early] in H. rewrite expect_mark.
  change (is_mark RPAR x5) with (is_mark ")" x5). destruct (is_mark ")" x5); [|reflexivity].
  destruct r as [|x6 r]; [reflexivity|]. cbn [ends_early] in H. rewrite expect_mark.
  change (is_mark SEMICOLON x6) with (is_mark ";" x6). destruct (is_mark ";" x6); [contradiction|reflexivity].
Qed.
Lemma sizes_stop : forall r s fuel, no_more r -> sizes_read (S fuel) s r = Ok s.
Proof.
  intros r s fuel H. cbn [sizes_read]. destruct r as [|[[]| | | | |] r]; try reflexivity; cbn [no_more] in H.
  - rewrite (two_numbers_wrong r H). reflexivity.
  - unfold unknown_declaration. destruct r as [|x r]; [reflexivity|]. cbn [ends_early] in H. rewrite expect_mark.
    change (is_mark EQUALS x) with (is_mark "=" x). destruct (is_mark "=" x); [contradiction|reflexivity].
Qed.
Lemma sizes_field : forall x t fuel s r, field_text x t -> (is_size x || is_other x)%bool = true ->
  sizes_read (S fuel) s (t ++ r) = sizes_read fuel (size_from s [x]) r.
Proof.
  intros x t fuel s r H HS. destruct H as [l NE|c|c|a b x y HA HB|a b x y HA HB|c v HV]; try discriminate HS;
    rewrite <- !app_assoc; cbn [app sizes_read].
  - rewrite (two_numbers_ok a b x y r HA HB). reflexivity.
  - rewrite (unknown_ok v r HV). reflexivity.
Qed.
Lemma fields_size : forall l t, fields_text (fun x => is_size x || is_other x)%bool l t -> forall fuel s r, len t < fuel -> no_more r ->
  sizes_read fuel s (t ++ r) = Ok (size_from s l).
Proof.
  intros l t H. induction H as [|x l t ts HK HX H IH]; intros fuel s r L HR; (destruct fuel as [|fuel]; [lia|]).
  - cbn [app]. apply sizes_stop. exact HR.
  - rewrite app_length in L. pose proof (field_len x t HX). rewrite <- app_assoc.
    rewrite (sizes_field x t fuel s _ HX HK), (size_from_cons s x l). apply IH; [lia|exact HR].
Qed.
Lemma head_size : forall ts l s, head ts l -> size_after s ts = Ok (size_from s l).
Proof.
  intros ts l s H. destruct H as [l t r H N|c l t r H N|ts N1 N2].
  - change (marks "{") with [T_char LBRACE]. cbn [app size_after]. rewrite expect_one.
    apply (fields_size l t H); [rewrite app_length; lia|exact N].
  - change (marks "{") with [T_char LBRACE]. cbn [app names map size_after]. rewrite expect_one.
    apply (fields_size l t H); [rewrite app_length; lia|exact N].
  - destruct ts as [|[[]| | | | |] r]; try reflexivity; cbn in N1, N2; congruence.
Qed.

Lemma files_size : forall files ls s, Forall2 starts_with files ls -> size_after_files s files = Ok (size_from s (concat ls)).
Proof.
  intros files ls s H. revert s. induction H as [|f l files ls (toks & ts & T & R & HD) H IH]; intros s; [reflexivity|].
  cbn [size_after_files concat]. rewrite (lex_text f toks ts T R). cbn [bind]. rewrite (head_size ts l s HD). cbn [bind].
  rewrite IH, size_from_app. reflexivity.
Qed.

Lemma C107_lemma : forall k1 k2 g files ls contents toks ts t ks size l,
  Forall2 starts_with files ls -> text_tokens contents toks -> Forall2 reads_as toks ts -> document t ks size ts -> head ts l ->
  parse_following k1 k2 g files contents =
    let* r := parse_model k1 k2 g t in
    Ok (match r with None => None | Some (names, m, g) => Some (names, m, g, ks, size_of (concat ls ++ l)) end).
Proof.
  intros k1 k2 g files ls contents toks ts t ks size l F T R D HD. unfold parse_following.
  rewrite (files_size (files ++ [contents]) (ls ++ [l])).
  - cbn [bind]. rewrite (C69_lemma k1 k2 g contents toks ts t ks size T R D).
    replace (size_of (concat ls ++ l)) with (size_from (80, 60)%Z (concat (ls ++ [l]))).
    + destruct (parse_model k1 k2 g t) as [[[[names m] g']|]| |]; reflexivity.
    + rewrite concat_app. cbn [concat]. rewrite app_nil_r. reflexivity.
  - apply Forall2_app; [exact F|]. constructor; [|constructor]. exists toks, ts. auto.
Qed.

Lemma no_more_nodes : forall ds ks ps t1 t2 r, nodes_in_text ds ks t1 -> potentials_in_text ps t2 -> no_more r -> no_more (t1 ++ t2 ++ r).
Proof.
  intros ds ks ps t1 t2 r H1 H2 HR. destruct H1 as [|d k t ds ks ts HX H].
  - destruct H2 as [|d t ds ts HX H]; [exact HR|]. destruct HX. exact I.
  - destruct HX as [[] s l ts' H']; exact I.
Qed.
(** Every document has a head. *)
Lemma document_head : forall t ks size ts, document t ks size ts -> exists l, head ts l /\ size = size_of l.
Proof.
  intros t ks size ts H. destruct H as [ds ks ps t1 t2 H1 H2|l t0 ds ks ps t1 t2 H0 H1 H2|s l t0 ds ks ps t1 t2 H0 H1 H2].
  - exists []. split; [|reflexivity]. destruct H1 as [|d k t ds ks ts HX H].
    + destruct H2 as [|d t ds ts HX H]; [apply head_other; discriminate|]. destruct HX. apply head_other; discriminate.
    + destruct HX as [[] s l ts' H']; apply head_other; discriminate.
  - exists l. split; [|reflexivity]. apply head_net; [exact H0|exact I].
  - exists l. split; [|reflexivity]. apply head_class; [exact H0|]. apply (no_more_nodes ds ks ps); [exact H1|exact H2|exact I].
Qed.

Lemma size_of_own : forall l1 l2, sizes l2 <> [] -> size_of (l1 ++ l2) = size_of l2.
Proof.
  intros l1 l2 N. change (size_of (l1 ++ l2)) with (size_from (80, 60)%Z (l1 ++ l2)). rewrite size_from_app. unfold size_from at 1, size_of, last_of.
  destruct (rev (sizes l2)) eqn:E; [|reflexivity]. apply (f_equal (@rev _)) in E. rewrite rev_involutive in E. contradiction.
Qed.
Lemma declared_lemma : forall k1 k2 g files ls contents toks ts t ks size l,
  Forall2 starts_with files ls -> text_tokens contents toks -> Forall2 reads_as toks ts -> document t ks size ts ->
  head ts l -> sizes l <> [] ->
  parse_following k1 k2 g files contents = parse_file k1 k2 g contents.
Proof.
  intros k1 k2 g files ls contents toks ts t ks size l F T R D HD N. rewrite <- following_none.
  rewrite (C107_lemma k1 k2 g files ls contents toks ts t ks size l F T R D HD).
  rewrite (C107_lemma k1 k2 g [] [] contents toks ts t ks size l (Forall2_nil _) T R D HD).
  cbn [concat app]. rewrite size_of_own by exact N. reflexivity.
Qed.
