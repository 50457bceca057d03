(** * Proofs about reading a NET file after another one *)
From Coq Require Import String Ascii.
From Verif Require Import Base BaseProofs StringSpec StringModel StringProofs StringProofs2 NipModel SeriesFileModel SeriesFileProofs
  SeriesFileProofs2 ParseModel NetLexModel NetGrammarModel NetSpec NetLexProofs NetLexProofs2 RereadSpec RereadModel.
Import ListNotations.
Open Scope nat_scope.
Local Open Scope res_scope.
Local Open Scope list_scope.
Local Notation len := List.length.

(** What is left of the line. *)
Definition line_state (x : lexer) (L : list (list ascii)) : Prop :=
  if x_read x then L = []
  else exists fs, held (x_line x) (x_index x) fs /\ x_left x = len fs /\ before_comment fs = L /\ L <> [].

Lemma next_held : forall x fs, held (x_line x) (x_index x) fs -> x_left x = len fs -> before_comment fs <> [] ->
  exists t L x', before_comment fs = t :: L /\
    (let* token := word (x_line x) (x_index x) 0 in
      let index := skipn 2 (x_index x) in
      let left := x_left x - 1 in
      let* read :=
        if Nat.eqb left 0 then Ok true
        else
          let* b := rd index 0 in
          let* ch := cget (x_line x) b in
          Ok (Ascii.eqb ch COMMENT) in
      Ok (mkLexer (x_file x) (x_line x) left index read, Some token)) = Ok (x', Some t) /\
    line_state x' L /\ x_file x' = x_file x.
Proof.
  intros x fs H1 H2 H3. destruct fs as [|t fs]; [cbn in H3; congruence|]. cbn [before_comment] in H3 |- *.
  destruct (Ascii.eqb (hd NUL t) COMMENT) eqn:EC; [congruence|]. exists t, (before_comment fs).
  destruct (H1 0) as (W & _); [cbn; lia|]. rewrite W. cbn [bind nth]. rewrite H2. cbn [len].
  pose proof (held_tail _ _ _ _ H1) as HT.
  replace (S (len fs) - 1) with (len fs) by lia.
  destruct fs as [|t2 fs].
  - cbn [len Nat.eqb bind]. eexists. split; [reflexivity|]. split; [reflexivity|]. split; reflexivity.
  - destruct (HT 0) as (_ & b & D1 & D2); [cbn; lia|]. change (2 * 0) with 0 in D1; cbn [nth] in D2.
    cbn [len Nat.eqb]. rewrite D1. cbn [bind]. rewrite D2. cbn [bind].
    eexists. split; [reflexivity|]. split; [reflexivity|]. split; [|reflexivity]. unfold line_state. cbn [x_read x_file x_line x_index x_left].
    cbn [before_comment]. destruct (Ascii.eqb (hd NUL t2) COMMENT) eqn:EC2; [reflexivity|].
    exists (t2 :: fs). split; [exact HT|]. split; [reflexivity|]. cbn [before_comment]. rewrite EC2.
    split; [reflexivity|discriminate].
Qed.

Lemma next_in_line : forall x t L, line_state x (t :: L) ->
  exists x', next_hugin_token x = Ok (x', Some t) /\ line_state x' L /\ x_file x' = x_file x.
Proof.
  intros x t L H. unfold line_state in H. unfold next_hugin_token. destruct (x_read x); [discriminate|].
  destruct H as (fs & A & B & C & D). destruct (next_held x fs A B ltac:(congruence)) as (t' & L' & x' & E & F & G & I).
  rewrite C in E. injection E as <- <-. exists x'. cbn [bind]. auto.
Qed.
Lemma rest_of_line : forall before l x, line_state x (before ++ l) ->
  exists x', read_tokens (len before) x = Ok x' /\ line_state x' l /\ x_file x' = x_file x.
Proof.
  induction before as [|t b IH]; intros l x H; [exists x; auto|]. cbn [app] in H.
  destruct (next_in_line x t _ H) as (x1 & E & H1 & F1). destruct (IH l x1 H1) as (x2 & E2 & H2 & F2).
  exists x2. split; [|split; [exact H2|congruence]]. cbn [len read_tokens]. rewrite E. exact E2.
Qed.

(** Lines with tokens, and the state after one of them. *)
Lemma skip_lines : forall fuel f l r fs, fgets f = Some (l, r) -> text l -> toks_of l = fs -> before_comment fs = [] ->
  read_lines (S fuel) f = read_lines fuel r.
Proof.
  intros fuel f l r fs E HT EF HB. cbn [read_lines]. rewrite E. destruct (net_tokens l HT) as (C1 & _ & C2). rewrite C1. cbn [bind].
  rewrite EF in *. destruct fs as [|t fs]; [reflexivity|].
  cbn [len]. change (Nat.ltb 0 (S (len fs))) with true. cbn iota.
  destruct C2 as (ix & C2 & C3); [discriminate|]. cbn [len] in C2. rewrite C2. cbn [bind].
  destruct (C3 0) as (_ & b & D1 & D2); [cbn; lia|]. change (2 * 0) with 0 in D1; cbn [nth] in D2. rewrite D1. cbn [bind].
  rewrite D2. cbn [bind]. cbn [before_comment] in HB. destruct (Ascii.eqb (hd NUL t) COMMENT); [reflexivity|discriminate].
Qed.
Lemma stop_line : forall fuel f l r, fgets f = Some (l, r) -> text l -> before_comment (toks_of l) <> [] ->
  exists x, read_lines (S fuel) f = Ok (Some x, r) /\ x_read x = false /\ x_file x = r /\ line_state x (before_comment (toks_of l)).
Proof.
  intros fuel f l r E HT HB. cbn [read_lines]. rewrite E. destruct (net_tokens l HT) as (C1 & _ & C2). rewrite C1. cbn [bind].
  destruct (toks_of l) as [|t fs] eqn:EF; [cbn in HB; congruence|].
  cbn [len]. change (Nat.ltb 0 (S (len fs))) with true. cbn iota.
  destruct C2 as (ix & C2 & C3); [discriminate|]. cbn [len] in C2. rewrite C2. cbn [bind].
  destruct (C3 0) as (_ & b & D1 & D2); [cbn; lia|]. change (2 * 0) with 0 in D1; cbn [nth] in D2. rewrite D1. cbn [bind].
  rewrite D2. cbn [bind]. cbn [before_comment] in HB |- *. destruct (Ascii.eqb (hd NUL t) COMMENT) eqn:EC; [congruence|].
  eexists. split; [reflexivity|]. split; [reflexivity|]. split; [reflexivity|]. unfold line_state. cbn [x_read x_line x_index x_left].
  exists (t :: fs). split; [exact C3|]. split; [reflexivity|]. cbn [before_comment]. rewrite EC. split; [reflexivity|discriminate].
Qed.

Inductive stops : list ascii -> nat -> list (list ascii) -> Prop :=
| stops_here : forall f l r b L, fgets f = Some (l, r) -> text l -> before_comment (toks_of l) = b ++ L -> b <> [] ->
    stops f (len b) L
| stops_later : forall f l r k L, fgets f = Some (l, r) -> text l -> stops r k L ->
    stops f (len (before_comment (toks_of l)) + k) L.

Lemma stops_first : forall f k L, stops f k L -> forall fuel, len f < fuel ->
  exists y r B, read_lines fuel f = Ok (Some y, r) /\ x_read y = false /\ x_file y = r /\ line_state y B /\ B <> [] /\
    ((exists b, B = b ++ L /\ k = len b) \/ (exists k', stops r k' L /\ k = len B + k')).
Proof.
  intros f k L H. induction H as [f l r b L E HT EB NE|f l r k L E HT H IH]; intros fuel LF;
    (destruct fuel as [|fuel]; [lia|]).
  - destruct (stop_line fuel f l r E HT) as (x & A & B & C & D); [rewrite EB; destruct b; [congruence|discriminate]|].
    exists x, r, (b ++ L). rewrite EB in D. repeat (split; [first [assumption|destruct b; [congruence|discriminate]]|]).
    left. exists b. auto.
  - destruct (before_comment (toks_of l)) as [|t B0] eqn:EB.
    + rewrite (skip_lines fuel f l r _ E HT eq_refl EB). cbn [len Nat.add]. apply IH.
      destruct (fgets_split _ _ _ E) as (H1 & _ & H3). rewrite H1, app_length in LF. destruct l; [congruence|]. cbn [len] in LF. lia.
    + destruct (stop_line fuel f l r E HT) as (x & A & B & C & D); [rewrite EB; discriminate|].
      exists x, r, (t :: B0). rewrite EB in D. repeat (split; [first [assumption|discriminate]|]).
      right. exists k. auto.
Qed.

Lemma line_read : forall x, line_state x [] -> x_read x = true.
Proof. intros x H. unfold line_state in H. destruct (x_read x); [reflexivity|]. destruct H as (fs & _ & _ & _ & H). congruence. Qed.

Lemma read_tokens_app : forall a b x, read_tokens (a + b) x = (let* y := read_tokens a x in read_tokens b y).
Proof.
  induction a as [|a IH]; intros b x; [reflexivity|]. cbn [Nat.add read_tokens].
  destruct (next_hugin_token x) as [[y t]| |]; [apply IH|reflexivity..].
Qed.
Lemma next_same : forall x y r, x_read x = true -> read_lines (S (len (x_file x))) (x_file x) = Ok (Some y, r) -> x_read y = false ->
  next_hugin_token x = next_hugin_token y.
Proof. intros x y r A B C. unfold next_hugin_token. rewrite A, B, C. reflexivity. Qed.

Lemma stops_state : forall k f L, stops f k L -> forall x, x_read x = true -> x_file x = f ->
  exists x', read_tokens k x = Ok x' /\ line_state x' L.
Proof.
  induction k as [k IH] using lt_wf_ind. intros f L H x A E.
  destruct (stops_first f k L H (S (len f)) ltac:(lia)) as (y & r & B & R & RF & FY & LS & NE & D).
  rewrite <- E in R.
  assert (S1 : forall n, n <> 0 -> read_tokens n x = read_tokens n y).
  { intros [|n] N; [congruence|]. cbn [read_tokens]. now rewrite (next_same x y r A R RF). }
  destruct D as [(b & EB & ->)|(k' & H' & ->)].
  - subst B. destruct b as [|t b].
    + exfalso. clear -H. remember (len (@nil (list ascii))) as n eqn:EN. induction H as [? ? ? b|]; [destruct b; [congruence|discriminate]|].
      apply IHstops. cbn in *. lia.
    + destruct (rest_of_line (t :: b) L y LS) as (x' & X1 & X2 & _). exists x'. rewrite S1 by discriminate. auto.
  - destruct B as [|t B]; [congruence|]. rewrite <- (app_nil_r (t :: B)) in LS.
    destruct (rest_of_line (t :: B) [] y LS) as (x1 & X1 & X2 & X3).
    destruct (IH k' ltac:(cbn [len]; lia) r L H' x1 (line_read x1 X2) ltac:(congruence)) as (x2 & Y1 & Y2).
    exists x2. split; [|exact Y2]. rewrite S1 by (cbn [len]; lia). rewrite read_tokens_app, X1. exact Y1.
Qed.

Lemma left_stops : forall f k L, left_on_line f k L -> stops f k L.
Proof.
  intros f k L H. induction H as [l b L NE (H1 & H2 & H3 & H4) NB|l b L r (H1 & H2 & H3 & H4) NB|l toks r k L (H1 & H2 & H3 & H4) H IH].
  - apply (stops_here l l [] b L); [|apply text_short; [exact H2|lia]| |exact NB].
    + unfold fgets. destruct l; [congruence|]. rewrite MAX_pred, fgets_last; [reflexivity|exact H1|exact H3].
    + exact (toks_of_line l _ H4 (one_line_none l H1)).
  - apply (stops_here _ (l ++ [end_of_line]) r b L); [| | |exact NB].
    + unfold fgets. destruct (l ++ end_of_line :: r) eqn:E; [destruct l; discriminate|]. rewrite <- E.
      rewrite MAX_pred. change end_of_line with NEWLINE. rewrite fgets_line; [reflexivity|exact H1|exact H3].
    + apply text_short; [|rewrite app_length; cbn; lia]. intros X. apply in_app_or in X. destruct X as [X|[X|[]]]; [auto|discriminate].
    + exact (toks_of_line _ _ (net_line_snoc _ _ H4) (one_line_snoc l H1)).
  - rewrite <- (toks_of_line _ toks (net_line_snoc _ _ H4) (one_line_snoc l H1)).
    apply (stops_later _ (l ++ [end_of_line]) r k L); [| |exact IH].
    + unfold fgets. destruct (l ++ end_of_line :: r) eqn:E; [destruct l; discriminate|]. rewrite <- E.
      rewrite MAX_pred. change end_of_line with NEWLINE. rewrite fgets_line; [reflexivity|exact H1|exact H3].
    + apply text_short; [|rewrite app_length; cbn; lia]. intros X. apply in_app_or in X. destruct X as [X|[X|[]]]; [auto|discriminate].
Qed.

(** ** Another file *)
Lemma switch : forall x L f T, line_state x L -> lexes f T -> state_ok (another_file x f) (L ++ T).
Proof.
  intros x L f T H1 H2. unfold line_state in H1. unfold state_ok, another_file. cbn [x_read x_file x_line x_index x_left].
  destruct (x_read x); [subst L; exact H2|]. destruct H1 as (fs & A & B & C & D).
  exists fs, T. rewrite C. repeat (split; [first [assumption|reflexivity]|]). exact H2.
Qed.
Lemma left_len : forall x L, line_state x L -> len L <= x_left x.
Proof.
  intros x L H. unfold line_state in H. destruct (x_read x); [subst; cbn; lia|]. destruct H as (fs & _ & B & C & _).
  rewrite B, <- C. apply before_comment_len.
Qed.
Lemma lex_switched : forall x L f T ts, line_state x L -> text_tokens f T -> Forall2 reads_as (L ++ T) ts ->
  lex_from (another_file x f) = Ok ts.
Proof.
  intros x L f T ts H1 H2 H3. pose proof (text_lexes f T H2) as HL. unfold lex_from.
  rewrite (terminals_ok (L ++ T) _ _ (switch x L f T H1 HL)); [now rewrite (until_end_reads _ ts H3)|].
  cbn [another_file x_file x_left]. rewrite app_length. pose proof (lexes_len f T HL). pose proof (left_len x L H1). lia.
Qed.
Lemma fresh_line : forall f, line_state (start_lexer f) [].
Proof. intros f. reflexivity. Qed.

(** Files one after another: the rests of lines. *)
Lemma first_file : forall f k L x, left_on_line f k L -> line_state x [] ->
  exists x', after_files [(f, k)] x = Ok x' /\ line_state x' L.
Proof.
  intros f k L x H LS. cbn [after_files].
  destruct (stops_state k f L (left_stops f k L H) (another_file x f)) as (x' & E & H'); [exact (line_read x LS)|reflexivity|].
  exists x'. rewrite E. auto.
Qed.
Lemma same_line : forall f b L x, line_state x (b ++ L) -> exists x', after_files [(f, len b)] x = Ok x' /\ line_state x' L.
Proof.
  intros f b L x H. cbn [after_files].
  assert (H' : line_state (another_file x f) (b ++ L)) by exact H.
  destruct (rest_of_line b L _ H') as (x' & E & H2 & _). exists x'. rewrite E. auto.
Qed.
Lemma after_app : forall a b x, after_files (a ++ b) x = (let* y := after_files a x in after_files b y).
Proof.
  induction a as [|[f k] a IH]; intros b x; [reflexivity|]. cbn [app after_files].
  destruct (read_tokens k (another_file x f)) as [y| |]; [apply IH|reflexivity..].
Qed.
