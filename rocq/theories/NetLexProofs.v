(** * Proofs about the lexical analysis of NET files: from texts to tokens *)
From Coq Require Import String Ascii.
From Verif Require Import Base BaseProofs StringSpec StringModel StringProofs StringProofs2 SeriesFileModel SeriesFileProofs
  ParseModel NetLexModel NetGrammarModel NetSpec.
Import ListNotations.
Open Scope nat_scope.
Local Open Scope res_scope.
Local Notation len := List.length.

Local Notation sc := (scan true (Some SEPARATORS) 7 true true).

Lemma HSL : forall c, sepc (Some SEPARATORS) 7 c = member c net_separators.
Proof. intros c. reflexivity. Qed.

Definition toks_of (line : list ascii) : list (list ascii) := words_of line (sc 0 0 false line).

Fixpoint before_comment (fs : list (list ascii)) : list (list ascii) :=
  match fs with
  | [] => []
  | t :: r => if Ascii.eqb (hd NUL t) COMMENT then [] else t :: before_comment r
  end.

(** ** The tokens of a line, as the lexer holds them *)
Definition held (line : list ascii) (ix : list nat) (fs : list (list ascii)) : Prop :=
  forall k, k < len fs -> word line ix k = Ok (nth k fs []) /\
    exists b, rd ix (2 * k) = Ok b /\ cget line b = Ok (hd NUL (nth k fs [])).

Lemma between_head : forall line b e, b < e -> e <= len line ->
  cget line b = Ok (hd NUL (between line b e)).
Proof.
  intros line b e H1 H2. unfold cget, between.
  destruct (skipn b line) as [|c t] eqn:E.
  - exfalso. assert (len (skipn b line) = 0) by (rewrite E; reflexivity). rewrite skipn_length in H. lia.
  - replace (nth_error line b) with (Some c).
    + replace (e - b) with (S (e - b - 1)) by lia. reflexivity.
    + rewrite <- (firstn_skipn b line) at 1. rewrite nth_error_app2 by (rewrite firstn_length; lia).
      rewrite firstn_length, Nat.min_l by lia. rewrite Nat.sub_diag, E. reflexivity.
Qed.

Lemma net_tokens : forall line, text line ->
  let fs := toks_of line in
  count_tokens line true (Some SEPARATORS) 7 true true = Ok (len fs, len line) /\
  len fs <= len line /\
  (fs <> [] -> exists ix,
     tokenise (Some line) (Z.of_nat (len fs)) true (Some SEPARATORS) 7 true true = Ok (Some ix, NO_ERROR) /\
     held line ix fs).
Proof.
  intros line [H1 H2] fs.
  destruct (tokenise_lemma line true (Some SEPARATORS) 7 true true H1) as (n & E1 & E2 & E3 & E4 & E5); [cbn; lia|exact H2|].
  assert (N : n = len fs).
  { pose proof (words_length line 0 _ E3) as L. fold (toks_of line) in L. fold fs in L. lia. }
  subst n. split; [exact E1|]. split.
  { unfold fs, toks_of. clear E1 E2 E4 E5 fs. generalize (sc 0 0 false line), E3. intros l HI.
    assert (X : forall lo, intervals (len line) lo l -> lo <= len line -> len (words_of line l) + lo <= len line).
    { clear HI E3. intros lo HI. induction HI; cbn [words_of len]; intros; [lia|]. specialize (IHHI H3). lia. }
    specialize (X 0 HI). lia. }
  intros NE. eexists. split.
  - apply E5. destruct fs; [congruence|cbn; lia].
  - intros k Hk. split; [apply (word_ok line 0); [exact H1|exact E3|lia]|].
    destruct (words_nth line 0 _ E3 k) as (b & e & A & B & C & D & F); [lia|].
    exists b. unfold rd. rewrite A. split; [reflexivity|]. fold (toks_of line) in F. fold fs in F. rewrite F.
    apply between_head; assumption.
Qed.

Lemma rd_skipn : forall A (l : list A) n k, rd (skipn n l) k = rd l (n + k).
Proof.
  intros A l. unfold rd. induction l as [|a l IH]; intros n k.
  - rewrite skipn_nil. destruct n, k; reflexivity.
  - destruct n as [|n]; [reflexivity|]. cbn [skipn Nat.add nth_error]. apply IH.
Qed.

Lemma held_tail : forall line ix t fs, held line ix (t :: fs) -> held line (skipn 2 ix) fs.
Proof.
  intros line ix t fs H k Hk. destruct (H (S k)) as (H1 & b & H2 & H3); [cbn; lia|]. cbn [nth] in *.
  split.
  - rewrite <- H1. unfold word. rewrite !rd_skipn. replace (2 + 2 * k) with (2 * S k) by lia.
    replace (2 + (2 * k + 1)) with (2 * S k + 1) by lia. reflexivity.
  - exists b. rewrite rd_skipn. replace (2 + 2 * k) with (2 * S k) by lia. split; assumption.
Qed.

(** ** Lines of a file *)
Lemma fgets_chars_split : forall n f l r, fgets_chars n f = (l, r) -> f = l ++ r /\ len l <= n /\ (n <> 0 -> f <> [] -> l <> []).
Proof.
  induction n as [|n IH]; intros f l r H; cbn [fgets_chars] in H.
  - injection H as <- <-. repeat split; cbn; try lia.
  - destruct f as [|c t]; [injection H as <- <-; repeat split; cbn; try lia; congruence|].
    destruct (Ascii.eqb c NEWLINE); [injection H as <- <-; repeat split; cbn; try lia; congruence|].
    destruct (fgets_chars n t) as [l' r'] eqn:E. injection H as <- <-. destruct (IH t l' r' E) as (-> & L & _).
    repeat split; cbn; try lia; congruence.
Qed.

Lemma fgets_split : forall f l r, fgets f = Some (l, r) -> f = l ++ r /\ len l <= Z.to_nat 9999 /\ l <> [].
Proof.
  assert (K : Z.to_nat 9999 <> 0) by lia. revert K.
  unfold fgets. rewrite MAX_pred. generalize (Z.to_nat 9999). intros n K f l r H. destruct f as [|c t]; [discriminate|].
  remember (c :: t) as f eqn:Ef. injection H as H.
  apply fgets_chars_split in H. destruct H as (H1 & H2 & H3). repeat split; auto.
  apply H3; [exact K|subst; discriminate].
Qed.

Inductive lexes : list ascii -> list (list ascii) -> Prop :=
| lexes_end : lexes [] []
| lexes_line : forall f l r T, fgets f = Some (l, r) -> text l -> lexes r T ->
    lexes f (before_comment (toks_of l) ++ T).

Lemma lexes_exist : forall f, ~ In zero f -> exists T, lexes f T.
Proof.
  intros f. remember (len f) as n eqn:En. revert f En. induction n as [n IH] using lt_wf_ind.
  intros f En HZ. destruct f as [|c t]; [exists []; constructor|].
  destruct (fgets (c :: t)) as [[l r]|] eqn:E; [|discriminate].
  destruct (fgets_split _ _ _ E) as (H1 & H2 & H3).
  assert (len l <> 0) by (destruct l; [congruence|discriminate]).
  assert (len (c :: t) = len l + len r) by (rewrite H1, app_length; reflexivity).
  destruct (IH (len r)) with (f := r) as (T & HT); [lia|reflexivity| |].
  { intros X. apply HZ. rewrite H1. apply in_or_app. right. exact X. }
  eexists. eapply lexes_line; [exact E| |exact HT].
  apply text_short; [|exact H2]. intros X. apply HZ. rewrite H1. apply in_or_app. left. exact X.
Qed.

Lemma before_comment_len : forall fs, len (before_comment fs) <= len fs.
Proof. induction fs as [|t r IH]; cbn; [lia|]. destruct (Ascii.eqb _ _); cbn; lia. Qed.

Lemma lexes_len : forall f T, lexes f T -> len T <= len f.
Proof.
  intros f T H. induction H as [|f l r T E HT H IH]; [cbn; lia|].
  destruct (fgets_split _ _ _ E) as (H1 & H2 & H3). rewrite H1, !app_length.
  pose proof (before_comment_len (toks_of l)). destruct (net_tokens l HT) as (_ & L & _). lia.
Qed.

(** ** nip_next_hugin_token *)
Definition state_ok (x : lexer) (T : list (list ascii)) : Prop :=
  if x_read x then lexes (x_file x) T
  else exists fs T', held (x_line x) (x_index x) fs /\ x_left x = len fs /\ before_comment fs <> [] /\
    T = before_comment fs ++ T' /\ lexes (x_file x) T'.

Lemma read_lines_ok : forall fuel f T, lexes f T -> len f < fuel ->
  match T with
  | [] => read_lines fuel f = Ok (None, [])
  | _ => exists x f', read_lines fuel f = Ok (Some x, f') /\ x_read x = false /\ state_ok x T
  end.
Proof.
  induction fuel as [|fuel IH]; intros f T H L; [lia|].
  inversion H as [|f' l r T' E HT HR]; subst; cbn [read_lines]; [reflexivity|]. rewrite E.
  destruct (fgets_split _ _ _ E) as (H1 & H2 & H3).
  assert (len l <> 0) by (destruct l; [congruence|discriminate]).
  assert (len f = len l + len r) by (rewrite H1, app_length; reflexivity).
  destruct (net_tokens l HT) as (C1 & _ & C2). rewrite C1. cbn [bind].
  destruct (toks_of l) as [|t fs] eqn:ET.
  - cbn [len Nat.ltb Nat.leb before_comment app]. apply IH; [exact HR|lia].
  - cbn [len]. change (Nat.ltb 0 (S (len fs))) with true. cbn iota.
    destruct C2 as (ix & C2 & C3); [discriminate|]. cbn [len] in C2. rewrite C2. cbn [bind].
    destruct (C3 0) as (_ & b & D1 & D2); [cbn; lia|]. change (2 * 0) with 0 in D1; cbn [nth] in D2. rewrite D1. cbn [bind].
    rewrite D2. cbn [bind before_comment]. destruct (Ascii.eqb (hd NUL t) COMMENT) eqn:EC.
    + cbn [app]. apply IH; [exact HR|lia].
    + cbn [app]. eexists. eexists. split; [reflexivity|]. split; [reflexivity|]. cbn.
      exists (t :: fs), T'. split; [exact C3|]. split; [reflexivity|]. cbn [before_comment]. rewrite EC.
      split; [discriminate|]. split; [reflexivity|exact HR].
Qed.

Lemma next_token_held : forall x fs T', held (x_line x) (x_index x) fs -> x_left x = len fs ->
  before_comment fs <> [] -> lexes (x_file x) T' ->
  exists t x', hd_error (before_comment fs) = Some t /\
    (let* token := word (x_line x) (x_index x) 0 in
      let index := skipn 2 (x_index x) in
      let left := x_left x - 1 in
      let* read :=
        if Nat.eqb left 0 then Ok true
        else
          let* b := rd index 0 in
          let* ch := cget (x_line x) b in
          Ok (Ascii.eqb ch COMMENT) in
      Ok (mkLexer (x_file x) (x_line x) left index read, Some token)) = Ok (x', Some t) /\
    state_ok x' (tl (before_comment fs ++ T')).
Proof.
  intros x fs T' H1 H2 H3 H4. destruct fs as [|t fs]; [cbn in H3; congruence|]. cbn [before_comment] in H3 |- *.
  destruct (Ascii.eqb (hd NUL t) COMMENT) eqn:EC; [congruence|]. exists t.
  destruct (H1 0) as (W & _); [cbn; lia|]. rewrite W. cbn [bind nth]. rewrite H2. cbn [len].
  pose proof (held_tail _ _ _ _ H1) as HT.
  replace (S (len fs) - 1) with (len fs) by lia.
  destruct fs as [|t2 fs].
  - cbn [len Nat.eqb bind]. eexists. split; [reflexivity|]. split; [reflexivity|]. exact H4.
  - destruct (HT 0) as (_ & b & D1 & D2); [cbn; lia|]. change (2 * 0) with 0 in D1; cbn [nth] in D2.
    cbn [len Nat.eqb]. rewrite D1. cbn [bind]. rewrite D2. cbn [bind].
    eexists. split; [reflexivity|]. split; [reflexivity|]. unfold state_ok. cbn [x_read x_file x_line x_index x_left].
    cbn [app tl before_comment]. destruct (Ascii.eqb (hd NUL t2) COMMENT) eqn:EC2; [exact H4|].
    exists (t2 :: fs), T'. split; [exact HT|]. split; [reflexivity|]. cbn [before_comment]. rewrite EC2.
    split; [discriminate|]. split; [reflexivity|exact H4].
Qed.

Lemma next_token_ok : forall x T, state_ok x T ->
  exists x', next_hugin_token x = Ok (x', hd_error T) /\ state_ok x' (tl T).
Proof.
  intros x T H. unfold next_hugin_token. unfold state_ok in H. destruct (x_read x) eqn:ER.
  - pose proof (read_lines_ok (S (len (x_file x))) _ _ H (Nat.lt_succ_diag_r _)) as R. destruct T as [|t T].
    + rewrite R. cbn [bind]. eexists. split; [reflexivity|]. constructor.
    + destruct R as (y & f' & R1 & R2 & R3). rewrite R1. cbn [bind]. unfold state_ok in R3. rewrite R2 in R3.
      destruct R3 as (fs & T' & A & B & C & D & F).
      destruct (next_token_held y fs T' A B C F) as (t' & x' & X1 & X2 & X3). exists x'. rewrite D. split; [|exact X3]. etransitivity; [exact X2|]. destruct (before_comment fs); [congruence|]. cbn in X1 |- *. congruence.
  - destruct H as (fs & T' & A & B & C & D & F). cbn [bind].
    destruct (next_token_held x fs T' A B C F) as (t' & x' & X1 & X2 & X3). exists x'. rewrite D. split; [|exact X3]. etransitivity; [exact X2|]. destruct (before_comment fs); [congruence|]. cbn in X1 |- *. congruence.
Qed.

(** ** The terminals of a file *)
Fixpoint until_end (l : list terminal) : list terminal :=
  match l with [] => [] | T_end :: _ => [] | t :: l => t :: until_end l end.

Lemma terminals_ok : forall T fuel x, state_ok x T -> len T < fuel ->
  terminals fuel x = Ok (until_end (map classify_token T)).
Proof.
  induction T as [|t T IH]; intros fuel x H L; (destruct fuel as [|fuel]; [cbn in L; lia|]);
    cbn [terminals]; unfold yylex; destruct (next_token_ok x _ H) as (x' & E & H'); rewrite E; cbn [bind hd_error map until_end].
  - reflexivity.
  - cbn [tl] in H'. rewrite (IH fuel x' H') by (cbn [len] in L; lia). cbn [bind].
    destruct (classify_token t); reflexivity.
Qed.

Lemma lex_ok : forall f T, lexes f T -> lex f = Ok (until_end (map classify_token T)).
Proof.
  intros f T H. unfold lex. apply terminals_ok; [exact H|]. pose proof (lexes_len f T H). lia.
Qed.

Lemma lex_total : forall f, ~ In zero f -> exists ts, lex f = Ok ts.
Proof. intros f H. destruct (lexes_exist f H) as (T & HT). eexists. apply lex_ok. exact HT. Qed.

(** ** Lines of the specification *)
(** An end of line is at the end, if anywhere. *)
Definition one_line (l : list ascii) : Prop := forall a b, l = a ++ end_of_line :: b -> b = [].
Lemma one_line_tail : forall a l, one_line (a ++ l) -> one_line l.
Proof. intros a l H x y ->. apply (H (a ++ x)). rewrite <- app_assoc. reflexivity. Qed.
Lemma one_line_body : forall a l c, one_line (a ++ l) -> l <> [] -> In c a -> c <> end_of_line.
Proof.
  intros a l c H NE HC ->. apply in_split in HC. destruct HC as (x & y & ->).
  specialize (H x (y ++ l)). rewrite <- app_assoc in H. specialize (H eq_refl).
  destruct y; [destruct l; [congruence|discriminate]|discriminate].
Qed.

Section Line.
Variable s : list ascii.

Lemma scan_net_line : forall l toks, net_line l toks -> one_line l ->
  forall i, skipn i s = l ->
    exists extra, (extra = [] \/ exists t r, extra = t :: r /\ hd NUL t = COMMENT) /\
    words_of s (sc i 0 false l) = toks ++ extra /\
    (~ starts_with_word_char l -> forall b, b < i -> words_of s (b :: sc i 1 false l) = between s b i :: toks ++ extra).
Proof.
  intros l toks H. induction H as [|r|c r l HW H IH|c r l HS H IH|body r l HB H IH|c w r l NC HC HW ST H IH];
    intros HN i E.
  - exists []. split; [left; reflexivity|]. split; [reflexivity|]. intros _ b Hb. reflexivity.
  - exists (words_of s (sc i 0 false (percent :: r))). split; [|split; [reflexivity|]].
    2:{ intros X. exfalso. apply X. split; [reflexivity|discriminate]. }
    right. pose proof (scan_intervals true (Some SEPARATORS) 7 true true r (S i) 1 false i) as SI.
    cbn beta iota in SI. specialize (SI ltac:(lia) ltac:(lia) i ltac:(lia) ltac:(lia)).
    change (sc i 0 false (percent :: r)) with (i :: sc (S i) 1 false r).
    inversion SI as [|lo b e l' A B C D EQ1 EQ2]; subst. cbn [words_of]. eexists. eexists. split; [reflexivity|].
    unfold between. rewrite E. destruct (e - i) eqn:X; [lia|]. reflexivity.
  - assert (E2 : skipn (S i) s = r) by (rewrite <- Nat.add_1_r; apply (skipn_app_more s [c]); exact E).
    destruct (IH (one_line_tail [c] r HN) (S i) E2) as (ex & X1 & I0 & _). exists ex. split; [exact X1|].
    assert (HS : member c net_separators = false)
      by (revert HW; clear; destruct c as [[] [] [] [] [] [] [] []]; vm_compute; congruence).
    cbn [scan]. rewrite HSL, HS. cbn [orb Nat.eqb negb andb].
    rewrite (white_plain c HW), isspace_white, HW. cbn [negb andb orb].
    split; [exact I0|]. intros _ b Hb. cbn [app words_of]. rewrite I0. reflexivity.
  - assert (E2 : skipn (S i) s = r) by (rewrite <- Nat.add_1_r; apply (skipn_app_more s [c]); exact E).
    destruct (IH (one_line_tail [c] r HN) (S i) E2) as (ex & X1 & I0 & _). exists ex. split; [exact X1|].
    cbn [scan]. rewrite HSL, HS. cbn [orb Nat.eqb negb andb app].
    assert (B1 : between s i (i + 1) = [c]) by (apply (skipn_between s [c] r); exact E).
    split; [cbn [words_of]; rewrite I0, B1; reflexivity|]. intros _ b Hb. cbn [words_of]. rewrite I0, B1. reflexivity.
  - assert (E1 : skipn i s = (quote :: body ++ [quote]) ++ r)
      by (rewrite E; cbn [app]; rewrite <- app_assoc; reflexivity).
    assert (LEN : length (quote :: body ++ [quote]) = length body + 2) by (cbn [length]; rewrite app_length; cbn; lia).
    pose proof (skipn_app_more _ _ _ _ E1) as E2. pose proof (skipn_between _ _ _ _ E1) as B1. rewrite LEN in E2, B1.
    destruct (IH (one_line_tail (quote :: body ++ [quote]) r ltac:(cbn [app]; rewrite <- app_assoc; exact HN)) _ E2) as (ex & X1 & I0 & _).
    exists ex. split; [exact X1|].
    assert (HQ : member quote net_separators = false) by reflexivity.
    cbn [scan]. rewrite HSL, HQ. cbn [orb Nat.eqb negb andb].
    change (Ascii.eqb quote QUOTE) with true. cbn iota. rewrite existsb_quote.
    rewrite (scan_body (Some SEPARATORS) 7 net_separators HSL).
    2:{ apply Forall_forall. intros c Hc. rewrite Forall_forall in HB. destruct (HB c Hc). repeat split; auto.
        apply (one_line_body (quote :: body) (quote :: r)); [exact HN|discriminate|right; exact Hc]. }
    2:exact HQ.
    replace (S i + length body + 1) with (i + (length body + 2)) by lia.
    replace (existsb (fun c => member c net_separators) body) with false
      by (symmetry; clear - HB; induction HB as [|c b Hc HB IHB]; [reflexivity|]; cbn [existsb]; destruct Hc as (_ & Hc); rewrite Hc; exact IHB).
    cbn [orb].
    split; [cbn [app words_of]; rewrite I0, B1; reflexivity|].
    intros _ b Hb. cbn [app words_of]. rewrite I0, B1. reflexivity.
  - pose proof (skipn_app_more _ _ _ _ E) as E2. pose proof (skipn_between _ _ _ _ E) as B1.
    destruct (IH (one_line_tail (c :: w) r HN) _ E2) as (ex & X1 & _ & I1).
    exists ex. split; [exact X1|]. split.
    + destruct HC as [H1 H2].
      cbn [app scan]. pose proof H1 as H1'.
      unfold delimits in H1. apply orb_false_iff in H1. destruct H1 as [H1 H3].
      apply orb_false_iff in H1. destruct H1 as [H0 H1]. cbn [andb] in H3.
      rewrite HSL, H0. cbn [orb Nat.eqb negb andb].
      rewrite (proj2 (Ascii.eqb_neq c QUOTE)) by exact H2. rewrite isspace_white, H3. cbn [negb orb app].
      rewrite (scan_word (Some SEPARATORS) 7 net_separators HSL) by exact HW.
      replace (S i + length w) with (i + length (c :: w)) by (cbn [length]; lia).
      rewrite I1; [rewrite B1; reflexivity|exact ST|cbn [length]; lia].
    + intros X. exfalso. apply X. exact HC.
Qed.
End Line.

Lemma net_line_plain : forall l toks, net_line l toks -> Forall (fun t => hd NUL t <> COMMENT) toks.
Proof.
  intros l toks H. induction H; try constructor; auto; cbn [hd].
  - intros ->. discriminate H.
  - discriminate.
Qed.

Lemma before_comment_app : forall toks extra, Forall (fun t => hd NUL t <> COMMENT) toks ->
  (extra = [] \/ exists t r, extra = t :: r /\ hd NUL t = COMMENT) -> before_comment (toks ++ extra) = toks.
Proof.
  intros toks extra H HE. induction H as [|t r H1 H2 IH]; cbn [app before_comment].
  - destruct HE as [->|(t & r & -> & E)]; [reflexivity|]. cbn. rewrite E. reflexivity.
  - rewrite (proj2 (Ascii.eqb_neq _ _) H1), IH. reflexivity.
Qed.

Lemma toks_of_line : forall l toks, net_line l toks -> one_line l -> before_comment (toks_of l) = toks.
Proof.
  intros l toks H HN. unfold toks_of.
  destruct (scan_net_line l l toks H HN 0 eq_refl) as (ex & X & E & _). rewrite E.
  apply before_comment_app; [|exact X]. apply (net_line_plain l). exact H.
Qed.

Lemma one_line_none : forall l, ~ In end_of_line l -> one_line l.
Proof. intros l H a b ->. exfalso. apply H. apply in_or_app. right. left. reflexivity. Qed.

Lemma one_line_snoc : forall l, ~ In end_of_line l -> one_line (l ++ [end_of_line]).
Proof.
  induction l as [|c l IH]; intros H a b E.
  - destruct a as [|x a]; cbn in E; [injection E as <-; reflexivity|]. injection E as _ E. destruct a; discriminate.
  - destruct a as [|x a]; cbn in E.
    + injection E as -> _. exfalso. apply H. left. reflexivity.
    + injection E as _ E. apply (IH ltac:(intros X; apply H; right; exact X) a b E).
Qed.

Lemma net_line_snoc : forall l toks, net_line l toks -> net_line (l ++ [end_of_line]) toks.
Proof.
  intros l toks H. induction H as [|r|c r l HW H IH|c r l HS H IH|body r l HB H IH|c w r l NC HC HW ST H IH].
  - apply line_white; [reflexivity|constructor].
  - apply line_comment.
  - apply line_white; assumption.
  - cbn [app]. apply line_separator; assumption.
  - cbn [app]. rewrite <- app_assoc. cbn [app]. apply line_quoted; assumption.
  - rewrite <- app_assoc. apply line_word; try assumption.
    destruct r as [|x r]; [|exact ST]. intros [X _]. discriminate X.
Qed.

Lemma text_lexes : forall f T, text_tokens f T -> lexes f T.
Proof.
  intros f T H. induction H as [|l toks NE (H1 & H2 & H3 & H4)|l toks r more (H1 & H2 & H3 & H4) H IH].
  - constructor.
  - rewrite <- (app_nil_r toks). rewrite <- (toks_of_line l toks H4 (one_line_none l H1)).
    apply (lexes_line l l []).
    + unfold fgets. destruct l; [congruence|]. rewrite MAX_pred, fgets_last; [reflexivity|exact H1|exact H3].
    + apply text_short; [exact H2|lia].
    + constructor.
  - rewrite <- (toks_of_line _ toks (net_line_snoc _ _ H4) (one_line_snoc l H1)).
    apply (lexes_line _ _ r).
    + unfold fgets. destruct (l ++ end_of_line :: r) eqn:E; [destruct l; discriminate|]. rewrite <- E.
      rewrite MAX_pred. change end_of_line with NEWLINE. rewrite fgets_line; [reflexivity|exact H1|exact H3].
    + apply text_short; [|rewrite app_length; cbn; lia]. intros X. apply in_app_or in X. destruct X as [X|[X|[]]]; [auto|discriminate].
    + exact IH.
Qed.
