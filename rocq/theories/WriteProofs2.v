(** * Proofs: texts printed piece by piece *)
From Coq Require Import String Ascii QArith.Qcanon.
From Verif Require Import Base BaseProofs StringSpec VariableModel JoinTreeModel NipModel ParseModel
  StringModel SeriesFileModel NetLexModel NetGrammarModel NetSpec WriteModel WriteSpec WriteProofs.
Import ListNotations.
Open Scope nat_scope.
Local Notation chars := list_ascii_of_string.
Local Notation len := List.length.

(** A piece of a line that can be followed by anything; the end of a line. *)
Definition piece (p : list ascii) (ts : list terminal) : Prop :=
  exists toks, (forall s l, net_line s l -> net_line (p ++ s) (toks ++ l)) /\ Forall2 reads_as toks ts.
Definition ending (p : list ascii) (ts : list terminal) : Prop :=
  exists toks, net_line p toks /\ Forall2 reads_as toks ts.
Definition clean (p : list ascii) : Prop := ~ In end_of_line p /\ ~ In zero p.
Definition not_word (p : list ascii) : Prop := match p with [] => False | c :: _ => ~ word_char c end.

Lemma clean_app : forall p q, clean p -> clean q -> clean (p ++ q).
Proof. intros p q (A & B) (C & D). split; intros K; apply in_app_iff in K; tauto. Qed.
Lemma clean_nil : clean [].
Proof. split; intros []. Qed.
Lemma clean_plain : forall p, Forall plain_char p -> clean p.
Proof. intros p H. split; intros K; rewrite Forall_forall in H; destruct (H _ K) as (_ & _ & A & B); congruence. Qed.

(** A word. *)
Definition plain_word (w : list ascii) : Prop := hd percent w <> percent /\ Forall word_char w /\ ~ In zero w.
Lemma word_clean : forall w, plain_word w -> clean w.
Proof.
  intros w (_ & H & Z). split; auto. intros K. rewrite Forall_forall in H. destruct (H _ K) as (D & _).
  unfold delimits in D. rewrite Ascii.eqb_refl in D. destruct (member end_of_line net_separators); discriminate.
Qed.
Lemma plain_word_of : forall w, w <> [] -> Forall plain_char w -> plain_word w.
Proof.
  intros w NE H. split; [|split].
  - destruct w as [|c w]; [congruence|]. inversion H as [|? ? (_ & K & _)]; auto.
  - revert H. apply Forall_impl. intros c Hc. apply Hc.
  - intros K. rewrite Forall_forall in H. destruct (H _ K) as (_ & _ & A & _). congruence.
Qed.

Lemma piece_nil : piece [] [].
Proof. exists []. split; [auto|constructor]. Qed.
Lemma piece_app : forall p q tp tq, piece p tp -> piece q tq -> piece (p ++ q) (tp ++ tq).
Proof.
  intros p q tp tq (a & A1 & A2) (b & B1 & B2). exists (a ++ b). split; [|now apply Forall2_app].
  intros s l H. rewrite <- !app_assoc. auto.
Qed.
Lemma piece_ending : forall p q tp tq, piece p tp -> ending q tq -> ending (p ++ q) (tp ++ tq).
Proof.
  intros p q tp tq (a & A1 & A2) (b & B1 & B2). exists (a ++ b). split; [|now apply Forall2_app]. auto.
Qed.
Lemma ending_nil : ending [] [].
Proof. exists []. split; constructor. Qed.
Lemma ending_of_piece : forall p tp, piece p tp -> ending p tp.
Proof. intros. rewrite <- (app_nil_r p), <- (app_nil_r tp). apply piece_ending; auto using ending_nil. Qed.
Lemma ending_comment : forall s, ending (percent :: s) [].
Proof. intros s. exists []. split; constructor. Qed.

Lemma piece_quoted : forall s, Forall (fun c => c <> quote /\ member c net_separators = false) (chars s) ->
  piece (DQUOTE ++ str s ++ DQUOTE) [T_quoted (chars s)].
Proof.
  intros s H. exists [quote :: chars s ++ [quote]]. split; [|repeat constructor].
  intros r l Hr. unfold DQUOTE. rewrite <- !app_assoc. cbn [app]. change QUOTE with quote. unfold str. now apply line_quoted.
Qed.

Lemma not_word_app : forall p q, not_word p -> not_word (p ++ q).
Proof. intros [|c p] q; cbn; tauto. Qed.
Lemma piece_word : forall w p t tp, reads_as w t -> plain_word w ->
  not_word p -> piece p tp -> piece (w ++ p) (t :: tp).
Proof.
  intros w p t tp R (P & W & _) NW (a & A1 & A2). exists (w :: a). split; [|constructor; auto].
  intros s l Hs. rewrite <- app_assoc. destruct w as [|c w]; [cbn in P; congruence|]. inversion W as [|? ? W1 W2]; subst.
  cbn [app]. apply (line_word c w (p ++ s) (a ++ l)); auto.
  destruct p; cbn in *; auto.
Qed.
Lemma ending_word : forall w p t tp, reads_as w t -> plain_word w ->
  (p = [] \/ not_word p) -> ending p tp -> ending (w ++ p) (t :: tp).
Proof.
  intros w p t tp R (P & W & _) NW (a & A1 & A2). exists (w :: a). split; [|constructor; auto].
  destruct w as [|c w]; [cbn in P; congruence|]. inversion W as [|? ? W1 W2]; subst.
  apply line_word; auto.
  destruct NW as [->|NW]; [auto|]. destruct p; cbn in *; auto.
Qed.

(** ** Fixed pieces, by computation *)
Definition word_charb (c : ascii) : bool := (negb (delimits net_separators true c) && negb (Ascii.eqb c quote))%bool.
Lemma word_charb_ok : forall c, word_charb c = true <-> word_char c.
Proof.
  intros c. unfold word_charb, word_char. rewrite andb_true_iff, !negb_true_iff. rewrite Ascii.eqb_neq. tauto.
Qed.
Definition flush (cur : list ascii) : list (list ascii) := match cur with [] => [] | _ => [rev cur] end.
Fixpoint scan (cur s : list ascii) : option (list (list ascii) * list ascii) :=
  match s with
  | [] => Some ([], cur)
  | c :: s =>
      if member c white then
        match scan [] s with Some (l, r) => Some (flush cur ++ l, r) | None => None end
      else if member c net_separators then
        match scan [] s with Some (l, r) => Some (flush cur ++ [c] :: l, r) | None => None end
      else if (word_charb c && negb (match cur with [] => Ascii.eqb c percent | _ => false end))%bool
      then scan (c :: cur) s
      else None
  end.
Definition good_cur (cur : list ascii) : Prop :=
  match rev cur with [] => True | c :: w => c <> percent /\ word_char c /\ Forall word_char w end.
Lemma delim_not_word : forall c, member c white = true \/ member c net_separators = true -> ~ word_char c.
Proof.
  intros c H (K & _). unfold delimits in K. destruct H as [H|H]; rewrite H in K; destruct (member c net_separators), (Ascii.eqb c end_of_line); discriminate.
Qed.
Lemma flush_ok : forall cur c s l, good_cur cur -> ~ word_char c -> net_line (c :: s) l ->
  net_line (rev cur ++ c :: s) (flush cur ++ l).
Proof.
  intros cur c s l G NW H. unfold flush, good_cur in *. destruct cur as [|x cur]; [auto|].
  destruct (rev (x :: cur)) as [|d w] eqn:E; [cbn in E; now apply app_eq_nil in E|].
  cbn [app]. apply (line_word d w (c :: s) l); tauto.
Qed.
Lemma good_push : forall cur c, good_cur cur -> word_char c -> (cur = [] -> c <> percent) -> good_cur (c :: cur).
Proof.
  intros cur c G W P. unfold good_cur in *. cbn [rev]. destruct (rev cur) as [|d w] eqn:E; cbn [app].
  - split; [|split; auto]. apply P. rewrite <- (rev_involutive cur), E. reflexivity.
  - destruct G as (A & B & C). split; auto. split; auto. apply Forall_app. auto.
Qed.
Lemma scan_ok : forall s cur l r, good_cur cur -> scan cur s = Some (l, r) ->
  good_cur r /\ forall rest m, net_line (rev r ++ rest) m -> (r = [] \/ match rest with [] => True | c :: _ => ~ word_char c end) ->
    net_line (rev cur ++ s ++ rest) (l ++ m).
Proof.
  induction s as [|c s IH]; intros cur l r G E; cbn [scan] in E.
  - injection E as <- <-. split; auto.
  - destruct (member c white) eqn:EW.
    + destruct (scan [] s) as [[l1 r1]|] eqn:ES; [|discriminate]. injection E as <- <-.
      destruct (IH [] l1 r1 I ES) as (A & B). split; auto. intros rest m Hm Hr. specialize (B rest m Hm Hr). cbn [rev app] in B.
      rewrite <- app_assoc. cbn [app]. apply flush_ok; auto using delim_not_word. now apply line_white.
    + destruct (member c net_separators) eqn:EP.
      * destruct (scan [] s) as [[l1 r1]|] eqn:ES; [|discriminate]. injection E as <- <-.
        destruct (IH [] l1 r1 I ES) as (A & B). split; auto. intros rest m Hm Hr. specialize (B rest m Hm Hr). cbn [rev app] in B.
        rewrite <- app_assoc. cbn [app]. apply flush_ok; auto using delim_not_word. now apply line_separator.
      * destruct (word_charb c && _)%bool eqn:EC; [|discriminate]. apply andb_true_iff in EC. destruct EC as (C1 & C2).
        apply word_charb_ok in C1. apply negb_true_iff in C2.
        destruct (IH (c :: cur) l r) as (A & B); auto.
        { apply good_push; auto. intros ->. now apply Ascii.eqb_neq. }
        split; auto. intros rest m Hm Hr. specialize (B rest m Hm Hr). cbn [rev] in B. now rewrite <- app_assoc in B.
Qed.

Definition all_keys : list keyword :=
  [K_net; K_class; K_node_size; K_data; K_utility; K_decision; K_discrete; K_continuous; K_node; K_label;
   K_position; K_states; K_persistence; K_potential; K_normal].
Definition fixed_terminal (tok : list ascii) : option terminal :=
  match tok with
  | [c] => if member c (chars "(){}=,;|") then Some (T_char c) else None
  | _ => option_map T_key (find (fun k => if list_eq_dec ascii_dec (chars (keyword_text k)) tok then true else false) all_keys)
  end.
Lemma member_In : forall c l, member c l = true -> In c l.
Proof. intros c l H. unfold member in H. apply existsb_exists in H. destruct H as (x & Hx & E). apply Ascii.eqb_eq in E. now subst. Qed.
Lemma fixed_terminal_ok : forall tok t, fixed_terminal tok = Some t -> reads_as tok t.
Proof.
  intros tok t H. unfold fixed_terminal in H.
  assert (K : option_map T_key (find (fun k => if list_eq_dec ascii_dec (chars (keyword_text k)) tok then true else false) all_keys) = Some t -> reads_as tok t).
  { clear H. destruct (find _ all_keys) as [k|] eqn:E; [|discriminate]. intros H. injection H as <-. apply find_some in E. destruct E as (_ & E).
    destruct (list_eq_dec ascii_dec (chars (keyword_text k)) tok); [subst; constructor|discriminate]. }
  destruct tok as [|c [|d tok]]; auto. destruct (member c _) eqn:E; [|discriminate]. injection H as <-. constructor. now apply member_In.
Qed.
Fixpoint fixed_terminals (l : list (list ascii)) : option (list terminal) :=
  match l with
  | [] => Some []
  | t :: l => match fixed_terminal t, fixed_terminals l with Some t, Some l => Some (t :: l) | _, _ => None end
  end.
Lemma fixed_terminals_ok : forall l ts, fixed_terminals l = Some ts -> Forall2 reads_as l ts.
Proof.
  induction l as [|t l IH]; intros ts H; cbn in H; [injection H as <-; constructor|].
  destruct (fixed_terminal t) eqn:E; [|discriminate]. destruct (fixed_terminals l); [|discriminate]. injection H as <-.
  constructor; auto using fixed_terminal_ok.
Qed.
Definition fixed_piece (s : list ascii) : option (list terminal) :=
  match scan [] s with Some (l, []) => fixed_terminals l | _ => None end.
Definition fixed_ending (s : list ascii) : option (list terminal) :=
  match scan [] s with Some (l, r) => fixed_terminals (l ++ flush r) | _ => None end.
Lemma fixed_piece_ok : forall s ts, fixed_piece s = Some ts -> piece s ts.
Proof.
  intros s ts H. unfold fixed_piece in H. destruct (scan [] s) as [[l [|c r]]|] eqn:E; try discriminate.
  destruct (scan_ok s [] l [] I E) as (_ & B). exists l. split; [|now apply fixed_terminals_ok].
  intros rest m Hm. apply (B rest m); auto.
Qed.
Lemma fixed_ending_ok : forall s ts, fixed_ending s = Some ts -> ending s ts.
Proof.
  intros s ts H. unfold fixed_ending in H. destruct (scan [] s) as [[l r]|] eqn:E; try discriminate.
  destruct (scan_ok s [] l r I E) as (G & B). exists (l ++ flush r). split; [|now apply fixed_terminals_ok].
  specialize (B [] (flush r)). rewrite !app_nil_r in B. cbn [rev app] in B. apply B; auto.
  unfold good_cur in G. destruct r as [|c r]; [constructor|]. unfold flush. destruct (rev (c :: r)) as [|d w] eqn:ER; [cbn in ER; now apply app_eq_nil in ER|].
  rewrite <- (app_nil_r (d :: w)) at 1. apply line_word; try tauto; try constructor.
Qed.

(** ** Texts *)
Definition open_text (n : nat) (s : list ascii) (ts : list terminal) : Prop :=
  exists a l ta tl, s = a ++ l /\ ts = ta ++ tl /\
    (exists toks, (forall rest more, text_tokens rest more -> text_tokens (a ++ rest) (toks ++ more)) /\ Forall2 reads_as toks ta) /\
    piece l tl /\ clean l /\ len l <= n.

Lemma open_nil : open_text 0 [] [].
Proof.
  exists [], [], [], []. split; [auto|]. split; [auto|]. split; [|split; [exact piece_nil|split; [exact clean_nil|auto]]].
  exists []. split; [auto|constructor].
Qed.
Lemma open_piece : forall n s ts p tp, open_text n s ts -> piece p tp -> clean p -> open_text (n + len p) (s ++ p) (ts ++ tp).
Proof.
  intros n s ts p tp (a & l & ta & tl & -> & -> & T & L & C & N) P CP. exists a, (l ++ p), ta, (tl ++ tp).
  rewrite !app_assoc. split; [auto|]. split; [auto|]. split; [auto|]. split; [now apply piece_app|]. split; [now apply clean_app|].
  rewrite app_length. lia.
Qed.
Lemma open_le : forall n n' s ts, n <= n' -> open_text n s ts -> open_text n' s ts.
Proof. intros n n' s ts H (a & l & ta & tl & A). exists a, l, ta, tl. intuition lia. Qed.
Lemma open_line : forall n s ts p tp, open_text n s ts -> ending p tp -> clean p -> n + len p < Z.to_nat 9999 ->
  open_text 0 (s ++ p ++ NL) (ts ++ tp).
Proof.
  intros n s ts p tp (a & l & ta & tl & -> & -> & (toks & T1 & T2) & L & C & N) P CP HN.
  destruct (piece_ending l p tl tp L P) as (u & U1 & U2).
  exists (a ++ l ++ p ++ NL), [], (ta ++ tl ++ tp), []. rewrite !app_nil_r, <- !app_assoc.
  split; auto. split; auto. split; [|split; [exact piece_nil|split; [exact clean_nil|cbn; lia]]].
  exists (toks ++ u). split; [|apply Forall2_app; auto].
  intros rest more H. rewrite <- !app_assoc. apply T1.
  replace (l ++ p ++ NL ++ rest) with ((l ++ p) ++ end_of_line :: rest) by (rewrite <- !app_assoc; reflexivity).
  apply text_line; auto. destruct (clean_app l p C CP) as (C1 & C2). split; auto. split; auto. split; auto. rewrite app_length. lia.
Qed.
Lemma open_done : forall s ts, open_text 0 s ts -> exists toks, text_tokens s toks /\ Forall2 reads_as toks ts.
Proof.
  intros s ts (a & l & ta & tl & -> & -> & (toks & T1 & T2) & (u & L & LR) & C & N).
  destruct l as [|]; [|cbn in N; lia].
  assert (U : u = []). { specialize (L [] [] line_end). cbn in L. rewrite app_nil_r in L. inversion L; auto. }
  subst u. inversion LR; subst. exists toks. rewrite !app_nil_r. split; auto.
  specialize (T1 [] [] text_empty). now rewrite !app_nil_r in T1.
Qed.
