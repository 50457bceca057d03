(** * Proofs about src/nipstring.c: words *)
From Coq Require Import Ascii.
From Verif Require Import Base BaseProofs HeapProofs StringModel StringSpec StringProofs.
Import ListNotations.
Open Scope nat_scope.
Local Open Scope res_scope.

Lemma isspace_white : forall c, isspace c = member c white.
Proof. intros [[] [] [] [] [] [] [] []]; reflexivity. Qed.

Lemma strncpy_ok : forall s, ~ In zero s -> forall n b, b + n <= length s ->
  strncpy s b n = Ok (firstn n (skipn b s)).
Proof.
  intros s HN. induction n as [|n IH]; intros b H; [reflexivity|].
  cbn [strncpy]. destruct (skipn b s) as [|c t] eqn:E.
  { assert (length (skipn b s) = length s - b) by apply skipn_length. rewrite E in H0. cbn in H0. lia. }
  destruct (skipn_cget s HN b c t E) as (G & E2 & N & L). rewrite G. cbn [bind]. rewrite N.
  rewrite IH by lia. cbn [bind firstn]. rewrite E2. reflexivity.
Qed.

Fixpoint words_of (s : list ascii) (l : list nat) : list (list ascii) :=
  match l with
  | b :: e :: t => between s b e :: words_of s t
  | _ => []
  end.

Lemma words_nth : forall s lo l, intervals (length s) lo l -> forall k, 2 * k < length l ->
  exists b e, nth_error l (2 * k) = Some b /\ nth_error l (2 * k + 1) = Some e /\ b < e /\ e <= length s /\
    nth k (words_of s l) [] = between s b e.
Proof.
  intros s lo l H. induction H; intros k HK; [cbn in HK; lia|].
  destruct k as [|k].
  - exists b, e. cbn. auto.
  - cbn [length] in HK. destruct (IHintervals k) as (b' & e' & H3 & H4 & H5 & H6 & H7); [lia|].
    exists b', e'. replace (2 * S k) with (S (S (2 * k))) by lia.
    cbn [nth_error Nat.add words_of nth]. auto.
Qed.

Lemma words_length : forall s lo l, intervals (length s) lo l -> length l = 2 * length (words_of s l).
Proof. intros s lo l H. induction H; cbn [length words_of]; [reflexivity|]. lia. Qed.

Lemma word_ok : forall s lo l, ~ In zero s -> intervals (length s) lo l ->
  forall k, 2 * k < length l -> word s l k = Ok (nth k (words_of s l) []).
Proof.
  intros s lo l HN HI k HK. destruct (words_nth s lo l HI k HK) as (b & e & H3 & H4 & H5 & H6 & H7).
  unfold word, rd. rewrite H3, H4. cbn [bind]. destruct (Nat.ltb_spec e b); [lia|].
  rewrite strncpy_ok by (try exact HN; lia). rewrite H7. reflexivity.
Qed.

Lemma split_ok : forall s l, ~ In zero s -> intervals (length s) 0 l ->
  split s l (length (words_of s l)) = Ok (words_of s l).
Proof.
  intros s l HN HI. unfold split. set (n := length (words_of s l)).
  assert (HL : length l = 2 * n) by (apply (words_length s 0); exact HI).
  match goal with |- for_up 0 n ?b ?i = _ =>
    destruct (for_up_inv (list (list ascii))
      (fun t w => length w = n /\ firstn t w = firstn t (words_of s l)) b 0 n i) as (w & E & W1 & W2) end.
  - lia.
  - split; [apply repeat_length|reflexivity].
  - intros t w H [W1 W2]. rewrite (word_ok s 0) by (try assumption; lia). cbn [bind].
    rewrite wr_ok by lia. eexists. split; [reflexivity|]. split; [rewrite set_nth_length; exact W1|].
    apply (list_ext_nth _ []).
    { rewrite !firstn_length, set_nth_length. fold n. lia. }
    intros k HK. rewrite firstn_length, set_nth_length in HK.
    rewrite !nth_firstn by lia. rewrite nth_set_nth by lia.
    destruct (Nat.eqb_spec k t) as [->|NE].
    + reflexivity.
    + assert (K : nth k (firstn t w) [] = nth k (firstn t (words_of s l)) []) by (rewrite W2; reflexivity).
      rewrite !nth_firstn in K by lia. exact K.
  - rewrite E. f_equal. rewrite <- (firstn_all w), W1, W2. apply firstn_all.
Qed.

Lemma between_snoc : forall (s : list ascii) b i c t, b <= i -> skipn i s = c :: t ->
  between s b (S i) = between s b i ++ [c].
Proof.
  intros s b i c t H E. unfold between. replace (S i - b) with (S (i - b)) by lia.
  assert (E2 : nth_error (skipn b s) (i - b) = Some c).
  { clear -H E. revert i H E. induction b as [|b IH] in s |- *; intros i H E.
    - rewrite Nat.sub_0_r. cbn [skipn]. revert i H E. induction s as [|a s IH]; intros i H E.
      + rewrite skipn_nil in E. discriminate E.
      + destruct i; cbn in *; [congruence|]. apply IH; [lia|exact E].
    - destruct i as [|i]; [lia|]. destruct s as [|a s]; [rewrite skipn_nil in E; discriminate E|].
      cbn [skipn] in *. cbn [Nat.sub]. apply IH; [lia|exact E]. }
  revert E2. generalize (i - b). generalize (skipn b s). intros l k. revert l.
  induction k as [|k IH]; intros l E2; (destruct l as [|a l]; [discriminate E2|]); cbn in E2.
  - injection E2 as ->. reflexivity.
  - cbn [firstn app]. rewrite <- IH by exact E2. reflexivity.
Qed.

Section Fields.
Variable s : list ascii.
Variable q : bool.
Variable seps : option (list ascii).
Variable ns : nat.
Variable keep wsp : bool.
Variable sl : list ascii.
Hypothesis HSL : forall c, sepc seps ns c = member c sl.

Local Notation D := (delimits sl wsp).
Local Notation K := (fun c => keep && member c sl)%bool.

Lemma scan_fields : forall l i, skipn i s = l -> (q = false \/ ~ In QUOTE l) ->
  words_of s (scan q seps ns keep wsp i 0 false l) = fields D K l /\
  forall b, b < i -> words_of s (b :: scan q seps ns keep wsp i 1 false l)
    = match pieces D K l with p :: ps => (between s b i ++ p) :: filter nonempty ps | [] => [] end.
Proof.
  induction l as [|c t IH]; intros i E HQ.
  - split; [reflexivity|]. intros b H. cbn. rewrite app_nil_r. reflexivity.
  - assert (E2 : skipn (S i) s = t).
    { clear -E. revert i E. induction s as [|a r IH]; intros i E.
      - rewrite skipn_nil in E. discriminate E.
      - destruct i as [|i]; [cbn in *; congruence|]. cbn [skipn] in E. apply IH in E. exact E. }
    assert (HQ' : q = false \/ ~ In QUOTE t) by (destruct HQ as [|HQ]; [left; assumption|right; intros X; apply HQ; right; exact X]).
    destruct (IH (S i) E2 HQ') as [I0 I1]. clear IH.
    assert (QF : forall x, (q && x && Ascii.eqb c QUOTE)%bool = false).
    { intros x. destruct HQ as [->|HQ]; [reflexivity|].
      destruct (Ascii.eqb_spec c QUOTE) as [->|]; [exfalso; apply HQ; left; reflexivity|apply andb_false_r]. }
    assert (DC : D c = (member c sl || ((wsp && isspace c) || Ascii.eqb c NEWLINE))%bool).
    { unfold delimits. rewrite isspace_white. change end_of_line with NEWLINE.
      destruct (member c sl), (Ascii.eqb c NEWLINE), (wsp && member c white)%bool; reflexivity. }
    assert (ST : ((wsp && negb (isspace c)) || (negb wsp && negb (Ascii.eqb c NEWLINE)))%bool
                 = negb ((wsp && isspace c) || Ascii.eqb c NEWLINE)).
    { destruct wsp; cbn [andb negb orb]; [|reflexivity]. destruct (Ascii.eqb_spec c NEWLINE) as [->|];
        [reflexivity|]. rewrite !orb_false_r. reflexivity. }
    assert (B1 : between s i (S i) = [c]).
    { rewrite (between_snoc s i i c t) by (try exact E; lia). unfold between. rewrite Nat.sub_diag. reflexivity. }
    unfold fields in *. cbn [scan]. rewrite HSL, !QF. rewrite orb_false_r. cbn [Nat.eqb negb andb].
    replace (i + 1) with (S i) by lia. cbn [pieces]. rewrite DC.
    destruct (member c sl) eqn:MS; cbn [orb].
    + rewrite !andb_true_r. destruct keep; cbn [andb app filter nonempty].
      * split; [cbn [words_of]; rewrite B1, I0; reflexivity|]. intros b Hb.
        cbn [words_of]. rewrite B1, I0. cbn [filter nonempty]. rewrite app_nil_r. reflexivity.
      * split; [exact I0|]. intros b Hb. cbn [words_of]. rewrite I0, app_nil_r. reflexivity.
    + rewrite ST. rewrite !andb_true_r. destruct ((wsp && isspace c) || Ascii.eqb c NEWLINE)%bool eqn:DD; cbn [negb].
      * rewrite andb_false_r. cbn [filter nonempty app]. split; [exact I0|].
        intros b Hb. cbn [words_of]. rewrite I0, app_nil_r. reflexivity.
      * split.
        -- cbn [app]. rewrite I1 by lia.
           destruct (pieces D K t) as [|p ps] eqn:EP.
           { exfalso. destruct t as [|a t']; cbn in EP; [discriminate EP|].
             destruct (D a); [destruct (K a); discriminate EP|]. destruct (pieces D K t'); discriminate EP. }
           cbn [filter nonempty]. rewrite B1. reflexivity.
        -- intros b Hb.
           rewrite I1 by lia.
           destruct (pieces D K t) as [|p ps] eqn:EP.
           { exfalso. destruct t as [|a t']; cbn in EP; [discriminate EP|].
             destruct (D a); [destruct (K a); discriminate EP|]. destruct (pieces D K t'); discriminate EP. }
           rewrite (between_snoc s b i c t) by (try exact E; lia). rewrite <- app_assoc. reflexivity.
Qed.
End Fields.

(** ** Quoted strings *)
Lemma skipn_skipn_add : forall A (l : list A) i k, skipn (i + k) l = skipn k (skipn i l).
Proof.
  induction l as [|a l IH]; intros i k; [rewrite !skipn_nil; reflexivity|].
  destruct i as [|i]; [reflexivity|]. cbn [Nat.add skipn]. apply IH.
Qed.

Section Quotes.
Variable s : list ascii.
Variable seps : option (list ascii).
Variable ns : nat.
Variable sl : list ascii.
Hypothesis HSL : forall c, sepc seps ns c = member c sl.
Local Notation sc := (scan true seps ns true true).

Lemma skipn_app_more : forall (l r : list ascii) i, skipn i s = l ++ r -> skipn (i + length l) s = r.
Proof.
  intros l r i E. rewrite skipn_skipn_add, E. rewrite skipn_app, skipn_all, Nat.sub_diag.
  reflexivity.
Qed.

Lemma skipn_between : forall (l r : list ascii) i, skipn i s = l ++ r -> between s i (i + length l) = l.
Proof.
  intros l r i E. unfold between. rewrite E. replace (i + length l - i) with (length l) by lia.
  rewrite firstn_app, firstn_all, Nat.sub_diag. cbn. apply app_nil_r.
Qed.

Lemma scan_body : forall body rest i f,
  Forall (fun c => c <> quote /\ c <> end_of_line) body ->
  member quote sl = false ->
  sc i 2 f (body ++ quote :: rest) =
    (i + length body + 1) :: sc (i + length body + 1) 0 (f || existsb (fun c => member c sl) body) rest.
Proof.
  induction body as [|c body IH]; intros rest i f HB HQ; cbn [app scan existsb].
  - rewrite HSL, HQ. destruct f; cbn; replace (i + 0) with i by lia; replace (i + 1) with (S i) by lia; reflexivity.
  - inversion HB as [|? ? (H1 & H2) HB']; subst. rewrite HSL. cbn [orb Nat.eqb negb andb].
    rewrite (proj2 (Ascii.eqb_neq c QUOTE)) by exact H1.
    rewrite (proj2 (Ascii.eqb_neq c NEWLINE)) by exact H2. cbn [andb orb].
    rewrite IH by assumption. cbn [length]. replace (S i + length body + 1) with (i + S (length body) + 1) by lia.
    f_equal. f_equal. destruct f, (member c sl); reflexivity.
Qed.

Lemma scan_at : forall rest i f, at_separator sl rest -> sc i 0 f rest = sc i 0 false rest.
Proof.
  intros [|c r] i f H; [reflexivity|]. cbn in H. cbn [scan]. rewrite HSL, H. destruct f; reflexivity.
Qed.

Lemma scan_word : forall w rest i,
  Forall (fun c => delimits sl true c = false /\ c <> quote) w ->
  sc i 1 false (w ++ rest) = sc (i + length w) 1 false rest.
Proof.
  induction w as [|c w IH]; intros rest i HW; cbn [app].
  - cbn. rewrite Nat.add_0_r. reflexivity.
  - inversion HW as [|? ? (H1 & H2) HW']; subst. cbn [scan].
    unfold delimits in H1. apply orb_false_iff in H1. destruct H1 as [H1 H3].
    apply orb_false_iff in H1. destruct H1 as [H0 H1]. cbn [andb] in H3.
    rewrite HSL, H0. cbn [orb Nat.eqb negb andb].
    rewrite (proj2 (Ascii.eqb_neq c QUOTE)) by exact H2. rewrite isspace_white, H3.
    change NEWLINE with end_of_line. rewrite H1. cbn [orb]. rewrite IH by exact HW'.
    cbn [length]. f_equal. lia.
Qed.

Lemma white_plain : forall c, member c white = true -> Ascii.eqb c QUOTE = false.
Proof. intros [[] [] [] [] [] [] [] []]; vm_compute; congruence. Qed.

Lemma existsb_quote : forall body rest,
  existsb (fun c => Ascii.eqb c QUOTE) (body ++ quote :: rest) = true.
Proof. intros. rewrite existsb_app. cbn. apply orb_true_r. Qed.

Lemma scan_lexed : forall l toks, lexed sl l toks ->
  forall i, skipn i s = l ->
    words_of s (sc i 0 false l) = toks /\
    (~ starts_word sl l -> forall b, b < i -> words_of s (b :: sc i 1 false l) = between s b i :: toks).
Proof.
  intros l toks H. induction H as [|c r l HW HS H IH|c r l HS H IH|body r l HB HD HQ H IH|w r l NE HW ST H IH];
    intros i E.
  - split; [reflexivity|]. intros _ b Hb. reflexivity.
  - assert (E2 : skipn (S i) s = r) by (rewrite <- Nat.add_1_r; apply (skipn_app_more [c]); exact E).
    destruct (IH (S i) E2) as [I0 _]. cbn [scan]. rewrite HSL, HS. cbn [orb Nat.eqb negb andb].
    rewrite (white_plain c HW), isspace_white, HW. cbn [negb andb orb].
    split; [exact I0|]. intros _ b Hb. cbn [app words_of]. rewrite I0. reflexivity.
  - assert (E2 : skipn (S i) s = r) by (rewrite <- Nat.add_1_r; apply (skipn_app_more [c]); exact E).
    destruct (IH (S i) E2) as [I0 _]. cbn [scan]. rewrite HSL, HS. cbn [orb Nat.eqb negb andb app].
    assert (B1 : between s i (i + 1) = [c]) by (apply (skipn_between [c] r); exact E).
    split; [cbn [words_of]; rewrite I0, B1; reflexivity|]. intros _ b Hb. cbn [words_of]. rewrite I0, B1. reflexivity.
  - assert (E1 : skipn i s = (quote :: body ++ [quote]) ++ r)
      by (rewrite E; cbn [app]; rewrite <- app_assoc; reflexivity).
    assert (LEN : length (quote :: body ++ [quote]) = length body + 2) by (cbn [length]; rewrite app_length; cbn; lia).
    pose proof (skipn_app_more _ _ _ E1) as E2. pose proof (skipn_between _ _ _ E1) as B1. rewrite LEN in E2, B1.
    destruct (IH _ E2) as [I0 _]. cbn [scan]. rewrite HSL, HQ. cbn [orb Nat.eqb negb andb].
    change (Ascii.eqb quote QUOTE) with true. cbn iota. rewrite existsb_quote.
    rewrite scan_body by assumption. replace (S i + length body + 1) with (i + (length body + 2)) by lia.
    assert (CL : sc (i + (length body + 2)) 0 (false || existsb (fun c => member c sl) body) r
                 = sc (i + (length body + 2)) 0 false r).
    { destruct HD as [HD|HD]; [|apply scan_at; exact HD].
      replace (existsb (fun c => member c sl) body) with false; [reflexivity|].
      symmetry. clear - HD. induction HD as [|c b Hc HD IH]; [reflexivity|]. cbn [existsb]. rewrite Hc. exact IH. }
    rewrite CL.
    split; [cbn [app words_of]; rewrite I0, B1; reflexivity|].
    intros _ b Hb. cbn [app words_of]. rewrite I0, B1. reflexivity.
  - pose proof (skipn_app_more _ _ _ E) as E2. pose proof (skipn_between _ _ _ E) as B1.
    destruct (IH _ E2) as [_ I1].
    split.
    + destruct w as [|c w]; [congruence|]. inversion HW as [|? ? (H1 & H2) HW']; subst.
      cbn [app scan]. pose proof H1 as H1'.
      unfold delimits in H1. apply orb_false_iff in H1. destruct H1 as [H1 H3].
      apply orb_false_iff in H1. destruct H1 as [H0 H1]. cbn [andb] in H3.
      rewrite HSL, H0. cbn [orb Nat.eqb negb andb].
      rewrite (proj2 (Ascii.eqb_neq c QUOTE)) by exact H2. rewrite isspace_white, H3. cbn [negb orb app].
      rewrite scan_word by exact HW'. replace (S i + length w) with (i + length (c :: w)) by (cbn [length]; lia).
      rewrite I1; [rewrite B1; reflexivity|exact ST|cbn [length]; lia].
    + intros X. exfalso. apply X. destruct w as [|c w]; [congruence|].
      inversion HW as [|? ? (H1 & H2) HW']; subst. split; assumption.
Qed.
End Quotes.

(** ** The property lemmas *)
Lemma C49_lemma : forall s q seps ns keep wsp, text s ->
  match seps with Some l => ns <= length l | None => True end ->
  exists n, count_tokens s q seps ns keep wsp = Ok (n, length s) /\
    (n = 0 -> tokenise (Some s) (Z.of_nat n) q seps ns keep wsp = Ok (None, NO_ERROR)) /\
    (0 < n -> exists ix, tokenise (Some s) (Z.of_nat n) q seps ns keep wsp = Ok (Some ix, NO_ERROR) /\
       length ix = 2 * n /\ intervals (length s) 0 ix).
Proof.
  intros s q seps ns keep wsp [H1 H2] HS.
  destruct (tokenise_lemma s q seps ns keep wsp H1 HS H2) as (n & E1 & E2 & E3 & E4 & E5).
  exists n. split; [exact E1|]. split; [exact E4|]. intros P. exists (scan q seps ns keep wsp 0 0 false s).
  split; [apply E5; exact P|]. split; assumption.
Qed.

Lemma words_lemma : forall s q seps ns keep wsp fs, text s ->
  match seps with Some l => ns <= length l | None => True end ->
  words_of s (scan q seps ns keep wsp 0 0 false s) = fs ->
  count_tokens s q seps ns keep wsp = Ok (length fs, length s) /\
  (fs <> [] -> exists ix, tokenise (Some s) (Z.of_nat (length fs)) q seps ns keep wsp = Ok (Some ix, NO_ERROR)
     /\ split s ix (length fs) = Ok fs).
Proof.
  intros s q seps ns keep wsp fs [H1 H2] HS HF.
  destruct (tokenise_lemma s q seps ns keep wsp H1 HS H2) as (n & E1 & E2 & E3 & E4 & E5).
  assert (N : n = length fs).
  { pose proof (words_length s 0 _ E3) as L. rewrite HF in L. lia. }
  subst n. split; [exact E1|]. intros NE. eexists. split.
  - apply E5. destruct fs; [congruence|cbn; lia].
  - rewrite <- HF. apply split_ok; [exact H1|exact E3].
Qed.

Lemma C50_lemma : forall s q seps keep wsp, text s -> (q = false \/ ~ In quote s) ->
  let fs := fields (delimits seps wsp) (fun c => keep && member c seps)%bool s in
  count_tokens s q (Some seps) (length seps) keep wsp = Ok (length fs, length s) /\
  (fs <> [] -> exists ix,
     tokenise (Some s) (Z.of_nat (length fs)) q (Some seps) (length seps) keep wsp = Ok (Some ix, NO_ERROR)
     /\ split s ix (length fs) = Ok fs).
Proof.
  intros s q seps keep wsp HT HQ fs. apply words_lemma; [exact HT|cbn; lia|].
  apply (scan_fields s q (Some seps) (length seps) keep wsp seps); [|reflexivity|exact HQ].
  intros c. unfold sepc, member. rewrite firstn_all. reflexivity.
Qed.

Lemma C66_lemma : forall s seps toks, text s -> lexed seps s toks ->
  count_tokens s true (Some seps) (length seps) true true = Ok (length toks, length s) /\
  (toks <> [] -> exists ix,
     tokenise (Some s) (Z.of_nat (length toks)) true (Some seps) (length seps) true true = Ok (Some ix, NO_ERROR)
     /\ split s ix (length toks) = Ok toks).
Proof.
  intros s seps toks HT HL. apply words_lemma; [exact HT|cbn; lia|].
  apply (scan_lexed s (Some seps) (length seps) seps); [|exact HL|reflexivity].
  intros c. unfold sepc, member. rewrite firstn_all. reflexivity.
Qed.

Lemma C50_words_lemma : forall s, text s ->
  count_words s = Ok (length (fields (fun c => member c white) (fun _ => false) s), length s).
Proof.
  intros s HT.
  assert (E : words_of s (scan false None 0 false true 0 0 false s) = fields (fun c => member c white) (fun _ => false) s).
  { assert (F := scan_fields s false None 0 false true [] (fun c => eq_refl) s 0 eq_refl (or_introl eq_refl)). apply proj1 in F.
    rewrite F. unfold fields. apply (f_equal (filter nonempty)). clear HT F. cbn [andb]. induction s as [|c t IH]; [reflexivity|]. cbn [pieces].
    assert (D : delimits [] true c = member c white) by (destruct c as [[] [] [] [] [] [] [] []]; reflexivity).
    rewrite D, IH. reflexivity. }
  unfold count_words. exact (proj1 (words_lemma s false None 0 false true _ HT I E)).
Qed.
