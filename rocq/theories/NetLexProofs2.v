(** * Proofs about the lexical analysis of NET files: from tokens to terminals *)
From Coq Require Import String Ascii QArith.QArith QArith.Qcanon QArith.Qpower.
From Verif Require Import Base BaseProofs StringSpec StringModel StringProofs StringProofs2 SeriesFileModel SeriesFileProofs
  SeriesFileProofs2 ParseModel NetLexModel NetGrammarModel NetSpec NetLexProofs.
Import ListNotations.
Open Scope nat_scope.
Local Open Scope res_scope.
Local Notation len := List.length.

(** ** Numbers *)
Lemma scale_power : forall m z, scale m 10 z = (Q2Qc (inject_Z m) * power_of_ten z)%Qc.
Proof.
  intros m z. unfold scale, power_of_ten. destruct (Z.leb_spec 0 z).
  - apply Qc_is_canon. unfold Qcdiv, Qcinv, Qcmult, Qcopp, Q2Qc; cbn [this]. rewrite !Qred_correct. rewrite inject_Z_mult. rewrite Zpower_Qpower by assumption. reflexivity.
  - apply Qc_is_canon. unfold Qcdiv, Qcinv, Qcmult, Qcopp, Q2Qc; cbn [this]. rewrite !Qred_correct. rewrite Zpower_Qpower by lia.
    unfold Qdiv. rewrite <- (Qpower_opp (inject_Z 10) (- z)). rewrite Z.opp_involutive. reflexivity.
Qed.

Lemma negated_signed : forall neg m z,
  negated neg (Q2Qc (inject_Z m) * power_of_ten z)%Qc = (Q2Qc (inject_Z (signed neg m)) * power_of_ten z)%Qc.
Proof.
  intros [|] m z; [|reflexivity]. unfold negated, signed. apply Qc_is_canon. unfold Qcdiv, Qcinv, Qcmult, Qcopp, Q2Qc; cbn [this]. rewrite !Qred_correct.
  rewrite inject_Z_opp. ring.
Qed.

Lemma digit_value_digit : forall d, d < 10 -> digit_value 10 (digit d) = Some d.
Proof. intros d H. do 10 (destruct d as [|d]; [reflexivity|]). lia. Qed.

Definition no_digit (s : list ascii) : Prop :=
  match s with c :: _ => digit_value 10 c = None | [] => True end.

Lemma read_digits_ok : forall l acc n r, Forall (fun d => d < 10) l -> no_digit r ->
  read_digits 10 (digits l ++ r) acc n
  = (fold_left (fun a d => 10 * a + Z.of_nat d)%Z l acc, n + len l, r).
Proof.
  induction l as [|d l IH]; intros acc n r H HR.
  - cbn [digits map app fold_left len]. rewrite Nat.add_0_r. destruct r as [|c r]; [reflexivity|].
    cbn [read_digits]. cbn in HR. rewrite HR. reflexivity.
  - inversion H; subst. cbn [digits map app read_digits fold_left len]. rewrite digit_value_digit by assumption.
    fold (digits l). rewrite IH by assumption. replace (S n + len l) with (n + S (len l)) by lia.
    do 3 f_equal. lia.
Qed.

Lemma no_digit_exponent : forall ex e, exponent_text ex e -> no_digit ex.
Proof. intros ex e H. destruct H as [|x neg sg ds [->| ->] _ _ _]; reflexivity || exact I. Qed.

Lemma digits_no_sign : forall ds, ds <> [] -> Forall (fun d => d < 10) ds -> forall r,
  read_sign (digits ds ++ r) = (false, digits ds ++ r).
Proof.
  intros ds NE H r. destruct ds as [|d ds]; [congruence|]. inversion H; subst. clear H.
  cbn [digits map app read_sign].
  do 10 (destruct d as [|d]; [reflexivity|]). lia.
Qed.

Lemma read_exponent_ok : forall ex e, exponent_text ex e -> read_exponent 101 ex = e.
Proof.
  intros ex e H. destruct H as [|x neg sg ds HX HS NE HD]; [reflexivity|].
  assert (X : read_sign (sg ++ digits ds) = (neg, digits ds)).
  { destruct neg; cbn in HS.
    - subst sg. reflexivity.
    - destruct HS as [-> | ->]; [|reflexivity]. pose proof (digits_no_sign ds NE HD []) as K.
      rewrite app_nil_r in K. exact K. }
  assert (D : read_digits 10 (digits ds) 0 0 = (decimal ds, len ds, [])).
  { pose proof (read_digits_ok ds 0 0 [] HD I) as K. rewrite app_nil_r in K. exact K. }
  assert (L : Nat.eqb (len ds) 0 = false) by (destruct ds; [congruence|reflexivity]).
  destruct HX as [-> | ->]; cbn [app list_ascii_of_string read_exponent]; rewrite X, D, L; unfold signed; reflexivity.
Qed.

Lemma read_real_ok : forall ip fp point ex e, Forall (fun d => d < 10) (ip ++ fp) -> ip ++ fp <> [] ->
  (point = list_ascii_of_string "." \/ (point = [] /\ fp = [])) -> exponent_text ex e ->
  read_real 10 101 10 1 (digits ip ++ point ++ digits fp ++ ex)
  = Some (scale (decimal (ip ++ fp)) 10 (e - Z.of_nat (len fp))).
Proof.
  intros ip fp point ex e HD NE HP HE. apply Forall_app in HD. destruct HD as [HI HF].
  unfold read_real. rewrite read_digits_ok; [|exact HI|].
  2:{ destruct HP as [-> |[-> ->]]; [reflexivity|]. apply (no_digit_exponent ex e HE). }
  cbn [Nat.add].
  destruct HP as [-> |[-> ->]].
  - cbn [list_ascii_of_string app]. change (Ascii.eqb _ (ascii_of_nat 46)) with true. cbn iota.
    rewrite read_digits_ok; [|exact HF|apply (no_digit_exponent ex e HE)].
    unfold decimal. rewrite fold_left_app. cbn [Nat.add].
    replace (Nat.eqb (len ip + len fp) 0) with false.
    + rewrite (read_exponent_ok ex e HE). f_equal; f_equal; lia.
    + symmetry. apply Nat.eqb_neq. rewrite <- app_length. destruct (ip ++ fp); [congruence|discriminate].
  - cbn [digits map app]. rewrite app_nil_r in *. 
    assert (X : match ex with
      | [] => (fold_left (fun a d => 10 * a + Z.of_nat d)%Z ip 0%Z, 0, ex)
      | c :: t => if (c =? ascii_of_nat 46)%char then read_digits 10 t (fold_left (fun a d => 10 * a + Z.of_nat d)%Z ip 0%Z) 0
         else (fold_left (fun a d => 10 * a + Z.of_nat d)%Z ip 0%Z, 0, ex)
      end = (decimal ip, 0, ex)).
    { destruct HE as [|x neg sg ds [-> | ->] _ _ _]; reflexivity. }
    rewrite X. replace (Nat.eqb (len ip + 0) 0) with false.
    + rewrite (read_exponent_ok ex e HE). f_equal; f_equal; lia.
    + symmetry. apply Nat.eqb_neq. destruct ip; [congruence|discriminate].
Qed.

(** The first character of digits with a point. *)
Definition starts_number (c : ascii) : bool := member c (list_ascii_of_string "0123456789.").

Lemma digit_starts : forall d, d < 10 -> starts_number (digit d) = true.
Proof. intros d H. do 10 (destruct d as [|d]; [reflexivity|]). lia. Qed.

Lemma body_head : forall ip fp point ex, Forall (fun d => d < 10) (ip ++ fp) -> ip ++ fp <> [] ->
  (point = list_ascii_of_string "." \/ (point = [] /\ fp = [])) ->
  exists c t, digits ip ++ point ++ digits fp ++ ex = c :: t /\ starts_number c = true.
Proof.
  intros ip fp point ex HD NE HP. destruct ip as [|d ip].
  - destruct HP as [-> |[-> ->]]; [|cbn in NE; congruence]. eexists. eexists. split; [reflexivity|reflexivity].
  - inversion HD; subst. eexists. eexists. split; [reflexivity|]. apply digit_starts. assumption.
Qed.

Lemma starts_number_plain : forall c, starts_number c = true ->
  isspace c = false /\ Ascii.eqb c (ascii_of_nat 45) = false /\ Ascii.eqb c (ascii_of_nat 43) = false /\
  Ascii.eqb c QUOTE = false /\
  forall t, prefix_nocase (str "inf") (c :: t) = false /\ prefix_nocase (str "nan") (c :: t) = false /\
    find_keyword (c :: t) = None.
Proof.
  intros [[] [] [] [] [] [] [] []] H; vm_compute in H; try discriminate H; repeat split; reflexivity.
Qed.

Lemma cons_second : forall A (a b : A) r z x t, a :: b :: r = z :: x :: t -> b = x.
Proof. intros. congruence. Qed.
Lemma cons_rest : forall A (a : A) r z t, a :: r = z :: t -> r = t.
Proof. intros. congruence. Qed.

Lemma no_hex : forall ip fp point ex e t, Forall (fun d => d < 10) (ip ++ fp) ->
  (point = list_ascii_of_string "." \/ (point = [] /\ fp = [])) -> exponent_text ex e ->
  forall z x, digits ip ++ point ++ digits fp ++ ex = z :: x :: t ->
  (Ascii.eqb z (ascii_of_nat 48) && (Ascii.eqb x (ascii_of_nat 120) || Ascii.eqb x (ascii_of_nat 88)))%bool = false.
Proof.
  assert (D : forall d, d < 10 ->
    (Ascii.eqb (digit d) (ascii_of_nat 120) || Ascii.eqb (digit d) (ascii_of_nat 88))%bool = false).
  { intros d H. do 10 (destruct d as [|d]; [reflexivity|]). lia. }
  assert (EX : forall ex e x t, exponent_text ex e -> ex = x :: t ->
    (Ascii.eqb x (ascii_of_nat 120) || Ascii.eqb x (ascii_of_nat 88))%bool = false).
  { intros ex e x t H E. destruct H as [|y neg sg ds [-> | ->] _ _ _]; [discriminate| |]; injection E as <- <-; reflexivity. }
  intros ip fp point ex e t HD HP HE z x E.
  apply Forall_app in HD. destruct HD as [HI HF].
  destruct ip as [|d ip].
  - destruct HP as [-> |[-> ->]].
    + cbn in E. injection E as <- _. reflexivity.
    + cbn in E. destruct HE as [|y neg sg ds [-> | ->] _ _ _]; [discriminate| |]; injection E as <- _; reflexivity.
  - apply andb_false_iff. right. inversion HI; subst. destruct ip as [|d2 ip].
    + destruct HP as [-> |[-> ->]].
      * apply cons_second in E. subst x. reflexivity.
      * apply cons_rest in E. apply (EX _ _ _ _ HE E).
    + inversion H2; subst. apply cons_second in E. subst x. apply D. assumption.
Qed.

Lemma strtod_body : forall ip fp point ex e, Forall (fun d => d < 10) (ip ++ fp) -> ip ++ fp <> [] ->
  (point = list_ascii_of_string "." \/ (point = [] /\ fp = [])) -> exponent_text ex e ->
  forall neg s, s = digits ip ++ point ++ digits fp ++ ex ->
  (if (prefix_nocase (str "inf") s || prefix_nocase (str "nan") s)%bool then Some NonFinite
  else
    let hex :=
      match s with
      | z :: x :: t =>
          if (Ascii.eqb z (ascii_of_nat 48)
              && (Ascii.eqb x (ascii_of_nat 120) || Ascii.eqb x (ascii_of_nat 88)))%bool
          then read_real 16 112 2 4 t else None
      | _ => None
      end in
    match hex with
    | Some q => Some (Finite (negated neg q))
    | None => option_map (fun q => Finite (negated neg q)) (read_real 10 101 10 1 s)
    end)
  = Some (Finite (Q2Qc (inject_Z (signed neg (decimal (ip ++ fp))))
       * power_of_ten (e - Z.of_nat (length fp)))%Qc).
Proof.
  intros ip fp point ex e HD NE HP HE neg s ES.
  destruct (body_head ip fp point ex HD NE HP) as (c & t & EB & HC).
  destruct (starts_number_plain c HC) as (_ & _ & _ & _ & P). destruct (P t) as (P1 & P2 & _).
  assert (E2 : s = c :: t) by congruence.
  rewrite E2 at 1 2. rewrite P1, P2. cbn [orb].
  assert (HX : match s with
      | z :: x :: t =>
          if (Ascii.eqb z (ascii_of_nat 48)
              && (Ascii.eqb x (ascii_of_nat 120) || Ascii.eqb x (ascii_of_nat 88)))%bool
          then read_real 16 112 2 4 t else None
      | _ => None
      end = None).
  { destruct s as [|z [|x t']]; try reflexivity.
    rewrite (no_hex ip fp point ex e t' HD HP HE z x (eq_sym ES)). reflexivity. }
  cbv zeta. rewrite HX. rewrite ES, (read_real_ok ip fp point ex e HD NE HP HE). cbn [option_map].
  rewrite scale_power, negated_signed. reflexivity.
Qed.

Lemma strtod_numeral : forall s q, numeral s q -> strtod s = Some (Finite q).
Proof.
  intros s q H. destruct H as [neg sg ip fp point ex e HS HD NE HP HE].
  destruct (body_head ip fp point ex HD NE HP) as (c & t & EB & HC).
  destruct (starts_number_plain c HC) as (S1 & S2 & S3 & _).
  assert (X : read_sign (skip_space (sg ++ digits ip ++ point ++ digits fp ++ ex))
     = (neg, digits ip ++ point ++ digits fp ++ ex)).
  { rewrite EB. destruct neg; cbn in HS.
    - subst sg. reflexivity.
    - destruct HS as [-> | ->].
      + cbn [app skip_space]. rewrite S1. cbn [read_sign]. rewrite S2, S3. reflexivity.
      + reflexivity. }
  unfold strtod. rewrite X. apply (strtod_body ip fp point ex e HD NE HP HE neg). reflexivity.
Qed.

(** ** Symbols *)
Lemma nocase_i : forall b, (Nat.eqb (nat_of_ascii b) (nat_of_ascii "i"%char)
       || Nat.eqb (nat_of_ascii b) (nat_of_ascii "i"%char - 32))%bool = Ascii.eqb (lower b) "i"%char.
Proof. intros [[] [] [] [] [] [] [] []]; vm_compute; reflexivity. Qed.
Lemma nocase_n : forall b, (Nat.eqb (nat_of_ascii b) (nat_of_ascii "n"%char)
       || Nat.eqb (nat_of_ascii b) (nat_of_ascii "n"%char - 32))%bool = Ascii.eqb (lower b) "n"%char.
Proof. intros [[] [] [] [] [] [] [] []]; vm_compute; reflexivity. Qed.
Lemma nocase_f : forall b, (Nat.eqb (nat_of_ascii b) (nat_of_ascii "f"%char)
       || Nat.eqb (nat_of_ascii b) (nat_of_ascii "f"%char - 32))%bool = Ascii.eqb (lower b) "f"%char.
Proof. intros [[] [] [] [] [] [] [] []]; vm_compute; reflexivity. Qed.
Lemma nocase_a : forall b, (Nat.eqb (nat_of_ascii b) (nat_of_ascii "a"%char)
       || Nat.eqb (nat_of_ascii b) (nat_of_ascii "a"%char - 32))%bool = Ascii.eqb (lower b) "a"%char.
Proof. intros [[] [] [] [] [] [] [] []]; vm_compute; reflexivity. Qed.

Lemma prefix_inf : forall s, map lower (firstn 3 s) <> list_ascii_of_string "inf" ->
  prefix_nocase (str "inf") s = false.
Proof.
  intros s H. change (str "inf") with ["i"%char; "n"%char; "f"%char].
  destruct s as [|a s]; [reflexivity|]. cbn [prefix_nocase]. rewrite nocase_i.
  destruct s as [|b s]; [apply andb_false_r|]. rewrite nocase_n.
  destruct s as [|c s]; [rewrite !andb_false_r; reflexivity|]. rewrite nocase_f, andb_true_r.
  destruct (Ascii.eqb_spec (lower a) "i"%char) as [A|]; [|reflexivity].
  destruct (Ascii.eqb_spec (lower b) "n"%char) as [B|]; [|reflexivity].
  destruct (Ascii.eqb_spec (lower c) "f"%char) as [C|]; [|reflexivity].
  exfalso. apply H. cbn [firstn map]. rewrite A, B, C. reflexivity.
Qed.
Lemma prefix_nan : forall s, map lower (firstn 3 s) <> list_ascii_of_string "nan" ->
  prefix_nocase (str "nan") s = false.
Proof.
  intros s H. change (str "nan") with ["n"%char; "a"%char; "n"%char].
  destruct s as [|a s]; [reflexivity|]. cbn [prefix_nocase]. rewrite nocase_n.
  destruct s as [|b s]; [apply andb_false_r|]. rewrite nocase_a.
  destruct s as [|c s]; [rewrite !andb_false_r; reflexivity|]. rewrite nocase_n, andb_true_r.
  destruct (Ascii.eqb_spec (lower a) "n"%char) as [A|]; [|reflexivity].
  destruct (Ascii.eqb_spec (lower b) "a"%char) as [B|]; [|reflexivity].
  destruct (Ascii.eqb_spec (lower c) "n"%char) as [C|]; [|reflexivity].
  exfalso. apply H. cbn [firstn map]. rewrite A, B, C. reflexivity.
Qed.

Lemma plain_start : forall c, word_char c -> member c (list_ascii_of_string "0123456789+-.") = false ->
  isspace c = false /\ Ascii.eqb c (ascii_of_nat 45) = false /\ Ascii.eqb c (ascii_of_nat 43) = false /\
  Ascii.eqb c QUOTE = false /\ Ascii.eqb c (ascii_of_nat 48) = false /\ digit_value 10 c = None /\
  Ascii.eqb c (ascii_of_nat 46) = false.
Proof.
  intros [[] [] [] [] [] [] [] []] [H1 H2] H; vm_compute in H1; try discriminate H1; vm_compute in H; try discriminate H;
    try (exfalso; apply H2; reflexivity); repeat split; reflexivity.
Qed.

Lemma like_number_false : forall c t, like_number (c :: t) = false ->
  member c (list_ascii_of_string "0123456789+-.") = false /\
  map lower (firstn 3 (c :: t)) <> list_ascii_of_string "inf" /\
  map lower (firstn 3 (c :: t)) <> list_ascii_of_string "nan".
Proof.
  intros c t H. cbv beta iota delta [like_number] in H. apply orb_false_iff in H. destruct H as [H H3].
  apply orb_false_iff in H. destruct H as [H1 H2].
  destruct (list_eq_dec _ _ (list_ascii_of_string "inf")); [discriminate H2|].
  destruct (list_eq_dec _ _ (list_ascii_of_string "nan")); [discriminate H3|]. auto.
Qed.

Lemma strtod_symbol : forall c t, word_char c -> like_number (c :: t) = false -> strtod (c :: t) = None.
Proof.
  intros c t HW HL. destruct (like_number_false c t HL) as (L1 & L2 & L3).
  destruct (plain_start c HW L1) as (S1 & S2 & S3 & S4 & S5 & S6 & S7).
  unfold strtod. cbn [skip_space]. rewrite S1. cbn [read_sign]. rewrite S2, S3.
  rewrite (prefix_inf _ L2), (prefix_nan _ L3). cbn [orb].
  assert (R : read_real 10 101 10 1 (c :: t) = None).
  { unfold read_real. cbn [read_digits]. rewrite S6. rewrite S7. reflexivity. }
  destruct t as [|x t]; [rewrite R; reflexivity|]. rewrite S5. cbn [andb]. rewrite R. reflexivity.
Qed.

Lemma keywords_texts : forall p, In p keywords -> str (fst p) = list_ascii_of_string (keyword_text (snd p)).
Proof. intros p H. cbn in H. repeat (destruct H as [<-|H]; [reflexivity|]). contradiction. Qed.

Lemma find_keyword_none : forall s, (forall k, s <> list_ascii_of_string (keyword_text k)) -> find_keyword s = None.
Proof.
  intros s H. unfold find_keyword. destruct (find _ keywords) as [p|] eqn:E; [|reflexivity].
  apply find_some in E. destruct E as [E1 E2]. apply ascii_list_eqb_spec in E2. rename E2 into E3.
  rewrite keywords_texts in E3 by exact E1. exfalso. apply (H (snd p)). congruence.
Qed.

Lemma find_keyword_some : forall s k, find_keyword s = Some k -> s = list_ascii_of_string (keyword_text k).
Proof.
  intros s k H. unfold find_keyword in H. destruct (find _ keywords) as [p|] eqn:E; [|discriminate].
  cbn in H. injection H as <-.
  apply find_some in E. destruct E as [E1 E2]. apply ascii_list_eqb_spec in E2. rename E2 into E3.
  rewrite keywords_texts in E3 by exact E1. congruence.
Qed.

Lemma word_alpha : forall c, letter c = isalpha c.
Proof. intros [[] [] [] [] [] [] [] []]; reflexivity. Qed.

(** ** The terminals *)
Lemma find_keyword_quote : forall t, find_keyword (QUOTE :: t) = None.
Proof.
  intros t. apply find_keyword_none. intros k. destruct k; discriminate.
Qed.

Lemma find_keyword_sign : forall c t, c = ascii_of_nat 45 \/ c = ascii_of_nat 43 -> find_keyword (c :: t) = None.
Proof. intros c t H. apply find_keyword_none. intros k. destruct H as [-> | ->], k; discriminate. Qed.

Lemma classify_reads : forall s t, reads_as s t -> classify_token s = t.
Proof.
  intros s t H. destruct H as [k|c HC|s|s (NE & HW & HL & HK & H1)|s q H].
  - destruct k; reflexivity.
  - cbn in HC. repeat (destruct HC as [<-|HC]; [reflexivity|]). contradiction.
  - assert (X : exists c t, s ++ [quote] = c :: t) by (destruct s; eexists; eexists; reflexivity).
    destruct X as (c & t & X). unfold classify_token. rewrite X. cbv beta iota. rewrite <- X.
    change quote with QUOTE in *. rewrite find_keyword_quote. rewrite last_last, removelast_last. reflexivity.
  - destruct s as [|c t]; [congruence|]. inversion HW as [|? ? HC HT]; subst.
    pose proof (strtod_symbol c t HC HL) as HS.
    destruct (like_number_false c t HL) as (L1 & _). destruct (plain_start c HC L1) as (_ & _ & _ & S4 & _).
    destruct t as [|x t].
    + specialize (H1 c eq_refl). rewrite word_alpha in H1. cbn [classify_token]. rewrite H1. reflexivity.
    + unfold classify_token. rewrite find_keyword_none by exact HK. rewrite S4. cbn [andb]. rewrite HS. reflexivity.
  - pose proof (strtod_numeral s q H) as HS. destruct H as [neg sg ip fp point ex e A HD NE HP HE].
    destruct (body_head ip fp point ex HD NE HP) as (c & t & EB & HC). rewrite EB in HS |- *.
    destruct (starts_number_plain c HC) as (S1 & S2 & S3 & S4 & S5).
    destruct sg as [|sgc sg].
    + cbn [app] in HS |- *. destruct t as [|x t].
      * unfold classify_token. assert (D : isalpha c = false /\ isdigit c = true \/ Ascii.eqb c (ascii_of_nat 46) = true)
          by (revert HC; clear; destruct c as [[] [] [] [] [] [] [] []]; intros H; vm_compute in H; try discriminate H;
              first [left; split; reflexivity | right; reflexivity]).
        destruct D as [[D1 D2]|D]. { rewrite D1, D2, HS. reflexivity. }
        apply Ascii.eqb_eq in D. subst c. cbv in HS. discriminate HS.
      * unfold classify_token. destruct (S5 (x :: t)) as (_ & _ & S6). rewrite S6, S4. cbn [andb]. rewrite HS. reflexivity.
    + assert (Y : sg = [] /\ (sgc = ascii_of_nat 45 \/ sgc = ascii_of_nat 43)).
      { destruct neg; cbn in A; [injection A as -> ->; auto|]. destruct A as [A|A]; [discriminate|]. injection A as -> ->. auto. }
      destruct Y as [-> Y]. cbn [app] in HS |- *. unfold classify_token.
      rewrite (find_keyword_sign sgc _ Y). replace (Ascii.eqb sgc QUOTE) with false by (destruct Y as [-> | ->]; reflexivity).
      cbn [andb]. rewrite HS. reflexivity.
Qed.

Lemma classify_not_end : forall s t, reads_as s t -> t <> T_end.
Proof. intros s t H. destruct H; discriminate. Qed.

Lemma until_end_reads : forall T ts, Forall2 reads_as T ts -> until_end (map classify_token T) = ts.
Proof.
  intros T ts H. induction H as [|s t T ts H1 H2 IH]; [reflexivity|]. cbn [map until_end].
  rewrite (classify_reads s t H1), IH. pose proof (classify_not_end s t H1). destruct t; try reflexivity. congruence.
Qed.

Lemma lex_text : forall f T ts, text_tokens f T -> Forall2 reads_as T ts -> lex f = Ok ts.
Proof. intros f T ts H1 H2. rewrite (lex_ok f T (text_lexes f T H1)), (until_end_reads T ts H2). reflexivity. Qed.
