(** * Proofs about src/nipstring.c *)
From Coq Require Import Ascii.
From Verif Require Import Base BaseProofs StringModel StringSpec.
Import ListNotations.
Open Scope nat_scope.
Local Open Scope res_scope.

Lemma find_loop_exists : forall (l : list ascii) c n lo, lo + n <= length l ->
  exists o, find_loop n lo (fun k => let* x := rd l k in Ok (Ascii.eqb c x)) = Ok o /\
    match o with Some _ => true | None => false end
    = existsb (Ascii.eqb c) (firstn n (skipn lo l)).
Proof.
  intros l c. induction n as [|n IH]; intros lo H; cbn [find_loop].
  - exists None. split; reflexivity.
  - assert (L : lo < length l) by lia. rewrite (rd_ok _ l lo NUL) by exact L. cbn [bind].
    assert (E : skipn lo l = nth lo l NUL :: skipn (S lo) l).
    { clear -L. revert lo L. induction l as [|a l IH]; intros lo L; cbn in L; [lia|].
      destruct lo as [|lo]; [reflexivity|]. apply IH. lia. }
    rewrite E. cbn [firstn existsb]. destruct (Ascii.eqb c (nth lo l NUL)) eqn:Ec.
    + exists (Some lo). split; reflexivity.
    + destruct (IH (S lo)) as (o & Eo & Eb); [lia|]. exists o. split; [exact Eo|exact Eb].
Qed.

Section Scan.
Variable s : list ascii.
Variable q : bool.
Variable seps : option (list ascii).
Variable ns : nat.
Variable keep wsp : bool.
Hypothesis HNUL : ~ In zero s.
Hypothesis HS : match seps with Some l => ns <= length l | None => True end.

(** Is the character one of the separators? *)
Definition sepc (c : ascii) : bool :=
  match seps with Some l => existsb (Ascii.eqb c) (firstn ns l) | None => false end.

Lemma separator_loop_ok : forall c f, separator_loop seps ns c f = Ok (sepc c || f)%bool.
Proof.
  intros c f. unfold separator_loop, sepc. destruct seps as [l|]; [|reflexivity].
  unfold find_up. rewrite Nat.sub_0_r. destruct (find_loop_exists l c ns 0) as (o & E & Eb); [lia|].
  rewrite E. cbn [bind]. cbn [skipn] in Eb. rewrite <- Eb. destruct o; reflexivity.
Qed.

Lemma skipn_cget : forall i c t, skipn i s = c :: t ->
  cget s i = Ok c /\ skipn (S i) s = t /\ Ascii.eqb c NUL = false /\ i < length s.
Proof.
  intros i c t E.
  assert (L : i < length s).
  { destruct (Nat.lt_ge_cases i (length s)) as [L|L]; [exact L|].
    rewrite skipn_all2 in E by exact L. discriminate E. }
  assert (N : nth_error s i = Some c /\ skipn (S i) s = t).
  { clear -E. revert i E. induction s as [|a r IH]; intros i E.
    - rewrite skipn_nil in E. discriminate E.
    - destruct i as [|i]; [cbn in E; injection E as E1 E2; subst; split; reflexivity|].
      cbn [skipn] in E. apply IH in E. exact E. }
  destruct N as [N1 N2]. split; [unfold cget; rewrite N1; reflexivity|].
  split; [exact N2|]. split; [|exact L].
  apply Ascii.eqb_neq. intros ->. apply HNUL. eapply nth_error_In. exact N1.
Qed.

Lemma skipn_nil_cget : forall i, i <= length s -> skipn i s = [] -> cget s i = Ok NUL /\ i = length s.
Proof.
  intros i L E.
  assert (i = length s).
  { destruct (Nat.eq_dec i (length s)) as [|N]; [assumption|].
    assert (length (skipn i s) = length s - i) by apply skipn_length. rewrite E in H. cbn in H. lia. }
  subst i. split; [|reflexivity]. unfold cget.
  destruct (nth_error s (length s)) eqn:E2; [|rewrite Nat.eqb_refl; reflexivity].
  assert (length s < length s) by (apply nth_error_Some; rewrite E2; discriminate). lia.
Qed.

Lemma matching_quote_ok : forall l i fuel, i <= length s -> skipn i s = l -> length l < fuel ->
  matching_quote fuel s i = Ok (existsb (fun c => Ascii.eqb c QUOTE) l).
Proof.
  induction l as [|c t IH]; intros i fuel L E F; (destruct fuel as [|fuel]; [cbn in F; lia|]);
    cbn [matching_quote existsb].
  - destruct (skipn_nil_cget i L E) as [G _]. rewrite G. reflexivity.
  - destruct (skipn_cget i c t E) as (G & E2 & N & L2). rewrite G. cbn [bind]. rewrite N.
    destruct (Ascii.eqb c QUOTE); [reflexivity|]. cbn [orb]. cbn in F. apply IH; [lia|exact E2|lia].
Qed.

(** The marks that remain to be made at position [i], where the rest of the
    string is [l]. *)
Fixpoint scan (i st : nat) (f : bool) (l : list ascii) : list nat :=
  match l with
  | [] => if Nat.eqb st 0 then [] else [i]
  | c :: t =>
      let f := (sepc c || f)%bool in
      if (negb (Nat.eqb st 2) && f)%bool then
        (if Nat.eqb st 1 then [i] else []) ++ (if keep then [i; i + 1] else [])
          ++ scan (S i) 0 false t
      else if (q && negb (Nat.eqb st 2) && Ascii.eqb c QUOTE)%bool then
        if existsb (fun c => Ascii.eqb c QUOTE) t then
          (if Nat.eqb st 1 then [i] else []) ++ [i] ++ scan (S i) 2 f t
        else scan (S i) st f t
      else if Nat.eqb st 0 then
        if ((wsp && negb (isspace c)) || (negb wsp && negb (Ascii.eqb c NEWLINE)))%bool
        then [i] ++ scan (S i) 1 f t
        else scan (S i) st f t
      else if ((wsp && Nat.eqb st 1 && isspace c) || Ascii.eqb c NEWLINE)%bool
      then [i] ++ scan (S i) 0 f t
      else if (q && Nat.eqb st 2 && Ascii.eqb c QUOTE)%bool
      then [i + 1] ++ scan (S i) 0 f t
      else scan (S i) st f t
  end.

Definition opened (st : nat) : nat := if Nat.eqb st 0 then 0 else 1.

Lemma count_loop_ok : forall l i fuel tokens st f chars, i <= length s -> skipn i s = l ->
  length l < fuel -> st <= 2 ->
  exists n, count_loop fuel s q seps ns keep wsp i tokens st f chars = Ok (tokens + n, chars + length l)
    /\ length (scan i st f l) = 2 * n + opened st.
Proof.
  induction l as [|c t IH]; intros i fuel tokens st f chars L E F HST;
    (destruct fuel as [|fuel]; [cbn in F; lia|]); cbn [count_loop scan].
  - destruct (skipn_nil_cget i L E) as [G _]. rewrite G. cbn [bind]. exists 0.
    split; [rewrite !Nat.add_0_r; reflexivity|]. unfold opened. destruct (Nat.eqb st 0); reflexivity.
  - destruct (skipn_cget i c t E) as (G & E2 & N & L2). rewrite G. cbn [bind]. rewrite N.
    rewrite separator_loop_ok. cbn [bind]. cbn [length] in F.
    rewrite (matching_quote_ok t (S i) (S (length s)));
      [|lia|exact E2|rewrite <- E2, skipn_length; lia].
    assert (NEXT : forall d tokens' st' f' w, st' <= 2 -> tokens' = d + tokens ->
      length w + opened st' = 2 * d + opened st ->
      exists n,
      count_loop fuel s q seps ns keep wsp (S i) tokens' st' f' (S chars)
      = Ok (tokens + n, chars + length (c :: t)) /\
      length (w ++ scan (S i) st' f' t) = 2 * n + opened st).
    { intros d tokens' st' f' w H1 H2 H3.
      destruct (IH (S i) fuel tokens' st' f' (S chars)) as (n & E3 & E4);
        [lia|exact E2|lia|exact H1|]. exists (d + n). split; [|rewrite app_length; lia].
      rewrite E3. cbn [length]. f_equal. f_equal; lia. }
    generalize (sepc c || f)%bool. intros f1.
    destruct (negb (Nat.eqb st 2) && f1)%bool eqn:B1.
    { cbn [bind]. rewrite app_assoc.
      apply (NEXT (if keep then 1 else 0)); [lia|destruct keep; reflexivity|].
      destruct st as [|[|[|st]]]; [| |discriminate B1|lia]; destruct keep; reflexivity. }
    destruct (q && negb (Nat.eqb st 2) && Ascii.eqb c QUOTE)%bool eqn:B2.
    { cbn [bind]. destruct (existsb (fun c0 => Ascii.eqb c0 QUOTE) t); cbn [bind].
      - rewrite app_assoc. apply (NEXT 1); [lia|reflexivity|].
        destruct st as [|[|[|st]]]; [reflexivity|reflexivity| |lia].
        rewrite andb_false_r in B2. discriminate B2.
      - apply (NEXT 0 tokens st f1 []); [exact HST|reflexivity|reflexivity]. }
    destruct (Nat.eqb st 0) eqn:B3.
    { apply Nat.eqb_eq in B3. subst st.
      destruct ((wsp && negb (isspace c)) || (negb wsp && negb (Ascii.eqb c NEWLINE)))%bool; cbn [bind].
      - apply (NEXT 1); [lia|reflexivity|reflexivity].
      - apply (NEXT 0 tokens 0 f1 []); [lia|reflexivity|reflexivity]. }
    assert (O : opened st = 1) by (unfold opened; rewrite B3; reflexivity).
    destruct ((wsp && Nat.eqb st 1 && isspace c) || Ascii.eqb c NEWLINE)%bool; cbn [bind].
    { apply (NEXT 0); [lia|reflexivity|rewrite O; reflexivity]. }
    destruct (q && Nat.eqb st 2 && Ascii.eqb c QUOTE)%bool; cbn [bind].
    { apply (NEXT 0); [lia|reflexivity|rewrite O; reflexivity]. }
    apply (NEXT 0 tokens st f1 []); [exact HST|reflexivity|reflexivity].
Qed.

Lemma push_ok : forall pre k v,
  push (pre ++ repeat 0 (S k), length pre) v
  = Ok ((pre ++ [v]) ++ repeat 0 k, length (pre ++ [v])).
Proof.
  intros pre k v. unfold push. rewrite wr_ok by (rewrite app_length; cbn; lia). cbn [bind].
  f_equal. f_equal; [|rewrite app_length; cbn; lia].
  rewrite <- app_assoc. cbn [app repeat]. induction pre as [|a pre IH]; [reflexivity|].
  cbn [app length set_nth]. rewrite IH. reflexivity.
Qed.

(** The outcome of the loop: all marks are made, or the last one is missing
    and is the final position. *)
Definition marked (N : nat) (all : list nat) (r : res (list nat * nat * nat)) : Prop :=
  exists ind i j, r = Ok (ind, i, j) /\
    ((j = N /\ ind = all) \/
     (S j = N /\ exists p, ind = p ++ [0] /\ length p = j /\ p ++ [i] = all)).

Lemma tokenise_loop_ok : forall l i fuel st f pre N, i <= length s -> skipn i s = l ->
  length l < fuel -> st <= 2 -> scan i st f l <> [] -> N = length (pre ++ scan i st f l) ->
  marked N (pre ++ scan i st f l)
    (tokenise_loop fuel s q seps ns keep wsp N (pre ++ repeat 0 (length (scan i st f l))) i (length pre) st f).
Proof.
  induction l as [|c t IH]; intros i fuel st f pre N L E F HST NE HN;
    (destruct fuel as [|fuel]; [cbn in F; lia|]); cbn [tokenise_loop scan] in *.
  - destruct (skipn_nil_cget i L E) as [G _]. rewrite G. cbn [bind].
    destruct (Nat.eqb st 0); [congruence|]. cbn [Ascii.eqb NUL zero].
    exists (pre ++ [0]), i, (length pre). split; [reflexivity|].
    right. split; [rewrite app_length in HN; cbn in HN; lia|]. exists pre. auto.
  - destruct (skipn_cget i c t E) as (G & E2 & N0 & L2). rewrite G. cbn [bind]. rewrite N0.
    rewrite separator_loop_ok. cbn [bind]. cbn [length] in F.
    rewrite (matching_quote_ok t (i + 1) (S (length s)));
      [|lia|rewrite Nat.add_1_r; exact E2|rewrite <- E2, skipn_length; lia].
    assert (NEXT : forall pre' st' f' , st' <= 2 ->
      N = length (pre' ++ scan (S i) st' f' t) ->
      marked N (pre' ++ scan (S i) st' f' t)
        (if Nat.eqb (length pre') N
         then Ok (pre' ++ repeat 0 (length (scan (S i) st' f' t)), i, length pre')
         else tokenise_loop fuel s q seps ns keep wsp N
                (pre' ++ repeat 0 (length (scan (S i) st' f' t))) (S i) (length pre') st' f')).
    { intros pre' st' f' H1 H2. destruct (Nat.eqb_spec (length pre') N) as [Q|Q].
      - rewrite app_length in H2. destruct (scan (S i) st' f' t) as [|x y] eqn:ES; [|cbn in H2; lia].
        exists (pre' ++ repeat 0 0), i, (length pre'). split; [reflexivity|]. left. split; [exact Q|reflexivity].
      - apply IH; [lia|exact E2|lia|exact H1| |exact H2].
        intros X. rewrite X, app_nil_r in H2. lia. }
    clear IH. revert NE HN. generalize (sepc c || f)%bool. intros f1.
    destruct (negb (Nat.eqb st 2) && f1)%bool eqn:B1.
    { intros _. destruct (Nat.eqb st 1) eqn:B4; destruct keep; cbn [app]; intros HN; cbn [length].
      - rewrite push_ok. cbn [bind]. rewrite push_ok. cbn [bind]. rewrite push_ok. cbn [bind fst snd].
        specialize (NEXT (((pre ++ [i]) ++ [i]) ++ [i + 1]) 0 false).
        rewrite <- !app_assoc in *. cbn [app] in *. apply NEXT; [lia|exact HN].
      - rewrite push_ok. cbn [bind fst snd].
        specialize (NEXT (pre ++ [i]) 0 false).
        rewrite <- !app_assoc in *. cbn [app] in *. apply NEXT; [lia|exact HN].
      - cbn [bind]. rewrite push_ok. cbn [bind]. rewrite push_ok. cbn [bind fst snd].
        specialize (NEXT ((pre ++ [i]) ++ [i + 1]) 0 false).
        rewrite <- !app_assoc in *. cbn [app] in *. apply NEXT; [lia|exact HN].
      - cbn [bind fst snd]. apply NEXT; [lia|exact HN]. }
    destruct (q && negb (Nat.eqb st 2) && Ascii.eqb c QUOTE)%bool eqn:B2.
    { destruct (existsb (fun c0 => Ascii.eqb c0 QUOTE) t); cbn [bind]; intros _.
      - destruct (Nat.eqb st 1) eqn:B4; cbn [app]; intros HN; cbn [length].
        + rewrite push_ok. cbn [bind]. rewrite push_ok. cbn [bind fst snd].
          specialize (NEXT ((pre ++ [i]) ++ [i]) 2 f1).
          rewrite <- !app_assoc in *. cbn [app] in *. apply NEXT; [lia|exact HN].
        + cbn [bind]. rewrite push_ok. cbn [bind fst snd].
          specialize (NEXT (pre ++ [i]) 2 f1).
          rewrite <- !app_assoc in *. cbn [app] in *. apply NEXT; [lia|exact HN].
      - intros HN. apply NEXT; [exact HST|exact HN]. }
    destruct (Nat.eqb st 0) eqn:B3.
    { destruct ((wsp && negb (isspace c)) || (negb wsp && negb (Ascii.eqb c NEWLINE)))%bool;
        intros _ HN; cbn [app length].
      - rewrite push_ok. cbn [bind fst snd].
        specialize (NEXT (pre ++ [i]) 1 f1).
        rewrite <- !app_assoc in *. cbn [app] in *. apply NEXT; [lia|exact HN].
      - cbn [bind]. apply NEXT; [exact HST|exact HN]. }
    destruct ((wsp && Nat.eqb st 1 && isspace c) || Ascii.eqb c NEWLINE)%bool.
    { intros _ HN; cbn [app length]. rewrite push_ok. cbn [bind fst snd].
      specialize (NEXT (pre ++ [i]) 0 f1).
      rewrite <- !app_assoc in *. cbn [app] in *. apply NEXT; [lia|exact HN]. }
    destruct (q && Nat.eqb st 2 && Ascii.eqb c QUOTE)%bool.
    { intros _ HN; cbn [app length]. rewrite push_ok. cbn [bind fst snd].
      specialize (NEXT (pre ++ [i + 1]) 0 f1).
      rewrite <- !app_assoc in *. cbn [app] in *. apply NEXT; [lia|exact HN]. }
    intros _ HN. cbn [bind]. apply NEXT; [exact HST|exact HN].
Qed.

Lemma scan_intervals : forall l i st f lo, st <= 2 -> lo <= i ->
  match st with
  | 0 => intervals (i + length l) lo (scan i st f l)
  | _ => forall b, lo <= b -> b < i -> intervals (i + length l) lo (b :: scan i st f l)
  end.
Proof.
  induction l as [|c t IH]; intros i st f lo HST HL; cbn [scan length].
  - destruct st as [|st]; cbn [Nat.eqb]; [constructor|]. intros b H1 H2.
    constructor; [lia|lia|lia|constructor].
  - assert (EI : i + S (length t) = S i + length t) by lia. rewrite EI.
    assert (Z0 : forall f lo, lo <= S i -> intervals (S i + length t) lo (scan (S i) 0 f t)).
    { intros f0 lo0 H. apply (IH (S i) 0 f0 lo0); lia. }
    assert (Z1 : forall st f b lo, 1 <= st <= 2 -> lo <= b -> b <= i ->
      intervals (S i + length t) lo (b :: scan (S i) st f t)).
    { intros st0 f0 b lo0 H1 H2 H3. specialize (IH (S i) st0 f0 lo0).
      destruct st0 as [|st0]; [lia|]. apply IH; lia. }
    generalize (sepc c || f)%bool. intros f1. replace (i + 1) with (S i) by lia.
    destruct st as [|[|[|st]]]; [| | |lia]; cbn [Nat.eqb negb andb].
    + destruct f1; cbn [app].
      { destruct keep; cbn [app]; [constructor; [lia|lia|lia|apply Z0; lia]|apply Z0; lia]. }
      destruct (q && true && Ascii.eqb c QUOTE)%bool.
      { destruct (existsb (fun c0 => Ascii.eqb c0 QUOTE) t); cbn [app]; [apply Z1; lia|apply Z0; lia]. }
      destruct ((wsp && negb (isspace c)) || (negb wsp && negb (Ascii.eqb c NEWLINE)))%bool;
        cbn [app]; [apply Z1; lia|apply Z0; lia].
    + intros b H1 H2. destruct f1; cbn [app].
      { constructor; [lia|lia|lia|].
        destruct keep; cbn [app]; [constructor; [lia|lia|lia|apply Z0; lia]|apply Z0; lia]. }
      destruct (q && true && Ascii.eqb c QUOTE)%bool.
      { destruct (existsb (fun c0 => Ascii.eqb c0 QUOTE) t); cbn [app]; [|apply Z1; lia].
        constructor; [lia|lia|lia|apply Z1; lia]. }
      destruct ((wsp && true && isspace c) || Ascii.eqb c NEWLINE)%bool; cbn [app].
      { constructor; [lia|lia|lia|apply Z0; lia]. }
      rewrite andb_false_r. cbn [andb]. apply Z1; lia.
    + intros b H1 H2. rewrite !andb_false_r. cbn [andb].
      destruct (false || Ascii.eqb c NEWLINE)%bool; cbn [app].
      { constructor; [lia|lia|lia|apply Z0; lia]. }
      destruct (q && true && Ascii.eqb c QUOTE)%bool; cbn [app]; [|apply Z1; lia].
      constructor; [lia|lia|lia|apply Z0; lia].
Qed.

(** What the tokeniser returns. *)
Lemma tokenise_lemma : (2 * Z.of_nat (length s) <= INT_MAX)%Z ->
  exists n, count_tokens s q seps ns keep wsp = Ok (n, length s) /\
    length (scan 0 0 false s) = 2 * n /\
    intervals (length s) 0 (scan 0 0 false s) /\
    (n = 0 -> tokenise (Some s) (Z.of_nat n) q seps ns keep wsp = Ok (None, NO_ERROR)) /\
    (0 < n -> tokenise (Some s) (Z.of_nat n) q seps ns keep wsp
              = Ok (Some (scan 0 0 false s), NO_ERROR)).
Proof.
  intros HM. destruct (count_loop_ok s 0 (S (length s)) 0 0 false 0) as (n & E & EL);
    [lia|reflexivity|lia|lia|]. cbn [opened Nat.eqb] in EL. unfold opened in EL. cbn in EL.
  exists n. unfold count_tokens. rewrite E. split; [reflexivity|].
  assert (EL2 : length (scan 0 0 false s) = 2 * n) by lia. split; [exact EL2|].
  assert (I : intervals (length s) 0 (scan 0 0 false s))
    by (apply (scan_intervals s 0 0 false 0); lia).
  split; [exact I|].
  assert (B : 2 * n <= 2 * length s).
  { rewrite <- EL2. clear -I. assert (G : forall lo l, intervals (length s) lo l -> lo <= length s ->
      length l <= 2 * (length s - lo)).
    { intros lo l H. induction H; intros HL; cbn [length]; [lia|]. assert (e <= length s) by lia. lia. }
    specialize (G 0 _ I). lia. }
  split.
  - intros ->. reflexivity.
  - intros P. unfold tokenise.
    destruct (Z.ltb_spec (Z.of_nat n) 0); [lia|]. destruct (Z.eqb_spec (Z.of_nat n) 0); [lia|].
    rewrite Nat2Z.id. rewrite imul_ok by lia. cbn [bind].
    destruct (tokenise_loop_ok s 0 (S (length s)) 0 false [] (2 * n)) as (ind & i & j & E1 & R);
      [lia|reflexivity|lia|lia|intros X; rewrite X in EL2; cbn in EL2; lia|cbn [app]; lia|].
    cbn [app length] in E1, R. rewrite EL2 in E1. rewrite E1. cbn [bind].
    destruct R as [[R1 R2]|(R1 & p & R2 & R3 & R4)].
    + destruct (Nat.eqb_spec j (2 * n - 1)); [lia|]. destruct (Nat.ltb_spec j (2 * n - 1)); [lia|].
      rewrite R2. reflexivity.
    + destruct (Nat.eqb_spec j (2 * n - 1)); [|lia].
      rewrite wr_ok by (rewrite R2, app_length; cbn; lia). cbn [bind]. rewrite <- R4, R2.
      replace (set_nth (p ++ [0]) j i) with (p ++ [i]); [reflexivity|].
      rewrite <- R3. clear. induction p as [|a p IH]; [reflexivity|]. cbn [app length set_nth].
      rewrite IH. reflexivity.
Qed.
End Scan.
