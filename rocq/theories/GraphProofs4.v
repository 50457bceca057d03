(** * Proofs about nip_cliques_connected *)
From Coq Require Import Permutation Relations.
From Verif Require Import Base BaseProofs PotentialModel JoinTreeModel JoinTreeSpec GraphTheory
  GraphProofs.
Import ListNotations.
Open Scope nat_scope.
Local Open Scope res_scope.

(** A tree with other marks. *)
Definition remark (jt : jtree) (ms : list bool) : jtree :=
  mkJT (map (fun i => set_mark (clq jt i) (nth i ms false)) (seq 0 (length (cls jt)))) (sps jt).

Lemma remark_length : forall jt ms, length (cls (remark jt ms)) = length (cls jt).
Proof. intros. cbn. now rewrite map_length, seq_length. Qed.

Lemma remark_rd : forall jt ms i, i < length (cls jt) ->
  rd (cls (remark jt ms)) i = Ok (set_mark (clq jt i) (nth i ms false)).
Proof.
  intros jt ms i Hi. rewrite (rd_ok _ _ _ (mkClique [] (mkPot [] []) (mkPot [] []) [] false))
    by (rewrite remark_length; auto).
  f_equal. cbn [remark cls]. rewrite (nth_map _ _ _ _ _ 0) by (now rewrite seq_length).
  now rewrite seq_nth.
Qed.

Lemma remark_own : forall jt, remark jt (map c_mark (cls jt)) = jt.
Proof.
  intros [cl sp]. unfold remark. cbn [cls sps]. f_equal.
  apply (list_ext_nth _ (mkClique [] (mkPot [] []) (mkPot [] []) [] false)).
  - now rewrite map_length, seq_length.
  - intros i Hi. rewrite map_length, seq_length in Hi.
    rewrite (nth_map _ _ _ _ _ 0) by (now rewrite seq_length). rewrite seq_nth by auto. cbn [plus].
    unfold clq. cbn [cls]. rewrite (nth_map _ _ _ _ _ (mkClique [] (mkPot [] []) (mkPot [] []) [] false)) by auto.
    now destruct (nth i cl _).
Qed.

Lemma put_mark : forall jt ms i b, length ms = length (cls jt) -> i < length (cls jt) ->
  put_clique (remark jt ms) i (set_mark (clq jt i) b) = Ok (remark jt (set_nth ms i b)).
Proof.
  intros jt ms i b L Hi. unfold put_clique. rewrite wr_ok by (rewrite remark_length; auto). cbn [bind].
  f_equal. unfold remark. cbn [cls sps]. f_equal.
  apply (list_ext_nth _ (mkClique [] (mkPot [] []) (mkPot [] []) [] false)).
  - rewrite set_nth_length. now rewrite !map_length.
  - intros k Hk. rewrite set_nth_length, map_length, seq_length in Hk.
    rewrite nth_set_nth by (now rewrite map_length, seq_length).
    rewrite !(nth_map _ _ _ _ _ 0) by (now rewrite seq_length). rewrite !seq_nth by auto. cbn [plus].
    rewrite nth_set_nth by lia. destruct (Nat.eqb_spec k i) as [->|]; auto.
Qed.

Lemma mark_ok : forall jt ms i, length ms = length (cls jt) -> i < length (cls jt) ->
  mark_clique (remark jt ms) i = Ok (remark jt (set_nth ms i true)).
Proof.
  intros jt ms i L Hi. unfold mark_clique. rewrite remark_rd by auto. cbn [bind].
  change (set_mark (set_mark (clq jt i) (nth i ms false)) true) with (set_mark (clq jt i) true).
  apply put_mark; auto.
Qed.

Lemma marked_ok : forall jt ms i, i < length (cls jt) ->
  clique_marked (remark jt ms) i = Ok (nth i ms false).
Proof. intros jt ms i Hi. unfold clique_marked. rewrite remark_rd by auto. reflexivity. Qed.

Lemma unmark_ok : forall jt, unmark_all jt = Ok (remark jt (repeat false (length (cls jt)))).
Proof.
  intros jt. unfold unmark_all.
  match goal with |- for_up 0 ?n ?b0 ?s0 = _ =>
    destruct (for_up_inv jtree (fun t j => exists ms, j = remark jt ms /\ length ms = length (cls jt) /\
       forall k, k < t -> nth k ms false = false) b0 0 n s0) as (j & E & ms & -> & L & Q) end.
  - lia.
  - exists (map c_mark (cls jt)). rewrite remark_own, map_length. split; auto. split; auto. intros; lia.
  - intros i j Hi (ms & -> & L & Q). rewrite remark_rd by lia. cbn [bind].
    change (set_mark (set_mark (clq jt i) (nth i ms false)) false) with (set_mark (clq jt i) false).
    rewrite put_mark by (auto; lia). eexists; split; [reflexivity|].
    exists (set_nth ms i false). split; auto. rewrite set_nth_length. split; auto.
    intros k Hk. rewrite nth_set_nth by lia. destruct (Nat.eqb_spec k i); auto. apply Q; lia.
  - rewrite E. f_equal. f_equal. apply (list_ext_nth _ false); [now rewrite repeat_length|].
    intros k Hk. rewrite nth_repeat_lt by lia. apply Q. lia.
Qed.

(** Number of marks that are off. *)
Definition off (ms : list bool) : nat := length (filter negb ms).

Lemma off_set : forall ms i, i < length ms -> nth i ms false = false ->
  S (off (set_nth ms i true)) = off ms.
Proof.
  induction ms as [|b ms IH]; intros [|i] Hi Q; cbn in *; try lia.
  - subst. reflexivity.
  - unfold off in *. cbn. specialize (IH i ltac:(lia) Q). destruct b; cbn; lia.
Qed.

Lemma off_mono : forall ms ms', length ms = length ms' ->
  (forall i, nth i ms false = true -> nth i ms' false = true) -> off ms' <= off ms.
Proof.
  induction ms as [|b ms IH]; intros [|b' ms'] L Q; cbn in L; try lia; auto.
  unfold off in *. cbn. assert (Q0 := Q 0). cbn in Q0.
  assert (length (filter negb ms') <= length (filter negb ms)).
  { apply IH; [lia|]. intros i. apply (Q (S i)). }
  destruct b, b'; cbn; try lia.
Qed.

(** The inner loop of nip_cliques_connected. *)
Definition cc_loop (rec : jtree -> nat -> res (jtree * bool)) :=
  fix loop (l : list nat) (jt : jtree) : res (jtree * bool) :=
    match l with
    | [] => Ok (jt, false)
    | s :: l' =>
        let* sp := rd (sps jt) s in
        let* m1 := clique_marked jt (s_first sp) in
        if negb m1 then
          let* (jt, b) := rec jt (s_first sp) in
          if (b : bool) then Ok (jt, true) else loop l' jt
        else
          let* m2 := clique_marked jt (s_second sp) in
          if negb m2 then
            let* (jt, b) := rec jt (s_second sp) in
            if (b : bool) then Ok (jt, true) else loop l' jt
          else loop l' jt
    end.

Lemma cliques_connected_eq : forall f jt one two,
  cliques_connected (S f) jt one two =
  (let* c := rd (cls jt) one in
   let* jt := mark_clique jt one in
   if Nat.eqb one two then Ok (jt, true)
   else cc_loop (fun jt i => cliques_connected f jt i two) (c_sepsets c) jt).
Proof. reflexivity. Qed.

Section Connected.
Variables (jt : jtree) (E : list (nat * nat)) (two : nat).
Notation m := (length (cls jt)).
(** The lists of sepsets describe the edges of [E]. *)
Hypothesis HE : forall x y, x < m ->
  (link E x y <-> exists s, In s (c_sepsets (clq jt x)) /\ joins jt s x y).
Hypothesis HS : forall x s, x < m -> In s (c_sepsets (clq jt x)) ->
  s < length (sps jt) /\ s_first (sep jt s) < m /\ s_second (sep jt s) < m /\
  (s_first (sep jt s) = x \/ s_second (sep jt s) = x).

Definition grown (ms ms' : list bool) : Prop :=
  length ms' = m /\ forall i, nth i ms false = true -> nth i ms' false = true.
Definition closed (ms ms' : list bool) (x : nat) : Prop :=
  nth x ms' false = true -> nth x ms false = false ->
  x <> two /\ forall y, link E x y -> nth y ms' false = true.

Definition found (one : nat) (ms ms' : list bool) (b : bool) : Prop :=
  if b then conn E one two else forall x, closed ms ms' x.

Lemma cc_loop_ok : forall f one,
  one < m -> one <> two ->
  (forall ms i, length ms = m -> i < m -> nth i ms false = false -> off ms <= f ->
     exists ms' b, cliques_connected f (remark jt ms) i two = Ok (remark jt ms', b) /\
       grown ms ms' /\ nth i ms' false = true /\ found i ms ms' b) ->
  forall l ms0 ms, incl l (c_sepsets (clq jt one)) -> grown ms0 ms -> nth one ms false = true ->
    length ms0 = m -> off ms <= f -> (forall x, x <> one -> closed ms0 ms x) ->
    exists ms' b, cc_loop (fun jt i => cliques_connected f jt i two) l (remark jt ms)
        = Ok (remark jt ms', b) /\ grown ms ms' /\
      if b then conn E one two
      else (forall x, x <> one -> closed ms0 ms' x) /\
           forall s, In s l -> nth (s_first (sep jt s)) ms' false = true /\
                               nth (s_second (sep jt s)) ms' false = true.
Proof.
  intros f one H1 N1 REC. induction l as [|s l IH]; intros ms0 ms HI G HO L0 HF HC; cbn [cc_loop].
  - exists ms, false. split; auto. split; [split; [apply G|auto]|]. split; [auto|intros s []].
  - destruct (HS one s H1 (HI s (or_introl eq_refl))) as (Ls & F1 & F2 & FX).
    assert (Hl : incl l (c_sepsets (clq jt one))) by (intros x Hx; apply HI; right; auto).
    assert (RS : rd (sps (remark jt ms)) s = Ok (sep jt s)) by (apply rd_ok; exact Ls).
    rewrite RS. cbn [bind].
    rewrite marked_ok by auto. cbn [bind].
    (* the end that is entered *)
    assert (STEP : forall z, z < m -> nth z ms false = false -> link E one z ->
      (z = s_first (sep jt s) \/ nth (s_first (sep jt s)) ms false = true) ->
      (z = s_second (sep jt s) \/ nth (s_second (sep jt s)) ms false = true) ->
      exists ms' b,
        (let* (jt0, b) := cliques_connected f (remark jt ms) z two in
         if (b : bool) then Ok (jt0, true)
         else cc_loop (fun jt i => cliques_connected f jt i two) l jt0) = Ok (remark jt ms', b) /\
        grown ms ms' /\
        if b then conn E one two
        else (forall x, x <> one -> closed ms0 ms' x) /\
           forall s0, In s0 (s :: l) -> nth (s_first (sep jt s0)) ms' false = true /\
                               nth (s_second (sep jt s0)) ms' false = true).
    { intros z Hz Mz LZ Q1 Q2. destruct (REC ms z (proj1 G) Hz Mz HF) as (ms1 & b & E1 & G1 & M1 & F).
      rewrite E1. cbn [bind]. destruct b.
      - exists ms1, true. split; auto. split; auto. cbn in F.
        apply conn_trans with z; auto. apply rt_step; auto.
      - cbn [found] in F.
        assert (C1 : forall x, x <> one -> closed ms0 ms1 x).
        { intros x NX M2 M0. destruct (nth x ms false) eqn:MX.
          - destruct (HC x NX MX M0) as [T1 T2]. split; auto. intros y Hy. apply G1; auto.
          - apply F; auto. }
        destruct (IH ms0 ms1 Hl) as (ms' & b & E2 & G2 & R2); auto.
        + split; [apply G1|]. intros i Hi. apply G1, G; auto.
        + apply G1; auto.
        + assert (off ms1 <= off ms); [|lia]. apply off_mono; [rewrite (proj1 G), (proj1 G1); auto|apply G1].
        + exists ms', b. split; auto. split; [split; [apply G2|]; intros i Hi; apply G2, G1; auto|].
          destruct b; auto. destruct R2 as [R2 R3]. split; auto.
          intros s0 [<-|Hs0]; auto. split.
          * apply G2. destruct Q1 as [<-|Q1]; auto. apply G1; auto.
          * apply G2. destruct Q2 as [<-|Q2]; auto. apply G1; auto. }
    assert (LK : forall z, s_first (sep jt s) = one /\ s_second (sep jt s) = z \/
                           s_first (sep jt s) = z /\ s_second (sep jt s) = one -> link E one z).
    { intros z Q. apply HE; auto. exists s. split; [apply HI; left; auto|]. exact Q. }
    destruct (nth (s_first (sep jt s)) ms false) eqn:B1; cbn [negb].
    + rewrite marked_ok by auto. cbn [bind].
      destruct (nth (s_second (sep jt s)) ms false) eqn:B2; cbn [negb].
      * destruct (IH ms0 ms Hl) as (ms' & b & E2 & G2 & R2); auto.
        exists ms', b. split; auto. split; auto. destruct b; auto. destruct R2 as [R2 R3].
        split; auto. intros s0 [<-|Hs0]; auto. split; apply G2; auto.
      * apply STEP; auto. apply LK. left. split; auto.
        destruct FX as [FX|FX]; auto. rewrite FX in B2. congruence.
    + apply STEP; auto.
      * apply LK. right. split; auto. destruct FX as [FX|FX]; auto. rewrite FX in B1. congruence.
      * right. destruct FX as [FX|FX]; [rewrite FX in B1; congruence|]. now rewrite FX.
Qed.

Lemma cliques_connected_ok : forall f ms one, length ms = m -> one < m ->
  nth one ms false = false -> off ms <= f ->
  exists ms' b, cliques_connected f (remark jt ms) one two = Ok (remark jt ms', b) /\
    grown ms ms' /\ nth one ms' false = true /\ found one ms ms' b.
Proof.
  induction f as [|f IH]; intros ms one L H1 M1 HF.
  - exfalso. assert (Q := off_set ms one ltac:(lia) M1). lia.
  - rewrite cliques_connected_eq. rewrite remark_rd by auto. cbn [bind].
    rewrite mark_ok by auto. cbn [bind].
    assert (Q := off_set ms one ltac:(lia) M1).
    set (ms1 := set_nth ms one true) in *.
    assert (L1 : length ms1 = m) by (unfold ms1; now rewrite set_nth_length).
    assert (O1 : nth one ms1 false = true) by (unfold ms1; rewrite nth_set_nth by lia; now rewrite Nat.eqb_refl).
    assert (G1 : grown ms ms1).
    { split; auto. intros i Hi. unfold ms1. rewrite nth_set_nth by lia. destruct (Nat.eqb_spec i one); auto. }
    destruct (Nat.eqb_spec one two) as [->|N].
    + exists ms1, true. split; auto. split; auto. split; auto. apply conn_refl.
    + change (c_sepsets (set_mark (clq jt one) (nth one ms false))) with (c_sepsets (clq jt one)).
      destruct (cc_loop_ok f one H1 N IH (c_sepsets (clq jt one)) ms ms1) as (ms' & b & E2 & G2 & R2); auto.
      * apply incl_refl.
      * lia.
      * intros x NX MX M0. unfold ms1 in MX. rewrite nth_set_nth in MX by lia.
        destruct (Nat.eqb_spec x one); [congruence|congruence].
      * exists ms', b. split; auto. split; [split; [apply G2|]; intros i Hi; apply G2, G1; auto|].
        split; [apply G2; auto|]. destruct b; auto. destruct R2 as [R2 R3]. cbn [found].
        intros x. destruct (Nat.eq_dec x one) as [->|NX]; [|apply R2; auto].
        intros _ _. split; auto. intros y Hy. apply HE in Hy; auto. destruct Hy as (s & Hs & J).
        destruct (R3 s Hs) as [T1 T2]. destruct J as [[J1 J2]|[J1 J2]]; congruence.
Qed.

Lemma connected_ok : forall one, one < m ->
  exists ms b, (let* j := unmark_all jt in cliques_connected m j one two) = Ok (remark jt ms, b) /\
    (b = true <-> conn E one two).
Proof.
  intros one H1. rewrite unmark_ok. cbn [bind].
  destruct (cliques_connected_ok m (repeat false m) one) as (ms & b & E1 & G & M1 & F); auto.
  - apply repeat_length.
  - apply nth_repeat_lt; auto.
  - unfold off. assert (Q : forall n, length (filter negb (repeat false n)) = n).
    { induction n; cbn; auto. }
    rewrite Q. auto.
  - exists ms, b. split; auto. destruct b; [split; auto|]. split; [intros Q; discriminate Q|].
    intros C. exfalso. cbn [found] in F.
    assert (T : forall x y, conn E x y -> nth x ms false = true -> nth y ms false = true).
    { induction 1 as [x y Q|x|x y z Q1 I1 Q2 I2]; auto. intros MX.
      apply (F x); auto. destruct (Nat.lt_ge_cases x m) as [LX|LX]; [apply nth_repeat_lt; auto|].
      apply nth_overflow. rewrite repeat_length. auto. }
    specialize (T one two C M1).
    destruct (F two T) as [Q _]; auto.
    destruct (Nat.lt_ge_cases two m) as [LX|LX]; [apply nth_repeat_lt; auto|].
    apply nth_overflow. rewrite repeat_length. auto.
Qed.

End Connected.
