(** * Proofs about data files, part 2: the two passes over a file *)
From Coq Require Import String Ascii.
From Verif Require Import Base BaseProofs StringModel StringSpec StringProofs StringProofs2
  VariableModel NipModel NipSpec SeriesFileModel SeriesFileSpec SeriesFileProofs.
Import ListNotations.
Open Scope nat_scope.
Local Open Scope res_scope.
Local Notation len := List.length.

Notation row := (list (list ascii)).

Section File.
Variable sep : ascii.

Lemma count_step : forall line, text line ->
  count_tokens line false (Some [sep]) 1 false true
  = Ok (len (fields (delimits [sep] true) none line), len line).
Proof. intros line H. apply (line_tokens sep line H). Qed.

(** ** The first pass *)
Lemma count_data : forall f T, reads sep f T -> forall fuel (P : list row) cl ll lc e nd state,
  len f < fuel -> nd = len (blocks P) -> state <= 1 -> (lc = 0 <-> ends _ P = false) ->
  count_data_rows_loop fuel sep f cl ll lc e nd state = Ok (len (blocks (P ++ T)), ll).
Proof.
  intros f T H. induction H as [|f line rest T EF HT HL HR IH]; intros fuel P cl ll lc e nd state HF HN HS HC;
    (destruct fuel as [|fuel]; [lia|]).
  - cbn. rewrite app_nil_r, HN. reflexivity.
  - cbn [count_data_rows_loop]. rewrite EF, count_step by exact HT. cbn [bind].
    set (t := fields (delimits [sep] true) none line). clearbody t.
    replace (P ++ t :: T) with ((P ++ [t]) ++ T) by (rewrite <- app_assoc; reflexivity).
    destruct t as [|a t]; cbn [len Nat.eqb].
    + apply IH; [lia|rewrite blocks_blank; exact HN|exact HS|].
      rewrite ends_snoc. cbn. intuition.
    + assert (EB : len (blocks (P ++ [a :: t])) = if Nat.eqb (S lc) 1 then S (len (blocks P)) else len (blocks P)).
      { destruct (ends _ P) eqn:E.
        - destruct (blocks_more _ P (a :: t) E) as (bs & b & E1 & E2); [discriminate|].
          rewrite E1, E2, !app_length. cbn [len].
          destruct lc as [|lc]; [destruct HC as [HC _]; discriminate (HC eq_refl)|]. cbn [Nat.eqb]. lia.
        - rewrite blocks_start by (auto; discriminate). rewrite app_length. cbn [len].
          destruct HC as [_ HC]. rewrite (HC eq_refl). cbn [Nat.eqb]. lia. }
      assert (EE : S lc = 0 <-> ends _ (P ++ [a :: t]) = false) by (rewrite ends_snoc; cbn; intuition discriminate).
      destruct state as [|[|state]]; [| |lia]; cbn [Nat.leb Nat.sub andb].
      * change (0 =? 0) with true. cbn [andb].
        apply IH; [lia| |lia|exact EE]. rewrite EB, HN. destruct (S lc =? 1); reflexivity.
      * change (0 =? 0) with true. cbn [andb].
        apply IH; [lia| |lia|exact EE]. rewrite EB, HN. destruct (S lc =? 1); reflexivity.
Qed.

Lemma reads_inv : forall f t T, reads sep f (t :: T) -> exists line rest,
  fgets f = Some (line, rest) /\ text line /\ len rest < len f /\ reads sep rest T /\
  fields (delimits [sep] true) none line = t.
Proof. intros f t T H. inversion H; subst. exists line, rest. auto. Qed.

Lemma count_header : forall k f header T, reads sep f (repeat [] k ++ header :: T) -> header <> [] ->
  forall fuel cl ll lc e, len f < fuel ->
  count_data_rows_loop fuel sep f cl ll lc e 0 2 = Ok (len (blocks T), (cl + Z.of_nat k + 1)%Z).
Proof.
  induction k as [|k IH]; intros f header T H N fuel cl ll lc e HF; cbn [repeat app] in H;
    apply reads_inv in H; destruct H as (line & rest & EF & HT & HL & HR & E1); (destruct fuel as [|fuel]; [lia|]);
    cbn [count_data_rows_loop]; rewrite EF, count_step by exact HT; rewrite E1; cbn [bind].
  - destruct header as [|a t]; [congruence|]. cbn [len Nat.eqb Nat.leb Nat.sub andb].
    replace (cl + Z.of_nat 0 + 1)%Z with (cl + 1)%Z by lia.
    apply (count_data rest T HR fuel []); [lia|reflexivity|lia|]. cbn. intuition.
  - cbn [len Nat.eqb]. rewrite (IH rest header T HR N) by lia. f_equal. f_equal. lia.
Qed.

Lemma count_blank : forall f T, reads sep f T -> Forall (fun t => t = []) T ->
  forall fuel cl ll lc e nd state, len f < fuel ->
  count_data_rows_loop fuel sep f cl ll lc e nd state = Ok (nd, ll).
Proof.
  intros f T H. induction H as [|f line rest T EF HT HL HR IH]; intros HB fuel cl ll lc e nd state HF;
    (destruct fuel as [|fuel]; [lia|]); [reflexivity|].
  inversion HB as [|? ? HB1 HB2]; subst. cbn [count_data_rows_loop]. rewrite EF, count_step by exact HT.
  rewrite HB1. cbn [bind len Nat.eqb]. apply IH; [exact HB2|lia].
Qed.

(** ** State names *)
Definition missing (x : list ascii) : bool := null_observation x.

Lemma ascii_list_eqb_spec : forall a b, ascii_list_eqb a b = true <-> a = b.
Proof. intros a b. unfold ascii_list_eqb. destruct (list_eq_dec ascii_dec a b); intuition discriminate. Qed.

Lemma missing_spec : forall x, missing x = true <-> In x missing_texts.
Proof.
  intros x. unfold missing, null_observation, missing_texts, str. cbn [map In].
  rewrite !orb_true_iff, !ascii_list_eqb_spec. intuition.
Qed.

Definition add_state (x : list ascii) (l : list (list ascii)) : list (list ascii) :=
  if (negb (missing x) && negb (existsb (ascii_list_eqb x) l))%bool then x :: l else l.

Lemma accumulate_ok : forall line ix fs, (forall k, k < len fs -> word line ix k = Ok (nth k fs [])) ->
  forall n i st, i + n <= len fs -> i + n <= len st ->
  exists st', accumulate_state_names st line ix i n = Ok st' /\ len st' = len st /\
    forall j, nth j st' [] = if (Nat.leb i j && Nat.ltb j (i + n))%bool
                             then add_state (nth j fs []) (nth j st []) else nth j st [].
Proof.
  intros line ix fs HW. induction n as [|n IH]; intros i st H1 H2; cbn [accumulate_state_names].
  - exists st. split; [reflexivity|]. split; [reflexivity|]. intros j.
    destruct (Nat.leb_spec i j); cbn [andb]; [|reflexivity]. destruct (Nat.ltb_spec j (i + 0)); [lia|reflexivity].
  - rewrite HW by lia. cbn [bind]. rewrite (rd_ok _ st i []) by lia. cbn [bind].
    set (x := nth i fs []). set (l := nth i st []).
    assert (EA : (if (negb (null_observation x) && negb (existsb (ascii_list_eqb x) l))%bool
                  then wr st i (x :: l) else Ok st) = Ok (set_nth st i (add_state x l))).
    { unfold add_state, missing. destruct (_ && _)%bool; [apply wr_ok; lia|].
      f_equal. subst l. symmetry. apply set_nth_same. }
    rewrite EA. cbn [bind].
    destruct (IH (S i) (set_nth st i (add_state x l))) as (st' & E & L & N); [lia|rewrite set_nth_length; lia|].
    exists st'. split; [exact E|]. rewrite set_nth_length in L. split; [exact L|]. intros j. rewrite N.
    rewrite nth_set_nth by lia.
    destruct (Nat.eqb_spec j i) as [->|NE].
    + destruct (Nat.leb_spec (S i) i); [lia|]. cbn [andb].
      destruct (Nat.leb_spec i i); [|lia]. destruct (Nat.ltb_spec i (i + S n)); [|lia]. reflexivity.
    + replace (Nat.leb (S i) j && Nat.ltb j (S i + n))%bool with (Nat.leb i j && Nat.ltb j (i + S n))%bool; [reflexivity|].
      destruct (Nat.leb_spec i j), (Nat.ltb_spec j (i + S n)), (Nat.leb_spec (S i) j), (Nat.ltb_spec j (S i + n)); cbn; auto; lia.
Qed.

(** The state names after the rows [P]: in each column the distinct values
    that are not missing. *)
Definition states_ok (nodes : nat) (P : list row) (st : list (list (list ascii))) : Prop :=
  len st = nodes /\ forall j, j < nodes ->
    NoDup (nth j st []) /\ forall x, In x (nth j st []) <-> In x (column P j) /\ ~ In x missing_texts.

Lemma column_snoc : forall P t j, column (P ++ [t]) j = column P j ++ match nth_error t j with Some x => [x] | None => [] end.
Proof. intros. unfold column. rewrite flat_map_app. cbn [flat_map]. rewrite app_nil_r. reflexivity. Qed.

Lemma states_blank : forall nodes P st, states_ok nodes P st -> states_ok nodes (P ++ [[]]) st.
Proof.
  intros nodes P st [H1 H2]. split; [exact H1|]. intros j Hj. rewrite column_snoc.
  assert (E : nth_error ([] : row) j = None) by (destruct j; reflexivity). rewrite E, app_nil_r. apply H2, Hj.
Qed.

Lemma add_state_ok : forall x l, NoDup l -> NoDup (add_state x l) /\
  forall y, In y (add_state x l) <-> In y l \/ (y = x /\ ~ In x missing_texts).
Proof.
  intros x l N. unfold add_state. assert (MS := missing_spec x). destruct (missing x) eqn:EM; cbn [negb andb].
  - split; [exact N|]. intros y. intuition.
  - destruct (existsb (ascii_list_eqb x) l) eqn:EX; cbn [negb].
    + split; [exact N|]. apply existsb_exists in EX. destruct EX as (z & Z1 & Z2). apply ascii_list_eqb_spec in Z2. subst z.
      intros y. split; [tauto|]. intros [Y|[-> _]]; assumption.
    + split.
      * constructor; [|exact N]. intros X. assert (Y : existsb (ascii_list_eqb x) l = true).
        { apply existsb_exists. exists x. split; [exact X|]. apply ascii_list_eqb_spec. reflexivity. }
        congruence.
      * intros y. cbn [In]. assert (~ In x missing_texts) by (intros X; apply MS in X; discriminate X).
        split; [intros [->|Y]; auto|intros [Y|[-> _]]; auto].
Qed.

Lemma accumulate_states : forall line ix t, (forall k, k < len t -> word line ix k = Ok (nth k t [])) ->
  forall nodes P st, states_ok nodes P st ->
  exists st', accumulate_state_names st line ix 0 (Nat.min nodes (len t)) = Ok st' /\
    states_ok nodes (P ++ [t]) st'.
Proof.
  intros line ix t HW nodes P st [H1 H2].
  destruct (accumulate_ok line ix t HW (Nat.min nodes (len t)) 0 st) as (st' & E & L & N); [lia|lia|].
  exists st'. split; [exact E|]. split; [lia|]. intros j Hj. rewrite N. cbn [Nat.leb andb Nat.add].
  rewrite column_snoc. destruct (H2 j Hj) as [A B]. destruct (Nat.ltb_spec j (Nat.min nodes (len t))) as [C|C].
  - destruct (add_state_ok (nth j t []) (nth j st []) A) as [D F]. split; [exact D|]. intros x. rewrite F, B.
    rewrite (nth_error_nth' t [] (n := j)) by lia. rewrite in_app_iff. cbn [In]. intuition (subst; auto).
  - rewrite (proj2 (nth_error_None t j)) by lia. rewrite app_nil_r. split; [exact A|exact B].
Qed.

(** ** The second pass *)
Lemma analyse_data : forall f T, reads sep f T -> forall fuel (P : list row) p,
  len f < fuel ->
  p_datarows p = map (@len row) (blocks P) ++ repeat 0 (len (blocks (P ++ T)) - len (blocks P)) ->
  p_state p <= 1 -> (p_state p = 1 <-> blocks P = []) ->
  p_tscounter p = len (blocks P) - 1 ->
  (p_state p = 0 -> (p_empty p = 0 <-> ends _ P = true)) ->
  states_ok (p_num_of_nodes p) P (p_statenames p) ->
  exists p', analyse_loop fuel sep f p = Ok (Some p') /\
    p_datarows p' = map (@len row) (blocks (P ++ T)) /\
    p_tscounter p' = len (blocks (P ++ T)) - 1 /\
    p_num_of_nodes p' = p_num_of_nodes p /\ p_symbols p' = p_symbols p /\
    states_ok (p_num_of_nodes p) (P ++ T) (p_statenames p').
Proof.
  intros f T H. induction H as [|f line rest T EF HT HL HR IH]; intros fuel P p HF HD HS HS1 HC HE HN;
    (destruct fuel as [|fuel]; [lia|]).
  - cbn. rewrite app_nil_r in *. exists p. rewrite Nat.sub_diag in HD. cbn [repeat] in HD. rewrite app_nil_r in HD. auto 7.
  - cbn [analyse_loop]. rewrite EF, count_step by exact HT. cbn [bind].
    destruct (line_tokens sep line HT) as [_ HW].
    set (t := fields (delimits [sep] true) none line) in *. clearbody t.
    assert (EP : P ++ t :: T = (P ++ [t]) ++ T) by (rewrite <- app_assoc; reflexivity). rewrite EP in *.
    destruct t as [|a t].
    + cbn [len Nat.eqb].
      edestruct (IH fuel (P ++ [[]])) as (p' & A1 & A2 & A3 & A4 & A5 & A6);
        [lia| | | | | | |exists p'; split; [exact A1|auto]]; cbn [p_datarows p_state p_tscounter p_empty p_num_of_nodes p_statenames p_symbols].
      * rewrite blocks_blank in *. exact HD.
      * exact HS.
      * rewrite blocks_blank. exact HS1.
      * rewrite blocks_blank. exact HC.
      * intros _. rewrite ends_snoc. cbn. split; discriminate.
      * apply states_blank, HN.
    + destruct HW as (ix & ET & HW); [discriminate|]. change (Nat.eqb (len (a :: t)) 0) with false. cbv iota.
      rewrite ET. cbn [bind].
      set (n := len (blocks P)) in *.
      assert (TS : (if (negb (Nat.eqb (p_empty p) 0) && Nat.ltb (p_state p) 1)%bool then S (p_tscounter p) else p_tscounter p)
                   = len (blocks (P ++ [a :: t])) - 1 /\
                   (if Nat.ltb 0 (p_state p) then p_state p - 1 else p_state p) = 0 /\
                   (exists pre r, map (@len row) (blocks P) ++ repeat 0 (len (blocks ((P ++ [a :: t]) ++ T)) - n) = pre ++ r :: repeat 0 (len (blocks ((P ++ [a :: t]) ++ T)) - len (blocks (P ++ [a :: t]))) /\
                      len pre = len (blocks (P ++ [a :: t])) - 1 /\
                      map (@len row) (blocks (P ++ [a :: t])) = pre ++ [S r])).
      { assert (MONO : len (blocks (P ++ [a :: t])) <= len (blocks ((P ++ [a :: t]) ++ T))).
        { generalize (P ++ [a :: t]). clear. intros Q. revert Q. induction T as [|x T IH]; intros Q; [rewrite app_nil_r; lia|].
          replace (Q ++ x :: T) with ((Q ++ [x]) ++ T) by (rewrite <- app_assoc; reflexivity).
          specialize (IH (Q ++ [x])). etransitivity; [|exact IH].
          destruct x as [|y x]; [rewrite blocks_blank; lia|]. destruct (ends _ Q) eqn:E.
          - destruct (blocks_more _ Q (y :: x) E) as (bs & b & E1 & E2); [discriminate|]. rewrite E1, E2, !app_length. cbn. lia.
          - rewrite blocks_start by (auto; discriminate). rewrite app_length. lia. }
        destruct (ends _ P) eqn:E.
        - assert (NB : blocks P <> []) by (apply ends_blocks, E).
          assert (S0 : p_state p = 0) by (destruct (p_state p) as [|[|]]; [reflexivity|exfalso; apply NB, HS1; reflexivity|lia]).
          rewrite S0 in *. destruct (HE eq_refl) as [_ HE2]. rewrite (HE2 eq_refl).
          destruct (blocks_more _ P (a :: t) E) as (bs & b & E1 & E2); [discriminate|].
          subst n. rewrite E1, E2 in *. rewrite !app_length in *. cbn [len] in *. cbn [Nat.eqb negb andb Nat.ltb Nat.leb].
          split; [lia|]. split; [reflexivity|]. exists (map (@len row) bs), (len b).
          split; [rewrite map_app, <- app_assoc; reflexivity|]. split; [rewrite map_length; lia|].
          rewrite map_app. cbn [map]. rewrite app_length, Nat.add_1_r. reflexivity.
        - rewrite blocks_start in * by (auto; discriminate). rewrite app_length in *. cbn [len] in *.
          fold n. split; [|split].
          + destruct (p_state p) as [|[|]] eqn:ES; [| |lia].
            * destruct HE as [HE1 _]; [reflexivity|]. destruct (Nat.eqb_spec (p_empty p) 0) as [Z|Z]; [discriminate (HE1 Z)|].
              cbn [negb andb]. assert (n <> 0); [|cbn; lia].
              intros Z0. destruct HS1 as [_ HS1]. assert (0 = 1); [apply HS1|discriminate].
              subst n. destruct (blocks P); [reflexivity|discriminate Z0].
            * change (1 <? 1) with false. rewrite andb_false_r. destruct HS1 as [HS1 _].
              assert (Z : n = 0) by (subst n; rewrite HS1 by reflexivity; reflexivity). rewrite Z in *. cbn. lia.
          + destruct (p_state p) as [|[|]]; [reflexivity|reflexivity|lia].
          + exists (map (@len row) (blocks P)), 0. split; [|split].
            * f_equal. replace (len (blocks ((P ++ [a :: t]) ++ T)) - n) with (S (len (blocks ((P ++ [a :: t]) ++ T)) - (n + 1))) by lia.
              reflexivity.
            * rewrite map_length. subst n. lia.
            * rewrite map_app. reflexivity. }
      destruct TS as (T1 & T2 & pre & r & T3 & T4 & T5). rewrite T1, T2.
      change (0 <? 0) with false. cbv iota. rewrite HD, T3, <- T4.
      rewrite rd_ok with (d := 0) by (rewrite app_length; cbn [len]; lia).
      rewrite app_nth2 by lia. rewrite Nat.sub_diag. cbn [nth bind].
      rewrite wr_ok by (rewrite app_length; cbn [len]; lia). cbn [bind].
      destruct (accumulate_states line ix (a :: t) HW (p_num_of_nodes p) P (p_statenames p) HN) as (st' & EA & HN').
      rewrite EA. cbn [bind].
      edestruct (IH fuel (P ++ [a :: t])) as (p' & A1 & A2 & A3 & A4 & A5 & A6);
        [lia| | | | | | |exists p'; split; [exact A1|auto]]; cbn [p_datarows p_state p_tscounter p_empty p_num_of_nodes p_statenames p_symbols].
      * rewrite T5. rewrite <- app_assoc. cbn [app].
        clear. generalize (repeat 0 (len (blocks ((P ++ [a :: t]) ++ T)) - len (blocks (P ++ [a :: t])))). intros l.
        induction pre as [|x pre IH]; [reflexivity|]. cbn [app len set_nth]. f_equal. exact IH.
      * lia.
      * split; [discriminate|]. intros Z. apply (f_equal (@len _)) in T5. rewrite Z, app_length in T5. cbn in T5. lia.
      * exact T4.
      * intros _. rewrite ends_snoc. cbn. tauto.
      * exact HN'.
Qed.

Lemma analyse_header : forall k f header T, reads sep f (repeat [] k ++ header :: T) -> header <> [] ->
  forall fuel p, len f < fuel -> p_state p = 2 -> p_tscounter p = 0 ->
  p_datarows p = repeat 0 (len (blocks T)) ->
  exists p', analyse_loop fuel sep f p = Ok (Some p') /\
    p_datarows p' = map (@len row) (blocks T) /\
    p_tscounter p' = len (blocks T) - 1 /\
    p_num_of_nodes p' = len header /\ p_symbols p' = header /\
    states_ok (len header) T (p_statenames p').
Proof.
  induction k as [|k IH]; intros f header T H N fuel p HF HS HC HD; cbn [repeat app] in H;
    apply reads_inv in H; destruct H as (line & rest & EF & HT & HL & HR & E1); (destruct fuel as [|fuel]; [lia|]);
    cbn [analyse_loop]; rewrite EF, count_step by exact HT; cbn [bind].
  - destruct (line_tokens sep line HT) as [_ HW]. rewrite E1 in *. destruct (HW N) as (ix & ET & HW').
    replace (Nat.eqb (len header) 0) with false by (destruct header; [congruence|reflexivity]).
    rewrite ET. cbn [bind]. rewrite HS, HC. change (2 <? 1) with false. rewrite andb_false_r.
    change (0 <? 2) with true. cbn [Nat.sub]. change (0 <? 1) with true. cbv iota.
    rewrite (words_from_ok line ix header) by (auto; lia). cbn [bind skipn]. rewrite firstn_all.
    edestruct (analyse_data rest T HR fuel []) as (p' & A1 & A2 & A3 & A4 & A5 & A6);
      [lia| | | | | | |exists p'; split; [exact A1|auto]]; cbn [p_datarows p_state p_tscounter p_empty p_num_of_nodes p_statenames p_symbols].
    + cbn. rewrite Nat.sub_0_r. exact HD.
    + lia.
    + split; reflexivity.
    + reflexivity.
    + discriminate.
    + split; [apply repeat_length|]. intros j Hj. rewrite nth_repeat. split; [constructor|]. cbn. tauto.
  - rewrite E1. cbn [len Nat.eqb]. apply (IH rest header T HR N); auto. lia.
Qed.

Lemma analyse_blank : forall f T, reads sep f T -> Forall (fun t => t = []) T ->
  forall fuel p, len f < fuel ->
  exists e, analyse_loop fuel sep f p = Ok (Some (mkPass2 (p_tscounter p) (p_state p) e (p_datarows p)
               (p_num_of_nodes p) (p_symbols p) (p_statenames p))).
Proof.
  intros f T H. induction H as [|f line rest T EF HT HL HR IH]; intros HB fuel p HF;
    (destruct fuel as [|fuel]; [lia|]).
  - exists (p_empty p). destruct p. reflexivity.
  - inversion HB as [|? ? HB1 HB2]; subst. cbn [analyse_loop]. rewrite EF, count_step by exact HT.
    rewrite HB1. cbn [bind len Nat.eqb]. apply (IH HB2 fuel (mkPass2 _ _ _ _ _ _ _)). lia.
Qed.
End File.
