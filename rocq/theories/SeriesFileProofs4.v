(** * Proofs about data files, part 4: reading time series *)
From Coq Require Import String Ascii Permutation.
From Verif Require Import Base BaseProofs StringModel StringSpec StringProofs StringProofs2
  VariableModel VariableProofs NipModel NipSpec NipProofs3 SeriesFileModel SeriesFileSpec SeriesFileProofs SeriesFileProofs2
  SeriesFileProofs3.
Import ListNotations.
Open Scope nat_scope.
Local Open Scope res_scope.
Local Notation len := List.length.

Lemma nth_error_skipn_add : forall A (l : list A) i j, nth_error (skipn i l) j = nth_error l (i + j).
Proof.
  induction l as [|x l IH]; intros [|i] j; cbn; auto; try (destruct j; reflexivity); apply IH.
Qed.
Lemma nth_error_firstn_lt : forall A (l : list A) n j, j < n -> nth_error (firstn n l) j = nth_error l j.
Proof.
  induction l as [|x l IH]; intros [|n] [|j] H; cbn; auto; try lia. apply IH. lia.
Qed.

Section Read.
Variable names : list named_variable.
Hypothesis HN : named names.

Lemma model_variable_named : forall s, model_variable names s = Ok (position s (map symbol_of names)).
Proof.
  intros s. unfold model_variable. rewrite <- (map_length symbol_of names).
  apply find_position. intros i Hi. rewrite map_length in Hi.
  set (d := mkNamed 0 None 0 NamesNull []).
  rewrite (rd_ok _ names i d) by auto. cbn [bind].
  rewrite (nth_map _ _ _ _ _ d) by auto.
  unfold named in HN. rewrite Forall_forall in HN. destruct (HN (nth i names d)) as (A & _); [now apply nth_In|].
  unfold symbol_of. destruct (nv_symbol (nth i names d)); [reflexivity|congruence].
Qed.

Lemma state_index_named : forall v nv s, nth_error names v = Some nv ->
  variable_state_index nv s =
    Ok (match position s (states_at names v) with Some i => Z.of_nat i | None => (-1)%Z end).
Proof.
  intros v nv s E. unfold states_at. rewrite E. unfold named in HN. rewrite Forall_forall in HN.
  destruct (HN nv) as (_ & l & El & Ll); [apply (nth_error_In _ _ E)|].
  unfold variable_state_index, states_of. rewrite El, <- Ll. rewrite (find_position s l).
  - cbn [bind]. destruct (position s l); reflexivity.
  - intros i Hi. rewrite (rd_ok _ l i EmptyString) by auto. reflexivity.
Qed.

Definition cols_of (header : row) : list (option nat) :=
  map (fun s => position (string_of_list_ascii s) (map symbol_of names)) header.

Lemma columns_ok : forall header, columns names header = Ok (cols_of header).
Proof.
  induction header as [|s header IH]; [reflexivity|]. cbn [columns cols_of map]. unfold variable_called.
  rewrite model_variable_named. cbn [bind]. rewrite IH. reflexivity.
Qed.

Lemma known_ok : forall header i, known (cols_of header) = map snd (columns_from names i header).
Proof.
  induction header as [|s header IH]; intros i; [reflexivity|].
  cbn [cols_of map known flat_map columns_from].
  destruct (position (string_of_list_ascii s) (map symbol_of names)) as [v|]; cbn [app map snd].
  - f_equal. apply IH.
  - apply IH.
Qed.

Lemma columns_from_bound : forall header i j v, In (j, v) (columns_from names i header) ->
  i <= j < i + len header /\ v < len names.
Proof.
  induction header as [|s header IH]; intros i j v H; cbn [columns_from] in H; [destruct H|].
  assert (P := position_spec (string_of_list_ascii s) (map symbol_of names)).
  destruct (position (string_of_list_ascii s) (map symbol_of names)) as [w|]; cbn [In len] in *.
  - rewrite map_length in P. destruct H as [H|H].
    + injection H as -> ->. lia.
    + apply IH in H. lia.
  - apply IH in H. lia.
Qed.

(** ** Hidden variables *)
Lemma in_columns : forall header k,
  existsb (fun c => match c with Some v => equal_variables k v | None => false end) (cols_of header)
  = existsb (Nat.eqb k) (map snd (known_columns names header)).
Proof.
  intros header k. unfold known_columns. rewrite <- (known_ok header 0). generalize (cols_of header). clear.
  induction l as [|[v|] l IH]; cbn [existsb known flat_map app]; [reflexivity| |exact IH].
  unfold equal_variables. f_equal. exact IH.
Qed.

Lemma hidden_ok : forall header, NoDup (map snd (known_columns names header)) ->
  hidden_variables (len names) (cols_of header) (len (known (cols_of header)))
  = Ok (filter (fun v => negb (existsb (Nat.eqb v) (map snd (known_columns names header)))) (seq 0 (len names))).
Proof.
  intros header ND. unfold hidden_variables. rewrite (known_ok header 0).
  set (o := map snd (known_columns names header)) in *. fold (known_columns names header). fold o.
  assert (HO : forall v, In v o -> v < len names).
  { intros v Hv. subst o. apply in_map_iff in Hv. destruct Hv as ([j w] & <- & Hv).
    apply columns_from_bound in Hv. apply Hv. }
  assert (PERM : Permutation (filter (fun v => negb (existsb (Nat.eqb v) o)) (seq 0 (len names)) ++ o) (seq 0 (len names))).
  { apply NoDup_Permutation; [|apply seq_NoDup|].
    - apply NoDup_app_disj; [apply NoDup_filter, seq_NoDup|exact ND|].
      intros x X Y. apply filter_In in X. destruct X as [_ X].
      rewrite (proj2 (existsb_exists _ _)) in X; [discriminate X|]. exists x. split; [exact Y|apply Nat.eqb_refl].
    - intros x. rewrite in_app_iff, filter_In, in_seq. split.
      + intros [[A _]|A]; [lia|]. apply HO in A. lia.
      + intros A. destruct (existsb (Nat.eqb x) o) eqn:E; [|left; split; [lia|reflexivity]].
        right. apply existsb_exists in E. destruct E as (y & Y1 & Y2). apply Nat.eqb_eq in Y2. subst y. exact Y1. }
  assert (LEN : len (filter (fun v => negb (existsb (Nat.eqb v) o)) (seq 0 (len names))) + len o = len names).
  { rewrite <- app_length, (Permutation_length PERM). apply seq_length. }
  destruct (Nat.ltb_spec (len names) (len o)); [lia|].
  match goal with |- context [for_up 0 ?n ?b0 ?s0] =>
    destruct (for_up_inv (list nat * nat) (fun t st =>
      let fl := filter (fun v => negb (existsb (Nat.eqb v) o)) (seq 0 t) in
      fst st = fl ++ repeat 0 (len names - len o - len fl) /\ snd st = len fl) b0 0 n s0) as (st & E & I1 & I2) end.
  - lia.
  - cbn. rewrite Nat.sub_0_r. auto.
  - intros t [h m] Ht [I1 I2]. cbn [fst snd] in I1, I2. rewrite in_columns. fold o.
    replace (seq 0 (S t)) with (seq 0 t ++ [t]) by (rewrite seq_S; reflexivity).
    rewrite filter_app. cbn [filter].
    destruct (existsb (Nat.eqb t) o) eqn:EX; cbn [negb].
    + exists (h, m). split; [reflexivity|]. cbn [fst snd]. rewrite app_nil_r. auto.
    + assert (LT : len (filter (fun v => negb (existsb (Nat.eqb v) o)) (seq 0 t)) < len names - len o).
      { assert (SP : seq 0 (len names) = seq 0 t ++ t :: seq (S t) (len names - S t)).
        { replace (len names) with (t + S (len names - S t)) at 1 by lia. rewrite seq_app. reflexivity. }
        rewrite SP in LEN at 1. rewrite filter_app, app_length in LEN. cbn [filter] in LEN. rewrite EX in LEN.
        cbn [negb len] in LEN. lia. }
      set (fl := filter (fun v => negb (existsb (Nat.eqb v) o)) (seq 0 t)) in *.
      rewrite I1, I2. rewrite wr_ok by (rewrite app_length, repeat_length; lia). cbn [bind].
      eexists. split; [reflexivity|]. cbn [fst snd]. rewrite app_length. cbn [len].
      split; [|lia]. replace (len names - len o - len fl) with (S (len names - len o - (len fl + 1))) by lia.
      cbn [repeat]. generalize (repeat 0 (len names - len o - (len fl + 1))). clear. intros l. induction fl as [|x fl IH]; [reflexivity|]. cbn [app len set_nth]. f_equal. exact IH.
  - match type of E with for_up _ _ _ _ = _ => rewrite E end. destruct st as [h m]. cbn [fst snd bind] in *.
    f_equal. rewrite I1. replace (len names - len o - _) with 0 by lia. cbn [repeat]. apply app_nil_r.
Qed.

(** ** Rows *)
Definition cell (line : row) : nat * nat -> Z :=
  fun '(i, v) => match nth_error line i with Some field => datum names v field | None => 0%Z end.

Lemma read_row_ok : forall line toks header i pre,
  (forall j, j < i + len header -> nth_error toks j = nth_error line j) ->
  read_row names (cols_of header) (skipn i toks) (len pre)
    (pre ++ repeat 0%Z (len (columns_from names i header)))
  = Ok (pre ++ map (cell line) (columns_from names i header)).
Proof.
  intros line toks. induction header as [|s header IH]; intros i pre HT.
  - cbn. rewrite app_nil_r. reflexivity.
  - assert (B : forall j v, In (j, v) (columns_from names i (s :: header)) -> i <= j < i + S (len header)).
    { intros j v X. apply columns_from_bound in X. cbn [len] in X. lia. }
    destruct (skipn i toks) as [|t rest] eqn:ES.
    + assert (Z : map (cell line) (columns_from names i (s :: header))
                  = repeat 0%Z (len (columns_from names i (s :: header)))).
      { apply (f_equal (@len _)) in ES. rewrite skipn_length in ES. cbn in ES.
        revert B. generalize (columns_from names i (s :: header)). intros l B.
        induction l as [|[j v] l IHl]; [reflexivity|]. cbn [map len repeat]. f_equal.
        - cbn [cell]. assert (J := B j v (or_introl eq_refl)).
          rewrite <- HT by (cbn [len]; lia). rewrite (proj2 (nth_error_None toks j)) by lia. reflexivity.
        - apply IHl. intros; apply (B j0 v0). right. assumption. }
      rewrite Z. reflexivity.
    + assert (ER : skipn (S i) toks = rest).
      { replace (S i) with (i + 1) by lia. rewrite skipn_skipn_add, ES. reflexivity. }
      assert (EI : nth_error line i = Some t).
      { rewrite <- HT by (cbn [len]; lia).
        replace i with (i + 0) at 1 by lia. rewrite <- nth_error_skipn_add, ES. reflexivity. }
      cbn [cols_of map columns_from]. cbn [read_row].
      assert (P := position_spec (string_of_list_ascii s) (map symbol_of names)).
      destruct (position (string_of_list_ascii s) (map symbol_of names)) as [v|].
      * rewrite map_length in P. destruct (nth_error names v) as [nv|] eqn:EV;
          [|apply nth_error_None in EV; lia].
        unfold rd. rewrite EV. cbn [bind]. rewrite (state_index_named v nv _ EV). cbn [bind].
        cbn [len map repeat]. rewrite wr_ok by (rewrite app_length; cbn [len]; lia). cbn [bind].
        match goal with |- read_row _ _ _ _ (set_nth _ _ ?x) = _ =>
          replace (set_nth (pre ++ 0%Z :: repeat 0%Z (len (columns_from names (S i) header))) (len pre) x)
             with ((pre ++ [x]) ++ repeat 0%Z (len (columns_from names (S i) header)))
        end.
        2:{ rewrite <- app_assoc. cbn [app]. clear. induction pre as [|y pre IH]; [reflexivity|].
            cbn [app len set_nth]. f_equal. exact IH. }
        match goal with |- context [pre ++ [?x]] => replace (S (len pre)) with (len (pre ++ [x])) by (rewrite app_length; cbn; lia) end.
        rewrite <- ER. fold (cols_of header). rewrite IH by (intros; apply HT; cbn [len]; lia).
        f_equal. rewrite <- app_assoc. cbn [app]. f_equal. f_equal. cbn [cell]. rewrite EI. reflexivity.
      * rewrite <- ER. fold (cols_of header). apply IH. intros; apply HT; cbn [len]; lia.
Qed.

Lemma read_rows_ok : forall header, columns_from names 0 header <> [] -> forall block R df,
  f_separator df = FIELD_SEPARATOR -> f_num_of_nodes df = len header -> f_node_symbols df = header ->
  f_first_line_labels df = true -> ahead df (block ++ R) ->
  exists df', read_rows names (cols_of header) (len (known (cols_of header))) df (len block)
    = Ok (df', map (data_of_line names (known_columns names header)) block) /\
    same_file df' df /\ ahead df' R.
Proof.
  intros header NE. induction block as [|t block IH]; intros R df H1 H2 H3 H4 HA; cbn [len read_rows map app] in *.
  - exists df. split; [reflexivity|]. split; [repeat split|exact HA].
  - destruct (next_ok df t (block ++ R) HA H4) as (df1 & E & SF & HA1). rewrite H1 in E. rewrite E. cbn [bind].
    assert (RR := read_row_ok t (firstn (Nat.min (f_num_of_nodes df) (len t)) t) header 0 []).
    cbn [app len skipn] in RR. rewrite (known_ok header 0), map_length.
    rewrite RR.
    2:{ intros j Hj. rewrite H2. destruct (Nat.lt_ge_cases j (len t)) as [L|L].
        - apply nth_error_firstn_lt. lia.
        - rewrite (proj2 (nth_error_None t j) L). apply nth_error_None. rewrite firstn_length. lia. }
    cbn [bind]. destruct SF as (S1 & S2 & S3 & S4).
    destruct (IH R df1) as (df2 & E2 & (SF1 & SF2 & SF3 & SF4) & HA2); try congruence.
    rewrite (known_ok header 0), map_length in E2. rewrite E2. cbn [bind].
    exists df2. split; [reflexivity|]. split; [|exact HA2]. repeat split; congruence.
Qed.

Lemma read_series_ok : forall header, NoDup (map snd (known_columns names header)) -> forall bs df,
  f_separator df = FIELD_SEPARATOR -> f_num_of_nodes df = len header -> f_node_symbols df = header ->
  f_first_line_labels df = true -> ahead df (concat bs) ->
  read_series names df (map (@len row) bs)
  = Ok (map (series_of_block names (known_columns names header)) bs).
Proof.
  intros header ND. induction bs as [|b bs IH]; intros df H1 H2 H3 H4 HA; [reflexivity|].
  cbn [map read_series concat] in *. rewrite H3, columns_ok. cbn [bind]. rewrite hidden_ok by exact ND. cbn [bind].
  assert (KO := known_ok header 0). fold (known_columns names header) in KO.
  destruct (known_columns names header) as [|c cs] eqn:EC.
  - rewrite KO. cbn [map len Nat.ltb Nat.leb bind].
    assert (HI : forall df0 l, f_node_symbols df0 = header ->
               read_series names df0 (map (@len row) l) = Ok (map (series_of_block names []) l)).
    { intros df0 l HS. induction l as [|x l IHl]; [reflexivity|]. cbn [map read_series]. rewrite HS, columns_ok. cbn [bind].
      rewrite hidden_ok by (rewrite EC; exact ND). cbn [bind]. rewrite EC, KO. cbn [map len Nat.ltb Nat.leb bind].
      rewrite IHl. reflexivity. }
    rewrite HI by exact H3. reflexivity.
  - replace (Nat.ltb 0 (len (known (cols_of header)))) with true by (rewrite KO; reflexivity).
    destruct (read_rows_ok header) with (block := b) (R := concat bs) (df := df) as (df1 & E & (S1 & S2 & S3 & S4) & HA1); auto.
    { unfold known_columns in EC. rewrite EC. discriminate. }
    rewrite E. cbn [bind]. rewrite IH; try congruence. cbn [bind]. rewrite KO, EC. reflexivity.
Qed.

Lemma C67_lemma : forall f header data, readable f -> headed (table comma f) header data ->
  NoDup (map snd (known_columns names header)) ->
  read_timeseries names f = Ok (Some (map (series_of_block names (known_columns names header)) (blocks data))).
Proof.
  intros f header data HR HH ND. destruct (headed_reads comma f header data HR HH) as (k & data' & RT & N & SD).
  rewrite (same_blocks _ _ SD). unfold read_timeseries. change FIELD_SEPARATOR with comma.
  destruct (analyse_ok comma f header data' k RT N) as (st & S & E). rewrite E. cbn [bind].
  destruct (Z.ltb_spec (Z.of_nat (len (blocks data') - 1)) 0); [lia|]. cbn [f_datarows].
  rewrite (read_series_ok header ND); auto. exists (repeat [] k ++ header :: data'). cbn. split; [exact RT|].
  right. exists k, header, data'. split; [reflexivity|]. split; [exact N|]. split; [lia|].
  symmetry. apply blocks_concat.
Qed.

Lemma C67_blank_lemma : forall f, readable f -> Forall (fun t => t = []) (table comma f) ->
  read_timeseries names f = Ok (Some []).
Proof.
  intros f HR HB. unfold read_timeseries. change FIELD_SEPARATOR with comma.
  rewrite (no_header comma f HR HB). reflexivity.
Qed.
End Read.
