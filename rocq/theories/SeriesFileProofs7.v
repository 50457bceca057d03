(** * Proofs about data files, part 7: the round trip *)
From Coq Require Import String Ascii Permutation.
From Verif Require Import Base BaseProofs StringModel StringSpec StringProofs StringProofs2
  VariableModel VariableProofs NipModel NipSpec NipProofs3 SeriesFileModel SeriesFileSpec SeriesFileProofs SeriesFileProofs2
  SeriesFileProofs3 SeriesFileProofs4 SeriesFileProofs5 SeriesFileProofs6.
Import ListNotations.
Open Scope nat_scope.
Local Open Scope res_scope.
Local Notation len := List.length.

Lemma hidden_perm : forall n o, NoDup o -> (forall v, In v o -> v < n) ->
  Permutation (filter (fun v => negb (existsb (Nat.eqb v) o)) (seq 0 n) ++ o) (seq 0 n).
Proof.
  intros n o ND HO. apply NoDup_Permutation; [|apply seq_NoDup|].
  - apply NoDup_app_disj; [apply NoDup_filter, seq_NoDup|exact ND|].
    intros x X Y. apply filter_In in X. destruct X as [_ X].
    rewrite (proj2 (existsb_exists _ _)) in X; [discriminate X|]. exists x. split; [exact Y|apply Nat.eqb_refl].
  - intros x. rewrite in_app_iff, filter_In, in_seq. split.
    + intros [[A _]|A]; [lia|]. apply HO in A. lia.
    + intros A. destruct (existsb (Nat.eqb x) o) eqn:E; [|left; split; [lia|reflexivity]].
      right. apply existsb_exists in E. destruct E as (y & Y1 & Y2). apply Nat.eqb_eq in Y2. subst y. exact Y1.
Qed.

Lemma position_nth : forall l i, NoDup l -> i < len l -> position (nth i l EmptyString) l = Some i.
Proof.
  induction l as [|x l IH]; intros i ND Hi; [cbn in Hi; lia|]. inversion ND; subst. cbn [position].
  destruct i as [|i]; cbn [nth]; [rewrite String.eqb_refl; reflexivity|].
  destruct (String.eqb_spec (nth i l EmptyString) x) as [E|E].
  - exfalso. apply H1. rewrite <- E. apply nth_In. cbn in Hi. lia.
  - rewrite IH by (auto; cbn in Hi; lia). reflexivity.
Qed.

Lemma position_none : forall s l, ~ In s l -> position s l = None.
Proof.
  intros s. induction l as [|x l IH]; intros H; [reflexivity|]. cbn [position].
  destruct (String.eqb_spec s x) as [->|E]; [exfalso; apply H; left; reflexivity|].
  rewrite IH; [reflexivity|]. intros X; apply H; right; exact X.
Qed.

Lemma str_back : forall s, string_of_list_ascii (str s) = s.
Proof. apply string_of_list_ascii_of_string. Qed.

Lemma str_length : forall s, len (str s) = String.length s.
Proof. induction s; cbn; auto. Qed.

Lemma sum_perm : forall a b, Permutation a b -> fold_right Nat.add 0 a = fold_right Nat.add 0 b.
Proof. intros a b H. induction H; cbn; lia. Qed.

Section RoundTrip.
Variable names : list named_variable.
Hypothesis HP : plain_names names.
Hypothesis HW : (Z.of_nat (line_width names) <= 9999)%Z.

Let HN : named names. Proof. apply HP. Qed.

Notation symbol_text := (symbol_text names).
Notation entry_text := (entry_text names).
Notation entries := (entries names).
Notation valid := (valid names).

Lemma states_at_ok : forall v, v < len names -> exists nv, nth_error names v = Some nv /\ states_at names v = states_of nv /\
  NoDup (states_of nv) /\ Forall plain_string (states_of nv) /\ ~ In "null"%string (states_of nv).
Proof.
  intros v Hv. destruct (nth_error names v) as [nv|] eqn:E; [|apply nth_error_None in E; lia].
  exists nv. split; [reflexivity|]. unfold states_at. rewrite E. split; [reflexivity|].
  destruct HP as (_ & _ & _ & H). rewrite Forall_forall in H. apply H. apply (nth_error_In _ _ E).
Qed.

Definition vwidth (v : nat) : nat := match nth_error names v with Some nv => width nv | None => 0 end.

Lemma fold_max : forall l x, In x l \/ x = 4 -> x <= fold_right Nat.max 4 l.
Proof. induction l as [|y l IH]; intros x H; cbn; [destruct H as [[]| ->]; lia|]. destruct H as [[->|H]|H]; [lia| |]; [specialize (IH x (or_introl H))|specialize (IH x (or_intror H))]; lia. Qed.

Lemma symbol_plain : forall v, v < len names -> plain (symbol_text v) /\ len (symbol_text v) <= vwidth v /\
  position (string_of_list_ascii (symbol_text v)) (map symbol_of names) = Some v.
Proof.
  intros v Hv. unfold SeriesFileProofs6.symbol_text, vwidth. destruct (nth_error names v) as [nv|] eqn:E; [|apply nth_error_None in E; lia].
  destruct HP as (_ & ND & PS & _). rewrite Forall_forall in PS.
  assert (IN : In (symbol_of nv) (map symbol_of names)) by (apply in_map, (nth_error_In _ _ E)).
  split; [apply (PS _ IN)|]. split; [rewrite str_length; apply fold_max; left; left; reflexivity|].
  rewrite str_back. assert (EN : nth v (map symbol_of names) EmptyString = symbol_of nv).
  { apply nth_error_nth. rewrite nth_error_map, E. reflexivity. }
  rewrite <- EN. apply position_nth; [exact ND|]. rewrite map_length. exact Hv.
Qed.

Lemma null_plain : plain (str "null").
Proof. split; [discriminate|]. repeat (constructor; [split; [discriminate|split; [discriminate|reflexivity]]|]). constructor. Qed.

Lemma entry_plain : forall v d, valid v d -> plain (entry_text v d) /\ len (entry_text v d) <= vwidth v /\
  datum names v (entry_text v d) = Z.max (-1) d.
Proof.
  intros v d [V1 V2]. destruct (states_at_ok v V1) as (nv & E & ES & ND & PS & NN).
  unfold SeriesFileProofs6.entry_text, datum, vwidth. rewrite E, ES in *. destruct (Z.ltb_spec d 0) as [L|L].
  - split; [exact null_plain|]. split; [apply fold_max; right; reflexivity|].
    rewrite str_back, position_none by exact NN. lia.
  - assert (IN : In (nth (Z.to_nat d) (states_of nv) EmptyString) (states_of nv)) by (apply nth_In; lia).
    rewrite Forall_forall in PS. split; [apply (PS _ IN)|]. split.
    + rewrite str_length. apply fold_max. left. right. apply in_map, IN.
    + rewrite str_back, position_nth by (auto; lia). lia.
Qed.

Lemma sum_le : forall U, NoDup U -> (forall v, In v U -> v < len names) ->
  fold_right Nat.add 0 (map (fun v => S (vwidth v)) U) <= line_width names.
Proof.
  intros U ND HU.
  assert (E : line_width names = fold_right Nat.add 0 (map (fun v => S (vwidth v)) (seq 0 (len names)))).
  { unfold line_width. f_equal. apply (nth_ext _ _ 0 0).
    - rewrite !map_length, seq_length. reflexivity.
    - intros n Hn. rewrite map_length in Hn. apply nth_error_nth.
      rewrite nth_error_map. destruct (nth_error names n) as [nv|] eqn:E; [|apply nth_error_None in E; lia].
      cbn [option_map]. f_equal. symmetry. apply nth_error_nth. rewrite nth_error_map.
      rewrite (nth_error_nth' _ 0) by (rewrite seq_length; exact Hn). rewrite seq_nth by exact Hn. cbn [option_map Nat.add].
      unfold vwidth. rewrite E. reflexivity. }
  rewrite E.
  assert (PM := hidden_perm (len names) U ND HU).
  rewrite <- (sum_perm _ _ (Permutation_map (fun v => S (vwidth v)) PM)).
  rewrite map_app, fold_right_app.
  generalize (map (fun v => S (vwidth v)) (filter (fun v => negb (existsb (Nat.eqb v) U)) (seq 0 (len names)))).
  generalize (fold_right Nat.add 0 (map (fun v => S (vwidth v)) U)). clear. intros n l. induction l; cbn; lia.
Qed.

(** A row of words for the variables [U]. *)
Definition fits (U : list nat) (ws : row) : Prop :=
  Forall2 (fun v w => plain w /\ len w <= vwidth v) U ws.

Lemma fits_line : forall U ws, NoDup U -> (forall v, In v U -> v < len names) -> fits U ws ->
  Forall plain ws /\ (Z.of_nat (len (join ws)) < 9999)%Z.
Proof.
  intros U ws ND HU HF. split.
  - clear - HF. induction HF as [|v w U ws (A & _) HF IH]; constructor; assumption.
  - assert (SL := sum_le U ND HU). destruct ws as [|w0 ws'] eqn:E0; [cbn; lia|]. rewrite <- E0 in *.
    assert (JL := join_length ws). rewrite E0 in JL at 1. specialize (JL ltac:(discriminate)).
    assert (fold_right Nat.add 0 (map (fun w => S (len w)) ws) <= fold_right Nat.add 0 (map (fun v => S (vwidth v)) U)).
    { clear - HF. induction HF as [|v w U ws (_ & B) HF IH]; cbn [map fold_right]; lia. }
    lia.
Qed.

Lemma fits_header : forall U, (forall v, In v U -> v < len names) -> fits U (map symbol_text U).
Proof.
  induction U as [|v U IH]; intros HU; [constructor|]. cbn [map]. constructor.
  - destruct (symbol_plain v) as (A & B & _); [apply HU; left; reflexivity|]. auto.
  - apply IH. intros; apply HU; right; assumption.
Qed.

Lemma fits_entries : forall U rec, Forall2 valid U rec -> fits U (entries U rec).
Proof.
  intros U rec H. induction H as [|v d U rec HV HR IH]; [constructor|]. cbn. constructor; [|exact IH].
  destruct (entry_plain v d HV) as (A & B & _). auto.
Qed.

(** ** The table of the file *)
Lemma table_rows : forall (rows : list row), Forall (fun r => Forall plain r /\ (Z.of_nat (len (join r)) < 9999)%Z) rows ->
  readable (unlines (map join rows)) /\ table comma (unlines (map join rows)) = rows ++ [[]].
Proof.
  intros rows H.
  assert (NL : Forall (fun l => ~ In NEWLINE l) (map join rows)).
  { apply Forall_map. eapply Forall_impl; [|exact H]. intros r (A & _). apply (join_clean r A). }
  split; [split|].
  - intros X. unfold unlines in X. apply in_concat in X. destruct X as (l & L1 & L2).
    apply in_map_iff in L1. destruct L1 as (l' & <- & L1). apply in_map_iff in L1. destruct L1 as (r & <- & L1).
    rewrite Forall_forall in H. destruct (H r L1) as (A & _). apply in_app_or in L2. destruct L2 as [L2|[L2|[]]].
    + apply (proj1 (join_clean r A)). exact L2.
    + discriminate L2.
  - rewrite lines_unlines by exact NL. apply Forall_app. split.
    + apply Forall_map. eapply Forall_impl; [|exact H]. intros r (_ & B). exact B.
    + constructor; [cbn; lia|constructor].
  - unfold table. rewrite lines_unlines by exact NL. rewrite map_app. f_equal.
    rewrite map_map. clear NL. induction H as [|r rows (A & _) HR IH]; [reflexivity|]. cbn [map]. f_equal; [|exact IH].
    apply fields_join, A.
Qed.

Lemma known_symbols : forall U i, (forall v, In v U -> v < len names) ->
  columns_from names i (map symbol_text U) = combine (seq i (len U)) U.
Proof.
  induction U as [|v U IH]; intros i HU; [reflexivity|]. cbn [map columns_from len seq combine].
  destruct (symbol_plain v) as (_ & _ & E); [apply HU; left; reflexivity|]. rewrite E. f_equal.
  apply IH. intros; apply HU; right; assumption.
Qed.

Lemma snd_combine : forall (U : list nat) i, map snd (combine (seq i (len U)) U) = U.
Proof. induction U as [|v U IH]; intros i; [reflexivity|]. cbn. f_equal. apply IH. Qed.

Lemma line_data : forall U rec, Forall2 valid U rec -> forall i line, skipn i line = entries U rec ->
  map (fun '(j, v) => match nth_error line j with Some field => datum names v field | None => 0%Z end)
    (combine (seq i (len U)) U) = map (Z.max (-1)) rec.
Proof.
  intros U rec H. induction H as [|v d U rec HV HR IH]; intros i line EL; [reflexivity|].
  cbn [len seq combine map]. change (entries (v :: U) (d :: rec)) with (entry_text v d :: entries U rec) in EL.
  f_equal.
  - replace i with (i + 0) by lia. rewrite <- nth_error_skipn_add, EL. cbn [nth_error].
    apply (entry_plain v d HV).
  - apply IH. replace (S i) with (i + 1) by lia. rewrite skipn_skipn_add, EL. reflexivity.
Qed.

Definition read_back (U : list nat) (ts : series) : series :=
  mkSeries (filter (fun v => negb (existsb (Nat.eqb v) U)) (seq 0 (len names))) U (s_length ts)
    (map (map (Z.max (-1))) (records U ts)).

Lemma written_file : forall ss, Forall (proper_series names) ss -> (exists ts, In ts ss /\ s_observed ts <> []) ->
  exists f header data, write_timeseries names ss = Ok (Some f, NO_ERROR) /\
    readable f /\ headed (table comma f) header data /\ NoDup (map snd (known_columns names header)) /\
    map snd (known_columns names header) = joint [] ss /\
    map (series_of_block names (known_columns names header)) (blocks data)
    = map (read_back (joint [] ss)) (filter (fun ts => Nat.ltb 0 (s_length ts)) ss).
Proof.
  intros ss HS HE. rewrite (write_ok names HP ss HS HE).
  destruct (joint_ok ss []) as (NJ & IJ); [constructor| |].
  { eapply Forall_impl; [|exact HS]. intros t Ht. apply (observed_nodup names t Ht). }
  assert (NE : joint [] ss <> []).
  { destruct HE as (ts0 & IN0 & NE0). intros E. destruct (s_observed ts0) as [|v o] eqn:EO; [congruence|].
    assert (X : In v (joint [] ss)) by (apply IJ; right; exists ts0; rewrite EO; split; [exact IN0|left; reflexivity]).
    rewrite E in X. destruct X. }
  set (U := joint [] ss) in *.
  assert (HU : forall v, In v U -> v < len names).
  { intros v Hv. apply IJ in Hv. destruct Hv as [[]|(t & T1 & T2)]. rewrite Forall_forall in HS.
    apply (observed_nodup names t (HS t T1)), T2. }
  clearbody U. clear IJ HE.
  assert (FR : Forall (fun r => Forall plain r /\ (Z.of_nat (len (join r)) < 9999)%Z)
                 (map symbol_text U :: file_rows names U ss)).
  { constructor; [apply (fits_line U); auto; apply fits_header, HU|]. unfold file_rows.
    apply Forall_concat. apply Forall_map, Forall_map. eapply Forall_impl; [|exact HS]. intros ts HT.
    apply Forall_app. split; [|constructor; [split; [constructor|cbn; lia]|constructor]].
    unfold words_of_series. apply Forall_map. eapply Forall_impl; [|exact (records_valid names U ts HT HU)].
    intros rec HR. apply (fits_line U); auto. apply fits_entries, HR. }
  destruct (table_rows _ FR) as [RD TB].
  assert (EK : known_columns names (map symbol_text U) = combine (seq 0 (len U)) U) by (apply known_symbols, HU).
  eexists. exists (map symbol_text U), (file_rows names U ss ++ [[]]). split; [reflexivity|]. split; [exact RD|].
  split; [|split; [|split]].
  - rewrite TB. exists 0. split; [reflexivity|]. destruct U; [congruence|discriminate].
  - rewrite EK, snd_combine. exact NJ.
  - rewrite EK. apply snd_combine.
  - rewrite EK. unfold file_rows. rewrite blocks_all.
    2:{ apply Forall_map. eapply Forall_impl; [|exact HS]. intros ts HT. unfold words_of_series. apply Forall_map.
        eapply Forall_impl; [|exact (records_valid names U ts HT HU)]. intros rec HR. destruct HR; [congruence|].
        cbn. discriminate. }
    clear FR RD TB. induction HS as [|ts ss HT HS IH]; [reflexivity|]. cbn [map filter].
    destruct (rows_proper names ts HT) as (RL & _).
    assert (LB : len (words_of_series names U ts) = s_length ts).
    { unfold words_of_series, records. rewrite !map_length. exact RL. }
    replace (nonempty (words_of_series names U ts)) with (Nat.ltb 0 (s_length ts))
      by (rewrite <- LB; destruct (words_of_series names U ts); reflexivity).
    destruct (Nat.ltb 0 (s_length ts)); [|exact IH]. cbn [map]. f_equal; [|exact IH].
    unfold series_of_block, read_back. rewrite snd_combine, LB. f_equal.
    destruct (combine (seq 0 (len U)) U) as [|c cs] eqn:EC; [destruct U; [congruence|discriminate EC]|].
    rewrite <- EC. unfold words_of_series. rewrite map_map. apply map_ext_in. intros rec HR.
    assert (RV := records_valid names U ts HT HU). rewrite Forall_forall in RV.
    unfold data_of_line. apply (line_data U rec (RV rec HR) 0). reflexivity.
Qed.
Lemma trip : forall ss, Forall (proper_series names) ss -> (exists ts, In ts ss /\ s_observed ts <> []) ->
  exists f, write_timeseries names ss = Ok (Some f, NO_ERROR) /\
    read_timeseries names f
    = Ok (Some (map (read_back (joint [] ss)) (filter (fun ts => Nat.ltb 0 (s_length ts)) ss))).
Proof.
  intros ss HS HE. destruct (written_file ss HS HE) as (f & header & data & E & R & H & ND & _ & M). exists f. split; auto.
  rewrite (C67_lemma names HN f header data R H ND), M. reflexivity.
Qed.

(** ** What the series says *)
Lemma said_look : forall ts v t,
  said ts v t = (let d := look (s_observed ts) (nth t (s_data ts) []) v in if (d <? 0)%Z then None else Some (Z.to_nat d)).
Proof.
  intros ts v t. unfold said, look. destruct (find _ _) as [[w d]|]; reflexivity.
Qed.

Lemma look_map : forall U (g : nat -> Z) v, look U (map g U) v = if existsb (Nat.eqb v) U then g v else (-1)%Z.
Proof.
  unfold look. induction U as [|w U IH]; intros g v; [reflexivity|]. cbn [map combine find existsb].
  destruct (Nat.eqb_spec v w) as [->|E]; [reflexivity|]. apply IH.
Qed.

Lemma said_back : forall U ts v t, proper_series names ts -> (forall v, In v (s_observed ts) -> In v U) ->
  t < s_length ts -> said (read_back U ts) v t = said ts v t.
Proof.
  intros U ts v t HT HI Ht. rewrite !said_look. cbn [read_back s_observed s_data].
  destruct (rows_proper names ts HT) as (RL & _).
  set (d0 := look (s_observed ts) (nth t (s_data ts) []) v).
  assert (D0 : look (s_observed ts) (nth t (rows_of ts) []) v = d0).
  { subst d0. unfold rows_of. destruct (s_observed ts); [reflexivity|reflexivity]. }
  assert (E : nth t (map (map (Z.max (-1))) (records U ts)) []
              = map (fun w => Z.max (-1) (look (s_observed ts) (nth t (rows_of ts) []) w)) U).
  { unfold records. rewrite map_map. apply nth_error_nth. rewrite nth_error_map.
    rewrite (nth_error_nth' _ []) by lia. cbn [option_map]. rewrite map_map. reflexivity. }
  rewrite E, look_map, D0. destruct (existsb (Nat.eqb v) U) eqn:EX; cbv zeta.
  - destruct (Z.ltb_spec (Z.max (-1) d0) 0), (Z.ltb_spec d0 0); try lia; try reflexivity. repeat f_equal. lia.
  - assert (d0 = -1)%Z as ->; [|reflexivity]. apply look_out. intros IN. apply HI in IN.
    rewrite (proj2 (existsb_exists _ _)) in EX; [discriminate EX|]. exists v. split; [exact IN|apply Nat.eqb_refl].
Qed.

Lemma proper_back : forall U ts, NoDup U -> (forall v, In v U -> v < len names) -> proper_series names ts ->
  proper_series names (read_back U ts).
Proof.
  intros U ts ND HU HT. destruct (rows_proper names ts HT) as (RL & _). split; [|split]; cbn [read_back s_hidden s_observed s_data s_length].
  - apply hidden_perm; assumption.
  - intros _. rewrite map_length. unfold records. rewrite map_length. exact RL.
  - apply Forall_map. eapply Forall_impl; [|exact (records_valid names U ts HT HU)].
    intros rec HR. induction HR as [|v d U' rec [V1 V2] HR IH]; cbn [map]; constructor; [lia|].
    apply IH; [inversion ND; assumption|intros; apply HU; right; assumption].
Qed.

Lemma new_in_self : forall a, new_in a a = [].
Proof.
  intros a. unfold new_in. apply filter_all_false.
  intros x Hx. rewrite (proj2 (memb_in x a) Hx). reflexivity.
Qed.

Lemma joint_same : forall o ss, ss <> [] -> Forall (fun ts => s_observed ts = o) ss -> joint [] ss = o.
Proof.
  intros o ss NE H. assert (X : forall l, Forall (fun ts => s_observed ts = o) l -> joint o l = o).
  { induction 1 as [|ts l E HL IH]; [reflexivity|]. unfold joint. cbn [fold_left]. rewrite E, new_in_self, app_nil_r. exact IH. }
  destruct H as [|ts ss E HS]; [congruence|]. unfold joint. cbn [fold_left app]. rewrite E, new_in_nil. apply X, HS.
Qed.

Lemma look_all : forall o data, NoDup o -> len data = len o -> map (look o data) o = data.
Proof.
  intros o data ND HL. apply (nth_ext _ _ (look o data 0) (-1)%Z); [rewrite map_length; lia|].
  intros i Hi. rewrite map_length in Hi. rewrite map_nth. apply look_at; auto.
Qed.

Lemma same_back : forall o ts, proper_series names ts -> s_observed ts = o -> o <> [] ->
  s_data (read_back o ts) = map (map (Z.max (-1))) (s_data ts).
Proof.
  intros o ts HT EO NE. destruct (rows_proper names ts HT) as (RL & RF). destruct (observed_nodup names ts HT) as (N1 & _).
  cbn [read_back s_data]. f_equal. unfold records, rows_of in *. rewrite EO in *. destruct o as [|x o2] eqn:E0; [congruence|].
  rewrite <- E0 in *. rewrite <- (map_id (s_data ts)) at 2. apply map_ext_in. intros data HD.
  rewrite Forall_forall in RF. destruct (RF data HD) as (A & _). apply look_all; assumption.
Qed.

Lemma C48_lemma : forall ss, Forall (proper_series names) ss -> (exists ts, In ts ss /\ s_observed ts <> []) ->
  exists f ss', write_timeseries names ss = Ok (Some f, NO_ERROR) /\
    read_timeseries names f = Ok (Some ss') /\
    Forall2 (fun ts ts' => proper_series names ts' /\ s_length ts' = s_length ts /\
        (forall v, In v (s_observed ts') <-> exists ts0, In ts0 ss /\ In v (s_observed ts0)) /\
        (forall v t, t < s_length ts -> said ts' v t = said ts v t) /\
        (forall o, Forall (fun ts0 => s_observed ts0 = o) ss ->
           s_observed ts' = o /\ s_data ts' = map (map (Z.max (-1))) (s_data ts)))
      (filter (fun ts => Nat.ltb 0 (s_length ts)) ss) ss'.
Proof.
  intros ss HS HE. destruct (trip ss HS HE) as (f & E1 & E2). exists f. eexists. split; [exact E1|]. split; [exact E2|].
  destruct (joint_ok ss []) as (NJ & IJ); [constructor| |].
  { eapply Forall_impl; [|exact HS]. intros t Ht. apply (observed_nodup names t Ht). }
  assert (HU : forall v, In v (joint [] ss) -> v < len names).
  { intros v Hv. apply IJ in Hv. destruct Hv as [[]|(t & T1 & T2)]. rewrite Forall_forall in HS.
    apply (observed_nodup names t (HS t T1)), T2. }
  assert (G : forall l, (forall ts, In ts l -> In ts ss) ->
    Forall2 (fun ts ts' => proper_series names ts' /\ s_length ts' = s_length ts /\
        (forall v, In v (s_observed ts') <-> exists ts0, In ts0 ss /\ In v (s_observed ts0)) /\
        (forall v t, t < s_length ts -> said ts' v t = said ts v t) /\
        (forall o, Forall (fun ts0 => s_observed ts0 = o) ss ->
           s_observed ts' = o /\ s_data ts' = map (map (Z.max (-1))) (s_data ts)))
      l (map (read_back (joint [] ss)) l)).
  { induction l as [|ts l IH]; intros HL; [constructor|]. cbn [map]. constructor; [|apply IH; intros; apply HL; right; assumption].
    assert (IN : In ts ss) by (apply HL; left; reflexivity).
    assert (HT : proper_series names ts) by (rewrite Forall_forall in HS; auto).
    split; [apply proper_back; auto|]. split; [reflexivity|]. split; [|split].
    - intros v. cbn [read_back s_observed]. rewrite (IJ v). split; [intros [[]|X]; exact X|auto].
    - intros v t Ht. apply said_back; auto. intros w Hw. apply IJ. right. exists ts. auto.
    - intros o HO. assert (EO : joint [] ss = o) by (apply joint_same; [intros ->; destruct IN|exact HO]).
      rewrite EO. split; [reflexivity|]. rewrite Forall_forall in HO. apply same_back; auto.
      destruct HE as (ts0 & IN0 & NE0). rewrite (HO ts0 IN0) in NE0. exact NE0. }
  apply G. intros ts Hts. apply filter_In in Hts. apply Hts.
Qed.
End RoundTrip.
