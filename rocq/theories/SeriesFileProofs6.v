(** * Proofs about data files, part 6: what is written is read *)
From Coq Require Import String Ascii Permutation.
From Verif Require Import Base BaseProofs StringModel StringSpec StringProofs StringProofs2
  VariableModel VariableProofs NipModel NipSpec NipProofs3 SeriesFileModel SeriesFileSpec SeriesFileProofs SeriesFileProofs2
  SeriesFileProofs3 SeriesFileProofs4 SeriesFileProofs5.
Import ListNotations.
Open Scope nat_scope.
Local Open Scope res_scope.
Local Notation len := List.length.

Lemma Forall2_len : forall A B (R : A -> B -> Prop) a b, Forall2 R a b -> len a = len b.
Proof. intros A B R a b H. induction H; cbn; congruence. Qed.

Section Write.
Variable names : list named_variable.
Hypothesis HP : plain_names names.

Let HN : named names. Proof. apply HP. Qed.

Definition symbol_text (v : nat) : list ascii :=
  match nth_error names v with Some nv => str (symbol_of nv) | None => [] end.
Definition entry_text (v : nat) (d : Z) : list ascii :=
  if (d <? 0)%Z then str "null" else str (nth (Z.to_nat d) (states_at names v) EmptyString).
Definition entries (U : list nat) (rec : list Z) : list (list ascii) :=
  map (fun '(v, d) => entry_text v d) (combine U rec).

Lemma write_header_ok : forall U, (forall v, In v U -> v < len names) -> forall first,
  write_header names U first = Ok (if first then join (map symbol_text U) else more (map symbol_text U)).
Proof.
  induction U as [|v U IH]; intros HU first; [destruct first; reflexivity|]. cbn [write_header].
  destruct (nth_error names v) as [nv|] eqn:EV; [|apply nth_error_None in EV; specialize (HU v (or_introl eq_refl)); lia].
  unfold rd. rewrite EV. cbn [bind].
  assert (NS : nv_symbol nv <> None).
  { unfold named in HN. rewrite Forall_forall in HN. apply HN. apply (nth_error_In _ _ EV). }
  cbn [map]. unfold symbol_text at 1 3. rewrite EV. unfold symbol_of.
  destruct (nv_symbol nv) as [s|]; [|congruence].
  rewrite IH by (intros; apply HU; right; assumption). cbn [bind]. destruct first; reflexivity.
Qed.

Definition valid (v : nat) (d : Z) : Prop := v < len names /\ (d < Z.of_nat (len (states_at names v)))%Z.

Lemma write_record_ok : forall U rec, Forall2 valid U rec -> forall first,
  write_record names U rec first = Ok (if first then join (entries U rec) else more (entries U rec)).
Proof.
  intros U rec H. induction H as [|v d U rec (V1 & V2) HR IH]; intros first; [destruct first; reflexivity|].
  cbn [write_record]. rewrite IH.
  assert (EW : (if (0 <=? d)%Z then let* nv := rd names v in
                  let* s := variable_state_name nv d in
                  match s with Some s => Ok (str s) | None => UB end
                else Ok (str "null")) = Ok (entry_text v d)).
  { unfold entry_text. destruct (Z.ltb_spec d 0), (Z.leb_spec 0 d); try lia; [reflexivity|].
    unfold states_at in *. destruct (nth_error names v) as [nv|] eqn:EV; [|apply nth_error_None in EV; lia].
    unfold rd. rewrite EV. cbn [bind]. unfold named in HN. rewrite Forall_forall in HN.
    destruct (HN nv (nth_error_In _ _ EV)) as (_ & l & El & Ll). unfold variable_state_name. rewrite El.
    destruct (Z.ltb_spec d 0); [lia|]. unfold states_of in *. rewrite El in *.
    rewrite (rd_ok _ l (Z.to_nat d) EmptyString) by lia. reflexivity. }
  cbv zeta in EW. rewrite EW. cbn [bind]. destruct first; reflexivity.
Qed.

(** ** Records *)
Definition look (o : list nat) (data : list Z) (v : nat) : Z :=
  match find (fun '(w, d) => Nat.eqb v w) (combine o data) with Some (_, d) => d | None => (-1)%Z end.

Lemma look_at : forall o data i, NoDup o -> len data = len o -> i < len o -> look o data (nth i o 0) = nth i data (-1)%Z.
Proof.
  unfold look. induction o as [|w o IH]; intros data i ND HL Hi; [cbn in Hi; lia|].
  destruct data as [|d data]; [discriminate HL|]. inversion ND; subst. cbn [combine find].
  destruct i as [|i]; cbn [nth].
  - rewrite Nat.eqb_refl. reflexivity.
  - destruct (Nat.eqb_spec (nth i o 0) w) as [E|E].
    + exfalso. apply H1. rewrite <- E. apply nth_In. cbn in Hi. lia.
    + apply IH; auto; cbn in *; lia.
Qed.

Lemma look_out : forall o data v, ~ In v o -> look o data v = (-1)%Z.
Proof.
  unfold look. induction o as [|w o IH]; intros data v H; [reflexivity|]. destruct data as [|d data]; [reflexivity|].
  cbn [combine find]. destruct (Nat.eqb_spec v w) as [->|E]; [exfalso; apply H; left; reflexivity|].
  apply IH. intros X. apply H. right. exact X.
Qed.

Lemma record_ok : forall U o data, NoDup U -> NoDup o -> len data = len o -> (forall v, In v o -> In v U) ->
  exists m, mapper (Some U) (array_ref o) (len U) (len o) = Ok m /\
    record_of (len U) (match m with Some m => m | None => [] end) data (len o) = Ok (map (look o data) U).
Proof.
  intros U o data NU NO HL HI. destruct o as [|x o'] eqn:EO.
  - exists None. split; [reflexivity|]. unfold record_of. cbn. f_equal.
    clear. induction U as [|v U IH]; [reflexivity|]. cbn [repeat map len]. f_equal. exact IH.
  - rewrite <- EO in *. destruct (C15_lemma U o) as (m & E & LM & HM & NM); [rewrite EO; discriminate|exact NO|exact HI|].
    exists (Some m). replace (array_ref o) with (Some o) by (rewrite EO; reflexivity). split; [exact E|].
    unfold record_of.
    match goal with |- context [for_up 0 ?n ?b0 ?s0] =>
      destruct (for_up_inv (list Z) (fun t r => len r = len U /\
        (forall i, i < t -> nth (nth i m 0) r (-1)%Z = nth i data (-1)%Z) /\
        (forall j, (forall i, i < t -> nth i m 0 <> j) -> nth j r (-1)%Z = (-1)%Z)) b0 0 n s0) as (r & E2 & I1 & I2 & I3) end.
    + lia.
    + split; [apply repeat_length|]. split; [intros; lia|]. intros j _. apply nth_repeat.
    + intros t r Ht (I1 & I2 & I3). destruct (HM t) as [M1 M2]; [lia|].
      rewrite (rd_ok _ m t 0) by lia. cbn [bind]. rewrite (rd_ok _ data t (-1)%Z) by lia. cbn [bind].
      rewrite wr_ok by lia. eexists. split; [reflexivity|]. split; [rewrite set_nth_length; exact I1|]. split.
      * intros i Hi. rewrite nth_set_nth by lia. destruct (Nat.eqb_spec (nth i m 0) (nth t m 0)) as [EQ|NE].
        -- assert (i = t). { apply (proj1 (NoDup_nth m 0) NM); [lia|lia|exact EQ]. } subst. reflexivity.
        -- assert (i <> t) by congruence. apply I2. lia.
      * intros j Hj. rewrite nth_set_nth by lia. destruct (Nat.eqb_spec j (nth t m 0)) as [EQ|NE].
        -- exfalso. apply (Hj t); [lia|congruence].
        -- apply I3. intros i Hi. apply Hj. lia.
    + rewrite E2. f_equal. apply (nth_ext _ _ (-1)%Z (look o data 0)).
      { rewrite map_length. exact I1. }
      intros j Hj. rewrite map_nth. rewrite I1 in Hj.
      destruct (in_dec Nat.eq_dec (nth j U 0) o) as [IN|OUT].
      * destruct (In_nth o _ 0 IN) as (i & Hi & Ei). destruct (HM i Hi) as [M1 M2].
        rewrite <- Ei, look_at by auto. rewrite <- I2 by exact Hi. f_equal.
        apply (proj1 (NoDup_nth U 0) NU); [lia|lia|]. congruence.
      * rewrite look_out by exact OUT. apply I3. intros i Hi EQ. apply OUT. destruct (HM i Hi) as [M1 M2].
        rewrite <- EQ, M2. apply nth_In. exact Hi.
Qed.

(** ** A series *)
(** The rows that are written: without observed variables they are empty. *)
Definition rows_of (ts : series) : list (list Z) :=
  match s_observed ts with [] => repeat [] (s_length ts) | _ => s_data ts end.
Definition records (U : list nat) (ts : series) : list (list Z) :=
  map (fun data => map (look (s_observed ts) data) U) (rows_of ts).
Definition words_of_series (U : list nat) (ts : series) : list row := map (entries U) (records U ts).

Lemma rows_proper : forall ts, proper_series names ts -> len (rows_of ts) = s_length ts /\
  Forall (fun data => len data = len (s_observed ts) /\
    forall v, valid v (look (s_observed ts) data v) \/ len names <= v) (rows_of ts).
Proof.
  intros ts HT. destruct (observed_nodup names ts HT) as (N1 & N2 & N3). destruct HT as (_ & HL & HF). unfold rows_of.
  destruct (s_observed ts) as [|x o'] eqn:EO.
  - split; [apply repeat_length|]. apply Forall_forall. intros data HD. apply repeat_spec in HD. subst data.
    split; [reflexivity|]. intros v. destruct (Nat.lt_ge_cases v (len names)); [left|right; exact H].
    split; [exact H|]. cbn. lia.
  - rewrite <- EO in *. split; [apply HL; rewrite EO; discriminate|].
    eapply Forall_impl; [|exact HF]. intros data HD. assert (LD := Forall2_len _ _ _ _ _ HD). split; [lia|].
    intros v. destruct (Nat.lt_ge_cases v (len names)) as [L|L]; [left|right; exact L]. split; [exact L|].
    destruct (in_dec Nat.eq_dec v (s_observed ts)) as [IN|OUT].
    + destruct (In_nth _ _ 0 IN) as (i & Hi & <-). rewrite look_at by auto.
      clear - HD Hi. revert i Hi. induction HD as [|w d o data H HD IH]; intros i Hi; [cbn in Hi; lia|].
      destruct i; [exact H|]. cbn [nth]. apply IH. cbn in Hi. lia.
    + rewrite look_out by exact OUT. lia.
Qed.

Lemma records_valid : forall U ts, proper_series names ts -> (forall v, In v U -> v < len names) ->
  Forall (Forall2 valid U) (records U ts).
Proof.
  intros U ts HT HU. unfold records. apply Forall_map. destruct (rows_proper ts HT) as (_ & HF).
  eapply Forall_impl; [|exact HF]. intros data (_ & HV). clear HF. induction U as [|v U IH]; [constructor|].
  cbn [map]. constructor; [|apply IH; intros; apply HU; right; assumption].
  destruct (HV v) as [V|V]; [exact V|]. specialize (HU v (or_introl eq_refl)). lia.
Qed.

Lemma write_rows_ok : forall U o, NoDup U -> NoDup o -> (forall v, In v o -> In v U) -> forall m,
  mapper (Some U) (array_ref o) (len U) (len o) = Ok m -> forall rows,
  Forall (fun data => len data = len o) rows ->
  Forall (Forall2 valid U) (map (fun data => map (look o data) U) rows) ->
  write_rows names U (match m with Some m => m | None => [] end) (len o) rows
  = Ok (unlines (map join (map (entries U) (map (fun data => map (look o data) U) rows)))).
Proof.
  intros U o NU NO HI m EM. induction rows as [|data rows IH]; intros H1 H2; [reflexivity|].
  cbn [write_rows map] in *. inversion H1 as [|? ? A1 A2]; subst. inversion H2 as [|? ? B1 B2]; subst.
  destruct (record_ok U o data NU NO A1 HI) as (m' & EM' & ER). assert (m' = m) by congruence. subst m'.
  rewrite ER. cbn [bind]. rewrite (write_record_ok U _ B1 true). cbn [bind]. rewrite (IH A2 B2). cbn [bind].
  f_equal. unfold unlines. cbn [map concat]. rewrite <- app_assoc. reflexivity.
Qed.

Definition file_rows (U : list nat) (ss : list series) : list row :=
  concat (map (fun b => b ++ [[]]) (map (words_of_series U) ss)).

Lemma write_all_ok : forall U, NoDup U -> (forall v, In v U -> v < len names) -> forall ss,
  Forall (proper_series names) ss -> (forall ts, In ts ss -> forall v, In v (s_observed ts) -> In v U) ->
  write_all names U ss = Ok (unlines (map join (file_rows U ss))).
Proof.
  intros U NU HU. induction ss as [|ts ss IH]; intros HS HI; [reflexivity|].
  inversion HS as [|? ? HT HS']; subst. cbn [write_all].
  destruct (observed_nodup names ts HT) as (N1 & N2 & N3).
  destruct (rows_proper ts HT) as (RL & RF).
  assert (HIT : forall v, In v (s_observed ts) -> In v U) by (apply (HI ts); left; reflexivity).
  assert (EM : exists m, mapper (Some U) (array_ref (s_observed ts)) (len U) (len (s_observed ts)) = Ok m).
  { destruct (record_ok U (s_observed ts) (repeat 0%Z (len (s_observed ts)))) as (m & E & _); auto.
    - apply repeat_length.
    - exists m; exact E. }
  destruct EM as (m & EM). rewrite EM. cbn [bind].
  assert (ER : (if Nat.eqb (len (s_observed ts)) 0 then Ok (repeat [] (s_length ts))
                else if Nat.ltb (len (s_data ts)) (s_length ts) then UB
                else Ok (firstn (s_length ts) (s_data ts))) = Ok (rows_of ts)).
  { unfold rows_of. destruct HT as (_ & HL & _). destruct (s_observed ts) as [|x o]; [reflexivity|].
    cbn [len Nat.eqb]. rewrite HL by discriminate. rewrite Nat.ltb_irrefl. rewrite <- HL by discriminate.
    rewrite firstn_all. reflexivity. }
  rewrite ER. cbn [bind].
  rewrite (write_rows_ok U (s_observed ts) NU N1 HIT m EM).
  - cbn [bind]. rewrite IH; [|exact HS'|intros t Ht; apply HI; right; exact Ht]. cbn [bind].
    f_equal. unfold file_rows. cbn [map concat]. rewrite map_app, unlines_app. unfold words_of_series at 2, records.
    rewrite map_app, unlines_app. rewrite <- app_assoc. reflexivity.
  - eapply Forall_impl; [|exact RF]. intros data (A & _). exact A.
  - apply (records_valid U ts HT HU).
Qed.

Lemma write_ok : forall ss, Forall (proper_series names) ss -> (exists ts, In ts ss /\ s_observed ts <> []) ->
  write_timeseries names ss
  = Ok (Some (unlines (map join (map symbol_text (joint [] ss) :: file_rows (joint [] ss) ss))), NO_ERROR).
Proof.
  intros ss HS (ts0 & IN0 & NE0). destruct ss as [|ts ss]; [destruct IN0|].
  inversion HS as [|? ? HT HS']; subst.
  destruct (observed_nodup names ts HT) as (N1 & N2 & N3). unfold write_timeseries.
  replace (len names - len (s_hidden ts)) with (len (s_observed ts)) by lia.
  assert (E0 := union_arrays (s_observed ts) [] N1 (NoDup_nil _)). change (array_ref []) with (@None (list nat)) in E0.
  change (new_in (s_observed ts) []) with (@nil nat) in E0. rewrite app_nil_r in E0. cbn [len] in E0.
  rewrite E0. cbn [bind].
  destruct (Z.ltb_spec (Z.of_nat (len (s_observed ts))) 0); [lia|].
  rewrite (observed_union_ok names ss (s_observed ts) N1 HS'). cbn [bind].
  assert (EJ : joint (s_observed ts) ss = joint [] (ts :: ss)).
  { unfold joint. cbn [fold_left app]. rewrite new_in_nil. reflexivity. }
  rewrite EJ.
  destruct (joint_ok (ts :: ss) []) as (NJ & IJ); [constructor| |].
  { eapply Forall_impl; [|exact HS]. intros t Ht. apply (observed_nodup names t Ht). }
  set (U := joint [] (ts :: ss)) in *.
  assert (HU : forall v, In v U -> v < len names).
  { intros v Hv. apply IJ in Hv. destruct Hv as [[]|(t & T1 & T2)]. rewrite Forall_forall in HS.
    apply (observed_nodup names t (HS t T1)), T2. }
  assert (HI : forall t, In t (ts :: ss) -> forall v, In v (s_observed t) -> In v U).
  { intros t T1 v T2. apply IJ. right. exists t. auto. }
  destruct U as [|u U'] eqn:EU.
  { exfalso. destruct (s_observed ts0) as [|v o] eqn:EO; [congruence|]. apply (HI ts0 IN0 v). rewrite EO. left. reflexivity. }
  cbn [array_ref]. rewrite <- EU in *.
  destruct (Z.eqb_spec (Z.of_nat (len U)) 0); [rewrite EU in *; cbn in *; lia|].
  rewrite (write_header_ok U HU true). cbn [bind]. rewrite (write_all_ok U NJ HU (ts :: ss) HS HI). cbn [bind].
  f_equal. f_equal. f_equal. cbn [map]. unfold unlines at 2. cbn [map concat]. rewrite <- app_assoc. reflexivity.
Qed.
End Write.
