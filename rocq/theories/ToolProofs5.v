(** * Proofs: nipconvert *)
From Coq Require Import String Ascii Permutation.
From Verif Require Import Base BaseProofs StringModel StringSpec PotentialModel PotentialSpec VariableModel VariableProofs
  NipModel NipSpec SeriesFileModel SeriesFileSpec SeriesFileProofs4 SeriesFileProofs5 SeriesFileProofs7
  GraphModel ParseModel ParseSpec NetLexModel NetGrammarModel NetSpec
  WriteModel WriteSpec ToolModel ToolSpec ToolProofs ToolProofs2 ToolProofs3 ToolProofs4.
Import ListNotations.
Open Scope nat_scope.
Local Open Scope res_scope.
Local Notation len := List.length.
Local Notation chars := list_ascii_of_string.

Lemma observed_union_same : forall N o ss, NoDup o -> Forall (fun ts => s_observed ts = o /\ N - len (s_hidden ts) = len o) ss ->
  observed_union N ss (array_ref o) (Z.of_nat (len o)) = Ok (array_ref o, Z.of_nat (len o)).
Proof.
  intros N o ss ND. induction 1 as [|ts ss (A & B) H IH]; [reflexivity|]. cbn [observed_union].
  destruct (Z.ltb_spec (Z.of_nat (len o)) 0); [lia|]. rewrite Nat2Z.id, A, B.
  rewrite union_arrays by assumption. cbn [bind]. rewrite new_in_self, app_nil_r. exact IH.
Qed.

Lemma unary_row_ok : forall n d row out,
  write_unary_row n (d :: row) out =
    Ok (out ++ csv_line (map (fun x => chars (if ((0 <=? d)%Z && Nat.eqb x (Z.to_nat d))%bool then "1" else "0")) (seq 0 n))).
Proof.
  intros n d row out. unfold write_unary_row. unfold rd at 1. cbn [nth_error bind].
  assert (X : exists rec, (if ((0 <=? d)%Z && (d <? Z.of_nat n)%Z)%bool then wr (repeat false n) (Z.to_nat d) true else Ok (repeat false n)) = Ok rec /\
    len rec = n /\ forall x, x < n -> nth x rec false = ((0 <=? d)%Z && Nat.eqb x (Z.to_nat d))%bool).
  { assert (NR : forall x, nth x (repeat false n) false = false).
    { intros x. generalize n as k. intros k. revert x. induction k as [|k IH]; intros [|x]; cbn; auto. }
    destruct (Z.leb_spec 0 d); [destruct (Z.ltb_spec d (Z.of_nat n))|]; cbn [andb].
    - rewrite wr_ok by (rewrite repeat_length; lia). eexists. split; [reflexivity|]. split; [now rewrite set_nth_length, repeat_length|].
      intros x Hx. rewrite nth_set_nth by (rewrite repeat_length; lia). rewrite NR. now destruct (Nat.eqb x (Z.to_nat d)).
    - eexists. split; [reflexivity|]. split; [apply repeat_length|]. intros x Hx. rewrite NR. destruct (Nat.eqb_spec x (Z.to_nat d)); auto. lia.
    - eexists. split; [reflexivity|]. split; [apply repeat_length|]. intros x Hx. apply NR. }
  destruct X as (rec & -> & L & H). cbn [bind].
  rewrite (separated_loop n _ (fun x => chars (if ((0 <=? d)%Z && Nat.eqb x (Z.to_nat d))%bool then "1" else "0")) out).
  - cbn [bind]. unfold csv_line. rewrite <- app_assoc. reflexivity.
  - intros i o Hi. rewrite (rd_ok _ rec i false) by lia. cbn [bind]. rewrite H by auto. reflexivity.
Qed.

Section Convert.
Variable k1 k2 : list pvar -> list nat -> Z.
Variable c : Z.
Variable net_text : list ascii.
Variable t : net.
Hypothesis NF : net_file k1 k2 c net_text t.
Variable data_text : list ascii.
Variable cols : list (nat * nat).
Variable ss : list series.
Hypothesis DF : data_file t data_text cols ss.
Local Notation card := (card_in t).
Local Notation n := (ParseSpec.size t).
Local Notation g0 := (fresh_globals c).

Definition one_hots (ts : series) (v s : nat) : list (list ascii) :=
  map (fun x => match said ts v s with Some y => chars (if Nat.eqb x y then "1" else "0") | None => chars "0" end) (seq 0 (card v)).

Lemma series_columns : Forall (fun ts => fit_series n ts /\ s_observed ts = map snd cols /\ n - len (s_hidden ts) = len (map snd cols)) ss.
Proof.
  assert (D := data_fits t data_text cols ss DF). rewrite Forall_forall in *. intros ts Hts. destruct (D ts Hts) as (A & B & _ & C).
  split; auto. split; auto. rewrite C. destruct A as (A1 & A2 & _). rewrite B in A1, A2.
  assert (Q := Permutation_length (hidden_perm n (map snd cols) A1 A2)). rewrite app_length, seq_length in Q. lia.
Qed.

Lemma C78_lemma : forall i v cols' opened closed, ss <> [] -> cols = (i, v) :: cols' ->
  exists groups,
    nipconvert k1 k2 g0 (Some net_text) (Some data_text) opened closed =
      Ok (if opened then mkFinished (if closed then 0 else -1) (Some (csv (map chars (states (node t v))) groups))
          else mkFinished (-1) None) /\
    Forall2 (fun ts g => indicates t ts v g) ss groups.
Proof.
  intros i v cols' opened closed NE EC. destruct (inputs_ok k1 k2 c net_text t NF data_text cols ss DF) as (names & m & P & E).
  unfold nipconvert. rewrite E. assert (SC := series_columns).
  exists (map (fun ts => map (one_hots ts v) (seq 0 (s_length ts))) ss). split.
  2:{ clear -SC. induction ss as [|ts l IH]; cbn [map]; constructor; [|apply IH; now inversion SC].
      split; [now rewrite map_length, seq_length|]. intros s Hs. rewrite (nth_map _ _ _ _ _ 0) by (now rewrite seq_length). now rewrite seq_nth. }
  assert (W : write_unary_timeseries opened closed names ss =
    Ok (if opened then (Some (csv (map chars (states (node t v))) (map (fun ts => map (one_hots ts v) (seq 0 (s_length ts))) ss)), if closed then NO_ERROR else EIO)
        else (None, EIO))).
  { assert (LN := parsed_len t names m P). unfold write_unary_timeseries. destruct ss as [|ts0 ss0] eqn:ES; [congruence|].
    assert (SC0 := Forall_inv SC). assert (SC' := Forall_inv_tail SC). destruct SC0 as (F0 & O0 & H0).
    assert (ND : NoDup (map snd cols)) by (destruct F0 as (K & _); now rewrite O0 in K).
    rewrite LN, O0, H0. assert (U := union_arrays (map snd cols) [] ND (NoDup_nil _)). change (array_ref []) with (@None (list nat)) in U.
    change (new_in (map snd cols) []) with (@nil nat) in U. rewrite app_nil_r in U. cbn [len] in U. rewrite U. cbn [bind].
    destruct (Z.ltb_spec (Z.of_nat (len (map snd cols))) 0); [lia|].
    rewrite (observed_union_same n (map snd cols)); auto.
    2:{ eapply Forall_impl; [|exact SC']. intros ts (_ & A & B). auto. }
    cbn [bind]. destruct (Z.ltb_spec (Z.of_nat (len (map snd cols))) 1); [rewrite EC in *; cbn [map len] in *; lia|].
    assert (EA : array_ref (map snd cols) = Some (map snd cols)) by (rewrite EC; reflexivity). rewrite EA.
    replace (rd (map snd cols) 0) with (Ok v) by (rewrite EC; reflexivity). cbn [bind].
    assert (Hv : v < n). { destruct F0 as (_ & K & _). apply K. rewrite O0, EC. now left. }
    destruct (name_of k1 k2 c net_text t NF names m v P Hv) as (nv & N1 & N2 & N3 & _). unfold rd at 1. rewrite N1. cbn [bind].
    destruct opened; cbn [negb]; [|reflexivity].
    rewrite N3. unfold card_in at 1. rewrite (state_names_ok names v nv (states (node t v)) [] N1 N2). cbn [bind app].
    rewrite <- ES in *. clear ES NE F0 O0 H0 SC' E U.
    rewrite (append_loop (len ss) _ (fun s => csv_group (map (one_hots (nth s ss (mkSeries [] [] 0 [])) v) (seq 0 (s_length (nth s ss (mkSeries [] [] 0 []))))))
      (csv_line (map chars (states (node t v))))).
    - cbn [bind]. unfold csv. do 4 f_equal. rewrite map_map.
      f_equal. exact (map_seq_nth _ _ (fun ts => csv_group (map (one_hots ts v) (seq 0 (s_length ts)))) ss (mkSeries [] [] 0 [])).
    - intros s o Hs. rewrite (rd_ok _ ss s (mkSeries [] [] 0 [])) by auto. cbn [bind]. set (ts := nth s ss _).
      assert (Q : fit_series n ts /\ s_observed ts = map snd cols). { rewrite Forall_forall in SC. assert (K := SC ts (nth_In _ _ Hs)). tauto. }
      destruct Q as ((_ & _ & F3 & F4) & O).
      assert (LD : len (s_data ts) = s_length ts) by (apply F4; rewrite O, EC; discriminate).
      rewrite (append_loop (s_length ts) _ (fun s => csv_line (one_hots ts v s)) o).
      + cbn [bind]. unfold csv_group. rewrite map_map, <- app_assoc. reflexivity.
      + intros u o' Hu. rewrite (rd_ok _ (s_data ts) u []) by lia. cbn [bind].
        assert (LR : len (nth u (s_data ts) []) = len (s_observed ts)). { rewrite Forall_forall in F3. apply F3, nth_In. lia. }
        destruct (nth u (s_data ts) []) as [|d row] eqn:ER; [rewrite O, EC in LR; discriminate|].
        rewrite unary_row_ok. do 3 f_equal. unfold one_hots. apply map_ext. intros y. unfold said. rewrite ER, O, EC. cbn [map combine find snd].
        rewrite Nat.eqb_refl. destruct (Z.leb_spec 0 d); destruct (Z.ltb_spec d 0); try lia; reflexivity. }
  destruct ss as [|ts0 ss0] eqn:ES; [congruence|]. rewrite <- ES in *. cbn [bind]. rewrite W. cbn [bind].
  destruct opened; cbn [bind]; [|reflexivity]. destruct closed; reflexivity.
Qed.

Lemma C78_nothing_lemma : forall opened closed, cols = [] ->
  nipconvert k1 k2 g0 (Some net_text) (Some data_text) opened closed = Ok (mkFinished (-1) None).
Proof.
  intros opened closed EC. destruct (inputs_ok k1 k2 c net_text t NF data_text cols ss DF) as (names & m & P & E).
  unfold nipconvert. rewrite E. assert (SC := series_columns). destruct ss as [|ts0 ss0] eqn:ES; [reflexivity|]. cbn [bind].
  inversion SC as [|? ? (F0 & O0 & H0) SC']; subst. cbn [map] in *.
  unfold write_unary_timeseries. rewrite (parsed_len t names m P), O0, H0. cbn [array_ref len].
  assert (U := union_arrays [] [] (NoDup_nil _) (NoDup_nil _)). cbn [array_ref len] in U. rewrite U. cbn [bind new_in app].
  change (Z.of_nat (len (filter (fun x : nat => negb (memb x [])) []))) with 0%Z || idtac.
  assert (OU := observed_union_same n [] ss0 (NoDup_nil _)). cbn [array_ref len] in OU. change (Z.of_nat 0) with 0%Z in OU.
  cbn. cbn in OU. rewrite OU; [reflexivity|].
  eapply Forall_impl; [|exact SC']. intros ts (_ & A & B). auto.
Qed.
End Convert.
