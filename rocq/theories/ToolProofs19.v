(** * Proofs: nipbenchmark (Property C93) *)
From Coq Require Import String Ascii Permutation QArith.Qcanon Field.
From Verif Require Import Base BaseProofs StringSpec PotentialModel PotentialSpec PotentialProofs VariableModel AssignSpec AssignProofs
  JoinTreeModel JoinTreeSpec JoinTreeProofs NipModel NipSpec NipProofs NipProofs2 NipProofs3 SliceModel SliceSpec
  LearnModel LearnSpec LearnProofs LearnProofs2 LearnProofs3 LearnProofs4 LearnProofs5 LearnProofs6 FactorProofs SliceProofs4 SeriesFileModel SeriesFileSpec
  GraphModel ParseModel ParseSpec ParseProofs8 NetLexModel NetGrammarModel NetSpec WriteModel WriteSpec
  LearnProofs8 ToolModel ToolModel5 ToolSpec ToolSpec3 ToolProofs ToolProofs2 ToolProofs3 ToolProofs4 ToolProofs9 ToolProofs10 ToolProofs11 ToolProofs12 ToolProofs13 ToolProofs14 ToolSpec6 ToolProofs18.
Import ListNotations.
Open Scope nat_scope.
Local Open Scope list_scope.
Local Open Scope res_scope.
Local Notation len := List.length.
Local Notation chars := list_ascii_of_string.

Add Field Qcfield_tool19 : Qcft.

(** ** The other series *)
Lemma all_but_len : forall i ss, i < len ss -> len (all_but i ss) = len ss - 1.
Proof. intros i ss H. unfold all_but. rewrite app_length, firstn_length, skipn_length. lia. Qed.
Lemma all_but_low : forall i j ss d, j < i -> i < len ss -> nth j (all_but i ss) d = nth j ss d.
Proof.
  intros i j ss d Hj Hi. unfold all_but. rewrite app_nth1 by (rewrite firstn_length; lia).
  rewrite <- (firstn_skipn i ss) at 2. now rewrite app_nth1 by (rewrite firstn_length; lia).
Qed.
Lemma all_but_high : forall i j ss d, i < j -> i < len ss -> nth (j - 1) (all_but i ss) d = nth j ss d.
Proof.
  intros i j ss d Hj Hi. unfold all_but. rewrite app_nth2 by (rewrite firstn_length; lia). rewrite firstn_length.
  replace (Nat.min i (len ss)) with i by lia. rewrite <- (firstn_skipn (S i) ss) at 2. rewrite app_nth2 by (rewrite firstn_length; lia).
  rewrite firstn_length. f_equal. lia.
Qed.
Lemma all_but_in : forall i ss x, In x (all_but i ss) -> In x ss.
Proof.
  intros i ss x H. unfold all_but in H. apply in_app_or in H. destruct H as [H|H].
  - rewrite <- (firstn_skipn i ss). apply in_or_app. now left.
  - rewrite <- (firstn_skipn (S i) ss). apply in_or_app. now right.
Qed.

Lemma fill_next : forall (r : list series) (loo : list (option series)) k d, len loo = len r -> k < len r ->
  wr (map Some (firstn k r) ++ skipn k loo) k (Some (nth k r d)) = Ok (map Some (firstn (S k) r) ++ skipn (S k) loo).
Proof.
  intros r loo k d L H. unfold wr. rewrite app_length, map_length, firstn_length, skipn_length.
  rewrite (proj2 (Nat.ltb_lt _ _)) by lia. f_equal. revert loo k L H. induction r as [|x r IH]; intros loo k L H; [cbn in H; lia|].
  destruct loo as [|y loo]; [discriminate|]. destruct k as [|k]; [reflexivity|].
  change (firstn (S k) (x :: r)) with (x :: firstn k r). change (skipn (S k) (y :: loo)) with (skipn k loo). cbn [map app set_nth nth].
  rewrite IH by (cbn in *; lia). reflexivity.
Qed.
Lemma leave_ok : forall ss i loo, i < len ss -> len loo = len ss - 1 -> leave_one_out ss i loo = Ok (map Some (all_but i ss)).
Proof.
  intros ss i loo Hi HL. unfold leave_one_out. assert (LB := all_but_len i ss Hi).
  set (k := fun j => if Nat.leb j i then j else j - 1).
  match goal with |- for_up 0 ?hi ?b ?s = _ =>
    destruct (for_up_inv (list (option series)) (fun j l => l = map Some (firstn (k j) (all_but i ss)) ++ skipn (k j) loo) b 0 hi s) as (l & E & Q) end.
  - lia.
  - reflexivity.
  - intros j l Hj ->. destruct ss as [|s0 ss0] eqn:ES; [cbn in Hi; lia|]. rewrite <- ES in *.
    rewrite (rd_ok _ ss j s0) by lia. cbn [bind]. unfold k. destruct (Nat.ltb_spec j i) as [A|A].
    + rewrite (proj2 (Nat.leb_le j i)), (proj2 (Nat.leb_le (S j) i)) by lia. rewrite <- (all_but_low i j ss s0) by auto.
      rewrite fill_next by lia. cbn [bind]. destruct (Nat.ltb_spec i j); [lia|]. eauto.
    + cbn [bind]. destruct (Nat.ltb_spec i j) as [B|B].
      * rewrite (proj2 (Nat.leb_gt j i)), (proj2 (Nat.leb_gt (S j) i)) by lia. rewrite <- (all_but_high i j ss s0) by auto.
        rewrite fill_next by lia. eexists. split; [reflexivity|]. replace (S j - 1) with (S (j - 1)) by lia. reflexivity.
      * assert (j = i) by lia. subst j. rewrite (proj2 (Nat.leb_le i i)) by lia. rewrite (proj2 (Nat.leb_gt (S i) i)) by lia.
        replace (S i - 1) with i by lia. eauto.
  - rewrite E, Q. f_equal. unfold k. rewrite (proj2 (Nat.leb_gt (len ss) i)) by lia.
    rewrite firstn_all2, skipn_all2 by lia. apply app_nil_r.
Qed.
Lemma no_null_ok : forall l, no_null (map Some l) = Ok l.
Proof. induction l as [|x l IH]; [reflexivity|]. cbn [map no_null]. now rewrite IH. Qed.

(** ** The loops *)
Section Benchmark.
Variable t : net.
Hypothesis NO : net_ok t.
Hypothesis CF : children_first t.
Hypothesis TS : two_slices t.
Variable names : list named_variable.
Variable m0 : model.
Hypothesis P : parsed t names m0.
Hypothesis MK : forall v, v < len (m_vars m0) -> v_mark (var m0 v) = MARK_ON.
Local Notation card := (card_in t).
Local Notation n := (ParseSpec.size t).
Local Notation net_of qs := (with_tables t qs).
Local Notation has := (has_tables t m0).

Section Attempts.
Variable ss : list series.
Hypothesis FS : Forall (fit_series n) ss.
Hypothesis NE : ss <> [].
Variable rnd : nat -> nat -> nat -> Qc.
Hypothesis RP : forall k v x, (0 < rnd k v x)%Qc.
Variable growth tiny low : Qc.
Local Notation tries fuel k m := (attempts fuel (map to_ts ss) growth tiny low rnd k m).

Lemma attempts_ok : forall fuel k m, learnable card m -> same_structure m0 m ->
  tries fuel k m = NoFuel \/ exists m' qs, tries fuel k m = Ok (Some m') /\ has qs m' /\ learned_from rnd MAX_ITER growth low t ss (net_of qs).
Proof.
  induction fuel as [|fuel IH]; intros k m HL S; [now left|]. cbn [attempts].
  assert (R : ready t m0 (Some (rnd k)) m) by (split; auto).
  destruct (batch_ok t NO CF TS names m0 P MK ss FS (Some (rnd k)) m MAX_ITER growth tiny [] R NE) as
    (m' & o & u1 & qs & ls & vs & E & BS & H & ES & OC & LE & FIN).
  rewrite E. cbn [bind]. assert (H' := H). destruct H' as (G & HL' & S' & _).
  destruct FIN as [(C & -> & L3 & L1 & CR)|(C & _)]; rewrite C; cbn [orb]; [|now apply IH].
  destruct (Qc_ltb (last (o_curve o) 1%Qc) low) eqn:K; [now apply IH|]. right. exists m', qs. split; auto. split; auto.
  apply LearnProofs.Qc_ltb_false in K. rewrite OC in K. cbn [app] in K. rewrite (estimates_last _ _ _ _ ES) in K.
  split; [apply with_network|]. split; [now apply with_proper|]. split; [now apply with_positive|].
  split; [|split; [exact K|exact (probability_le1 t NO CF TS names m0 P MK ss FS qs m' H)]].
  assert (LZ : (Z.of_nat (len ls) <= MAX_ITER)%Z) by (unfold MAX_ITER in *; lia).
  exists k, u1, ls. split; [exact BS|]. split; auto. split; auto. split; auto.
  destruct CR as [(_ & CR)|(_ & CR)]; [now left|right; lia].
Qed.

Variable b : Qc.
Hypothesis PB : (0 < b)%Qc.
Hypothesis GB : (1 <= growth * b)%Qc.
Hypothesis T1 : (tiny <= 1)%Qc.
Hypothesis LB : (low <= b)%Qc.
Hypothesis FLOOR : forall k u1 vs u, random_tables (rnd k) t u1 -> estimates ss u1 vs u -> (b <= probability u ss)%Qc.
Lemma attempts_end : forall fuel k m, 0 < fuel -> learnable card m -> same_structure m0 m -> tries fuel k m <> NoFuel.
Proof.
  intros [|fuel] k m HF HL S; [lia|]. cbn [attempts].
  assert (R : ready t m0 (Some (rnd k)) m) by (split; auto).
  destruct (batch_ok t NO CF TS names m0 P MK ss FS (Some (rnd k)) m MAX_ITER growth tiny [] R NE) as
    (m' & o & u1 & qs & ls & vs & E & BS & H & ES & OC & LE & FIN).
  assert (C : o_code o = NO_ERROR).
  { eapply (batch_luck t NO CF TS names m0 P MK ss FS NE b PB growth tiny GB T1 (Some (rnd k)) m MAX_ITER [] m' o R); [|exact E].
    intros u2 vs2 w B2 E2. exact (FLOOR k u2 vs2 w B2 E2). }
  rewrite E. cbn [bind]. rewrite C. cbn [orb]. destruct FIN as [(_ & -> & L3 & L1 & CR)|(C2 & _)]; [|congruence].
  assert (K : Qc_ltb (last (o_curve o) 1%Qc) low = false).
  { apply LearnProofs.Qc_ltb_false. rewrite OC. cbn [app]. rewrite (estimates_last _ _ _ _ ES). eapply Qcle_trans; [exact LB|]. exact (FLOOR k u1 ls _ BS ES). }
  rewrite K. discriminate.
Qed.
End Attempts.

Variable ss : list series.
Hypothesis FS : Forall (fit_series n) ss.
Hypothesis RG : Forall (in_range t) ss.
Hypothesis TWO : 2 <= len ss.
Variable rnd : nat -> nat -> nat -> nat -> Qc.
Hypothesis RP : forall i k v x, (0 < rnd i k v x)%Qc.
Variable growth low : nat -> Qc.
Variable tiny : Qc.
Variable v : nat.
Hypothesis HV : v < n.
Local Notation bench fuel is loo m := (benchmark fuel ss growth tiny low rnd v is loo m).
Definition columns (u : uncertain_series) : list (list Qc) := map (fun row => nth 0 row []) (ucs_data u).
Definition result_ok (i : nat) (p : uncertain_series * list (Qc * Qc)) : Prop :=
  ucs_variables (fst p) = [v] /\ distributions [v] (ucs_data (fst p)) v (card v) (columns (fst p)) /\
  predicts rnd MAX_ITER growth low t ss v i (map (map print_f) (columns (fst p))) (snd p).

Lemma others_fit : forall i, Forall (fit_series n) (all_but i ss).
Proof. intros i. apply Forall_forall. intros x Hx. rewrite Forall_forall in FS. apply FS. eapply all_but_in; eauto. Qed.
Lemma others_some : forall i, i < len ss -> all_but i ss <> [].
Proof. intros i Hi E. assert (L := all_but_len i ss Hi). rewrite E in L. cbn in L. lia. Qed.

Lemma benchmark_ok : forall fuel is loo m, (forall i, In i is -> i < len ss) -> len loo = len ss - 1 ->
  learnable card (all_marked m) -> same_structure m0 (all_marked m) ->
  bench fuel is loo m = NoFuel \/ exists ps, bench fuel is loo m = Ok (Some (map fst ps, map snd ps)) /\ Forall2 result_ok is ps.
Proof.
  intros fuel. induction is as [|i is IH]; intros loo m HI HL LE S; cbn [benchmark]; [right; exists []; auto|].
  assert (Hi : i < len ss) by (apply HI; now left). rewrite (leave_ok ss i loo Hi HL). cbn [bind]. rewrite mark_all_ok. cbn [bind]. rewrite no_null_ok. cbn [bind].
  destruct (attempts_ok (all_but i ss) (others_fit i) (others_some i Hi) (rnd i) (RP i) (growth i) tiny (low i) fuel 0 (all_marked m) LE S) as [->|(m1 & qs & -> & H & LF)]; [now left|].
  cbn [bind]. destruct (nth_error ss i) as [ts|] eqn:ET; [|apply nth_error_None in ET; lia]. assert (ER : rd ss i = Ok ts) by (unfold rd; now rewrite ET). rewrite ER. cbn [bind].
  assert (IT : In ts ss) by (eapply nth_error_In; eauto).
  assert (F1 : fit_series n ts) by (rewrite Forall_forall in FS; auto). assert (R1 : in_range t ts) by (rewrite Forall_forall in RG; auto).
  destruct (predict_one t NO CF TS names m0 P MK qs m1 v ts H HV F1 R1) as (mo & m2 & rs & l & -> & E2 & H2 & CH & LK). cbn [bind]. rewrite E2. cbn [bind].
  assert (H2' := H2). destruct H2' as (G & LE2 & S2 & _).
  destruct (IH (map Some (all_but i ss)) m2) as [->|(ps & -> & Q)]; auto.
  { intros j Hj. apply HI. now right. }
  { rewrite map_length. now apply all_but_len. }
  cbn [bind]. right. exists ((mkUCS [v] rs, l) :: ps). split; [reflexivity|]. constructor; auto.
  destruct (chances_reports t NO CF names m0 P MK qs v (conceal v ts) rs G CH (ex_intro _ _ H2)) as (D1 & D2).
  split; [reflexivity|]. split; [exact D1|]. exists ts, (net_of qs). auto.
Qed.

Lemma benchmark_end : forall fuel, (forall i m, i < len ss -> learnable card m -> same_structure m0 m ->
    attempts fuel (map to_ts (all_but i ss)) (growth i) tiny (low i) (rnd i) 0 m <> NoFuel) ->
  forall is loo m, (forall i, In i is -> i < len ss) -> len loo = len ss - 1 ->
  learnable card (all_marked m) -> same_structure m0 (all_marked m) -> bench fuel is loo m <> NoFuel.
Proof.
  intros fuel HE. induction is as [|i is IH]; intros loo m HI HL LE S; cbn [benchmark]; [discriminate|].
  assert (Hi : i < len ss) by (apply HI; now left). rewrite (leave_ok ss i loo Hi HL). cbn [bind]. rewrite mark_all_ok. cbn [bind]. rewrite no_null_ok. cbn [bind].
  assert (N := HE i (all_marked m) Hi LE S).
  destruct (attempts_ok (all_but i ss) (others_fit i) (others_some i Hi) (rnd i) (RP i) (growth i) tiny (low i) fuel 0 (all_marked m) LE S) as [E|(m1 & qs & -> & H & LF)]; [congruence|].
  cbn [bind]. destruct (nth_error ss i) as [ts|] eqn:ET; [|apply nth_error_None in ET; lia]. assert (ER : rd ss i = Ok ts) by (unfold rd; now rewrite ET). rewrite ER. cbn [bind].
  assert (IT : In ts ss) by (eapply nth_error_In; eauto).
  assert (F1 : fit_series n ts) by (rewrite Forall_forall in FS; auto). assert (R1 : in_range t ts) by (rewrite Forall_forall in RG; auto).
  destruct (predict_one t NO CF TS names m0 P MK qs m1 v ts H HV F1 R1) as (mo & m2 & rs & l & -> & E2 & H2 & CH & LK). cbn [bind]. rewrite E2. cbn [bind].
  destruct H2 as (G & LE2 & S2 & _). assert (HI' : forall j, In j is -> j < len ss) by (intros; apply HI; now right).
  assert (LL : len (map Some (all_but i ss)) = len ss - 1) by (rewrite map_length; now apply all_but_len).
  specialize (IH _ m2 HI' LL LE2 S2). destruct (bench fuel is (map Some (all_but i ss)) m2); cbn [bind]; congruence.
Qed.
End Benchmark.

(** ** The program *)
Section Program.
Variable k1 k2 : list pvar -> list nat -> Z.
Variable c : Z.
Variable net_text : list ascii.
Variable t : net.
Hypothesis NF : net_file k1 k2 c net_text t.
Variable data_text : list ascii.
Variable cols : list (nat * nat).
Variable ss : list series.
Hypothesis DF : data_file t data_text cols ss.
Local Notation card := (card_in t).
Local Notation n := (ParseSpec.size t).
Variable rnd : nat -> nat -> nat -> nat -> Qc.
Local Notation out fuel valid_numbers growth tiny low symbol opened closed :=
  (nipbenchmark fuel k1 k2 (fresh_globals c) (Some net_text) (Some data_text) valid_numbers growth tiny low symbol rnd opened closed).

Lemma C93_rejects_lemma : forall fuel valid_numbers growth tiny low symbol opened closed,
  len ss < 2 \/ valid_numbers = false \/ ~ In symbol (symbols t) ->
  out fuel valid_numbers growth tiny low symbol opened closed = Ok (failed, []).
Proof.
  intros fuel valid_numbers growth tiny low symbol opened closed H. destruct (inputs_ok k1 k2 c net_text t NF data_text cols ss DF) as (names & m & P & E).
  unfold nipbenchmark. rewrite E. destruct ss as [|ts0 ss0] eqn:ES; [reflexivity|]. rewrite <- ES in *. cbn [bind].
  destruct (Nat.ltb_spec (len ss) 2); [reflexivity|]. destruct valid_numbers; cbn [negb]; [|reflexivity].
  destruct H as [H|[H|H]]; [lia|discriminate|]. rewrite (symbol_unknown k1 k2 c net_text t NF names m symbol P H). reflexivity.
Qed.

Hypothesis TWO : 2 <= len ss.
Hypothesis RP : forall i k v x, (0 < rnd i k v x)%Qc.

(** What happens before the series. *)
Lemma benchmark_begins : forall symbol, In symbol (symbols t) ->
  let v := ParseSpec.number t symbol in
  exists names m0 nv, parsed t names m0 /\ (forall w, w < len (m_vars m0) -> v_mark (var m0 w) = MARK_ON) /\ v < n /\
    nth_error names v = Some nv /\ nv_states nv = Names (states (node t v)) /\ nv_card nv = card v /\
  exists m, all_marked m = m0 /\ forall fuel growth tiny low opened closed, out fuel true growth tiny low symbol opened closed =
    let* r := benchmark fuel ss growth tiny low rnd v (seq 0 (len ss)) (repeat None (len ss - 1)) m in
    match r with
    | None => Ok (failed, [])
    | Some (ucs_set, lls) => let* (f, _) := write_uncertainseries opened closed names ucs_set v in Ok (mkFinished 0 f, lls)
    end.
Proof.
  intros symbol HS v. destruct (inputs_ok k1 k2 c net_text t NF data_text cols ss DF) as (names & m & P & E).
  destruct (symbol_number k1 k2 c net_text t NF names m symbol P HS) as (EV & Hv). fold v in EV, Hv.
  destruct (name_of k1 k2 c net_text t NF names m v P Hv) as (nv & N1 & N2 & N3 & _).
  exists names, (all_marked m), nv. split; [now apply parsed_marked|]. split.
  { intros w Hw. rewrite all_marked_len in Hw. rewrite all_marked_var by auto. reflexivity. }
  split; auto. split; auto. split; auto. split; auto. exists m. split; auto.
  intros fuel growth tiny low opened closed. unfold nipbenchmark. rewrite E. destruct ss as [|ts0 ss0] eqn:ES; [cbn in TWO; lia|]. rewrite <- ES in *. cbn [bind].
  destruct (Nat.ltb_spec (len ss) 2); [lia|]. cbn [negb]. rewrite EV. reflexivity.
Qed.
Lemma program_facts : net_ok t /\ children_first t /\ two_slices t /\ Forall (fit_series n) ss /\ Forall (in_range t) ss.
Proof.
  assert (NF' := NF). destruct NF' as [_ NO CF PR TS _ _ _]. split; auto. split; auto. split; auto. split; [|eapply data_range; eauto].
  eapply Forall_impl; [|exact (data_fits t data_text cols ss DF)]. intros s (Q & _). exact Q.
Qed.

Lemma C93_lemma : forall fuel growth tiny low symbol closed, In symbol (symbols t) ->
  let v := ParseSpec.number t symbol in
  out fuel true growth tiny low symbol true closed = NoFuel \/
  exists groups lls,
    out fuel true growth tiny low symbol true closed = Ok (mkFinished 0 (Some (csv (map chars (states (node t v))) groups)), lls) /\
    len groups = len ss /\ len lls = len ss /\
    forall i, i < len ss -> predicts rnd 1024 growth low t ss v i (nth i groups []) (nth i lls []).
Proof.
  intros fuel growth tiny low symbol closed HS v. destruct program_facts as (NO & CF & TS & FS & RG).
  destruct (benchmark_begins symbol HS) as (names & m0 & nv & P & MK & Hv & N1 & N2 & N3 & m & EM & EQ). fold v in Hv, N1, N2, N3, EQ. rewrite EQ. clear EQ.
  assert (BL := base_learnable t NO CF TS names m0 P).
  destruct (benchmark_ok t NO CF TS names m0 P MK ss FS RG TWO rnd RP growth low tiny v Hv fuel (seq 0 (len ss)) (repeat None (len ss - 1)) m) as [->|(ps & -> & Q)].
  - intros i Hi. apply in_seq in Hi. lia.
  - apply repeat_length.
  - now rewrite EM.
  - rewrite EM. apply same_structure_refl.
  - now left.
  - right. cbn [bind]. assert (LP : len ps = len ss). { apply Forall2_len in Q. rewrite seq_length in Q. auto. }
    assert (NU : map fst ps <> []). { intros K. apply map_eq_nil in K. rewrite K in LP. cbn in LP. lia. }
    assert (D : Forall2 (fun u ds => distributions (ucs_variables u) (ucs_data u) v (len (states (node t v))) ds) (map fst ps) (map (fun p => columns (fst p)) ps)).
    { clear -Q. induction Q as [|i p is ps (A & B & _) Q IH]; cbn [map]; constructor; auto. rewrite A. exact B. }
    rewrite (write_uncertain_text names v nv (states (node t v)) N1 N2 ltac:(unfold card_in in *; auto) (states_some k1 k2 c net_text t NF v Hv) closed _ _ NU D).
    cbn [bind]. eexists _, _. split; [reflexivity|]. split; [now rewrite !map_length|]. split; [now rewrite map_length|].
    intros i Hi. assert (R : result_ok t ss rnd growth low v (nth i (seq 0 (len ss)) 0) (nth i ps (mkUCS [] [], []))).
    { clear -Q Hi LP. assert (L : i < len ps) by lia. clear Hi LP. revert i L. induction Q as [|a p is ps H Q IH]; intros i L; [cbn in L; lia|].
      destruct i as [|i]; [exact H|]. cbn [nth]. apply IH. cbn in L. lia. }
    rewrite seq_nth in R by auto. destruct R as (_ & _ & R). cbn [Nat.add] in R. rewrite map_map.
    rewrite (nth_map _ _ _ _ _ (mkUCS [] [], [])) by lia. rewrite (nth_map _ _ _ _ _ (mkUCS [] [], [])) by lia. exact R.
Qed.

Lemma C93_unwritten_lemma : forall fuel growth tiny low symbol closed, In symbol (symbols t) ->
  out fuel true growth tiny low symbol false closed = NoFuel \/
  exists lls, out fuel true growth tiny low symbol false closed = Ok (mkFinished 0 None, lls).
Proof.
  intros fuel growth tiny low symbol closed HS. set (v := ParseSpec.number t symbol). destruct program_facts as (NO & CF & TS & FS & RG).
  destruct (benchmark_begins symbol HS) as (names & m0 & nv & P & MK & Hv & N1 & N2 & N3 & m & EM & EQ). fold v in Hv, N1, N2, N3, EQ. rewrite EQ. clear EQ.
  assert (BL := base_learnable t NO CF TS names m0 P).
  destruct (benchmark_ok t NO CF TS names m0 P MK ss FS RG TWO rnd RP growth low tiny v Hv fuel (seq 0 (len ss)) (repeat None (len ss - 1)) m) as [->|(ps & -> & Q)].
  - intros i Hi. apply in_seq in Hi. lia.
  - apply repeat_length.
  - now rewrite EM.
  - rewrite EM. apply same_structure_refl.
  - now left.
  - right. cbn [bind]. assert (LP : len ps = len ss). { apply Forall2_len in Q. rewrite seq_length in Q. auto. }
    assert (NU : map fst ps <> []). { intros K. apply map_eq_nil in K. rewrite K in LP. cbn in LP. lia. }
    rewrite (C74_unopened_lemma names v nv (states (node t v)) N1 N2 ltac:(unfold card_in in *; auto) (states_some k1 k2 c net_text t NF v Hv) closed _ NU).
    + cbn [bind]. eauto.
    + intros u Hu. clear -Q Hu. induction Q as [|i p is ps (A & _) Q IH]; [destruct Hu|]. destruct Hu as [<-|Hu]; auto. rewrite A. now left.
Qed.

Lemma C93_endless_lemma : forall growth tiny low symbol i, In symbol (symbols t) -> i < len ss ->
  (forall u, same_network t u -> proper u -> positive_tables u -> (probability u (all_but i ss) <= 1)%Qc -> (probability u (all_but i ss) < low i)%Qc) ->
  forall fuel closed, out fuel true growth tiny low symbol true closed = NoFuel.
Proof.
  intros growth tiny low symbol i HS Hi H fuel closed. destruct (C93_lemma fuel growth tiny low symbol closed HS) as [E|(gs & lls & _ & _ & _ & R)]; auto.
  exfalso. destruct (R i Hi) as (ts & u & _ & (A & B & C & _ & LO & L1) & _). apply (Qclt_not_le _ _ (H u A B C L1)). exact LO.
Qed.

Variables lo hi : Qc.
Hypothesis LO : (0 < lo)%Qc.
Hypothesis BETWEEN : forall i k v x, (lo <= rnd i k v x)%Qc /\ (rnd i k v x <= hi)%Qc.
Hypothesis POSS : exists w, same_network t w /\ probability w ss <> 0%Qc.

Lemma C93_ends_lemma : exists b : nat -> Qc, (forall i, (0 < b i)%Qc) /\
  forall growth tiny low, (forall i, i < len ss -> (1 <= growth i * b i)%Qc /\ (low i <= b i)%Qc) -> (tiny <= 1)%Qc ->
  forall fuel symbol closed, 0 < fuel -> In symbol (symbols t) -> out fuel true growth tiny low symbol true closed <> NoFuel.
Proof.
  destruct program_facts as (NO & CF & TS & FS & RG).
  assert (HI : (0 <= hi)%Qc). { destruct (BETWEEN 0 0 0 0) as (B1 & B2). apply Qcle_trans with lo; [now apply Qclt_le_weak|eapply Qcle_trans; eauto]. }
  set (K := qn (most_states t)).
  set (A := fun i => (K * (1 + qn (steps (all_but i ss))) + K * hi / lo)%Qc).
  assert (KP : (0 < K)%Qc) by (apply qn_pos, most_pos; auto).
  assert (H1 : forall i, (0 < K * (1 + qn (steps (all_but i ss))))%Qc). { intros i. apply Qc_mul_pos; auto. apply Qcplus_pos; [reflexivity|apply qn_nonneg]. }
  assert (H2 : (0 <= K * hi / lo)%Qc).
  { unfold Qcdiv. apply Qc_mul_nonneg; [apply Qc_mul_nonneg; auto; now apply Qclt_le_weak|]. apply Qclt_le_weak. now apply Qc_inv_pos. }
  assert (PA : forall i, (0 < A i)%Qc) by (intros; apply Qcplus_pos; auto).
  assert (LA : forall i, (K * (1 + qn (steps (all_but i ss))) <= A i)%Qc). { intros i. unfold A. rewrite <- (Qcplus_0_r (K * _)) at 1. apply Qcplus_le_compat; [apply Qcle_refl|auto]. }
  assert (RA : forall i, (K * hi <= A i * lo)%Qc).
  { intros i. replace (K * hi)%Qc with (K * hi / lo * lo)%Qc by (field; now apply Qc_pos_neq). apply Qcmult_le_compat_r; [|now apply Qclt_le_weak].
    unfold A. replace (K * hi / lo)%Qc with (0 + K * hi / lo)%Qc at 1 by ring. apply Qcplus_le_compat; [now apply Qclt_le_weak|apply Qcle_refl]. }
  assert (PS : forall i ts, In ts (all_but i ss) -> exists a, course_fits t ts a).
  { intros i ts I. apply all_but_in in I. destruct POSS as (w & S & N). apply (possible_course t NO w ts S).
    intros E. apply N. unfold probability. eapply qprod_zero; eauto. }
  exists (fun i => least t (A i) (all_but i ss)). split; [intros i; now apply least_pos|].
  intros growth tiny low GL T1 fuel symbol closed HF HS. set (v := ParseSpec.number t symbol).
  destruct (benchmark_begins symbol HS) as (names & m0 & nv & P & MK & Hv & N1 & N2 & N3 & m & EM & EQ). fold v in Hv, N1, N2, N3, EQ.
  assert (BL := base_learnable t NO CF TS names m0 P).
  intros NF0. assert (X : benchmark fuel ss growth tiny low rnd v (seq 0 (len ss)) (repeat None (len ss - 1)) m <> NoFuel).
  { apply (benchmark_end t NO CF TS names m0 P MK ss FS RG TWO rnd RP growth low tiny v Hv fuel).
    - intros i m1 Hi L S. destruct (GL i Hi) as (GB & LB).
      assert (NEi : all_but i ss <> []). { intros E0. assert (L0 := all_but_len i ss Hi). rewrite E0 in L0. cbn in L0. lia. }
      apply (attempts_end t NO CF TS names m0 P MK (all_but i ss) (others_fit t ss FS i) NEi (rnd i) (RP i) (growth i) tiny (low i) (least t (A i) (all_but i ss)) (least_pos t (A i) _ (PA i)) GB T1 LB); auto.
      intros k u1 vs u ST ES.
      apply (learning_floor t NO (all_but i ss) (PS i) (A i) (PA i) (LA i) rnd lo hi LO BETWEEN (RA i) false) with (u1 := u1) (l := vs); auto; [discriminate|].
      exact (started_random rnd (all_but i ss) t false i k u1 ST).
    - intros i Hi. apply in_seq in Hi. lia.
    - apply repeat_length.
    - now rewrite EM.
    - rewrite EM. apply same_structure_refl. }
  destruct (benchmark_ok t NO CF TS names m0 P MK ss FS RG TWO rnd RP growth low tiny v Hv fuel (seq 0 (len ss)) (repeat None (len ss - 1)) m) as [E|(ps & E & Q)]; try congruence.
  - intros i Hi. apply in_seq in Hi. lia.
  - apply repeat_length.
  - rewrite EM. apply same_structure_refl.
  - rewrite EQ, E in NF0. cbn [bind] in NF0. assert (LP : len ps = len ss). { apply Forall2_len in Q. rewrite seq_length in Q. auto. }
    assert (NU : map fst ps <> []). { intros K0. apply map_eq_nil in K0. rewrite K0 in LP. cbn in LP. lia. }
    assert (D : Forall2 (fun u ds => distributions (ucs_variables u) (ucs_data u) v (len (states (node t v))) ds) (map fst ps) (map (fun p => columns (fst p)) ps)).
    { clear -Q. induction Q as [|i p is ps (A0 & B & _) Q IH]; cbn [map]; constructor; auto. rewrite A0. exact B. }
    rewrite (write_uncertain_text names v nv (states (node t v)) N1 N2 ltac:(unfold card_in in *; auto) (states_some k1 k2 c net_text t NF v Hv) closed _ _ NU D) in NF0.
    discriminate NF0.
Qed.
End Program.
