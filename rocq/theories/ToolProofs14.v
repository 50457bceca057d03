(** * Proofs: niptrain ends if it is not asked for too much (Property C81) *)
From Coq Require Import String Ascii Permutation QArith.Qcanon Field.
From Verif Require Import Base BaseProofs StringSpec PotentialModel PotentialSpec PotentialProofs VariableModel AssignSpec AssignProofs
  JoinTreeModel JoinTreeSpec JoinTreeProofs NipModel NipSpec NipProofs NipProofs2 SliceModel SliceSpec SliceProofs SliceProofs2 SliceProofs4
  LearnModel LearnSpec LearnProofs2 LearnProofs3 LearnProofs4 LearnProofs5 FactorProofs SeriesFileModel SeriesFileSpec
  GraphModel ParseModel ParseSpec ParseProofs3 ParseProofs5 ParseProofs6 ParseProofs8 ParseProofs9 ParseProofs10
  NetLexModel NetGrammarModel NetSpec WriteModel WriteSpec WriteProofs WriteProofs4 WriteProofs6 WriteProofs7 WriteProofs8 WriteProofs9 WriteProofs10 WriteProofs11
  LearnProofs8 ToolModel ToolModel3 ToolSpec ToolSpec3 ToolProofs ToolProofs3 ToolProofs9 ToolProofs10 ToolProofs11 ToolProofs12 ToolProofs13.
Import ListNotations.
Open Scope nat_scope.
Local Open Scope list_scope.
Local Open Scope res_scope.
Local Notation len := List.length.

Add Field Qcfield_tool14 : Qcft.

Section Luck.
Variable t : net.
Hypothesis NO : net_ok t.
Hypothesis CF : children_first t.
Hypothesis TS : two_slices t.
Variable names : list named_variable.
Variable m0 : model.
Hypothesis P : parsed t names m0.
Hypothesis MK : forall v, v < len (m_vars m0) -> v_mark (var m0 v) = MARK_ON.
Local Notation card := (card_in t).
Local Notation n := (ParseSpec.size t).
Local Notation good := (good_tables t).
Local Notation net_of qs := (with_tables t qs).
Local Notation has := (has_tables t m0).
Local Notation same := (same_cond t m0).
Variable ss : list series.
Hypothesis FS : Forall (fit_series n) ss.
Hypothesis NE : ss <> [].
Local Notation data := (map to_ts ss).
Let LN := base_len t names m0 P.

Lemma probability_le1 : forall qs m, has qs m -> (probability (net_of qs) ss <= 1)%Qc.
Proof.
  intros qs m H. rewrite <- (total_net t NO CF TS names m0 P MK ss FS qs m H). destruct (stands t NO CF names m0 P MK qs m H) as (mp & SM & PM & _). destruct H as (G & HL & S & I).
  assert (C : conditional_slices card m).
  { apply (conditional_same card mp m (same_model_sym _ _ SM)).
    apply (parsed_conditional (net_of qs) (with_ok t NO qs G) (with_children_first t CF qs) (with_roots t qs)) with (names := names); auto.
    - apply acyclic_children_first; [now apply with_ok|now apply with_children_first].
    - now apply with_two_slices.
    - now apply with_columns. }
  unfold total_likelihood. apply Qcle_trans with (qprod (map (fun _ : time_series => 1%Qc) data)).
  - apply qprod_le. intros ts Hts. assert (SO : series_ok m ts).
    { apply in_map_iff in Hts. destruct Hts as (s & <- & Hs). rewrite Forall_forall in FS. apply to_ts_ok.
      replace (len (m_vars m)) with n; auto. destruct S as (_ & _ & -> & _). auto. }
    split; [apply likelihood_nonneg|apply likelihood_le1]; auto; apply HL.
  - clear. induction data as [|x l IH]; [discriminate|]. cbn [map qprod fold_right]. rewrite Qcmult_1_l. exact IH.
Qed.

Variable b : Qc.
Hypothesis PB : (0 < b)%Qc.
Variables growth tiny : Qc.
Hypothesis GB : (1 <= growth * b)%Qc.
Hypothesis T1 : (tiny <= 1)%Qc.

Lemma batch_luck : forall random m mx curve m' o, ready t m0 random m ->
  (forall u1 vs u, batch_start t m0 random m u1 -> estimates ss u1 vs u -> (b <= probability u ss)%Qc) ->
  em_learn m data random mx growth tiny curve = Ok (m', o) -> o_code o = NO_ERROR.
Proof.
  intros random m mx curve m' o R LOW E.
  assert (R0 := R). destruct R0 as (HL & S & _).
  assert (NE' : data <> []) by (destruct ss; [congruence|discriminate]).
  assert (LM : len (m_vars m) = n) by (destruct S as (_ & _ & -> & _); exact LN).
  assert (SO : Forall (series_ok m) data).
  { apply Forall_map. eapply Forall_impl; [|exact FS]. intros ts H. apply to_ts_ok. now rewrite LM. }
  destruct (em_learn_ok card m data random mx growth tiny curve HL NE' SO (ready_initial t NO names m0 P random m R)) as
    (ps0 & ls & m1 & ps1 & m2 & o2 & E2 & P0 & C0 & ST & RS & HL' & S' & LE & OC & ND & FIN).
  rewrite E in E2. injection E2 as <- <-.
  assert (PP := ready_positive t NO names m0 P random m ps0 R P0 ST).
  destruct (rounds_estimates t NO CF TS names m0 P MK ss FS m ps0 ls m1 ps1 RS S P0 PP) as (S1 & P1 & PP1 & D).
  assert (S0' := same_structure_trans _ _ _ S S').
  destruct FIN as [(OK & _)|(OK & ON & FIN)]; auto. exfalso.
  destruct FIN as [(-> & NL & DR)|(I & s & Is & L0)].
  - destruct D as [(-> & _)|(qs1 & qs & G1 & SC & H & ES & _)]; [congruence|]. cbv zeta in DR.
    assert (BS := start_tables t NO CF TS names m0 P random m ps0 qs1 R P0 C0 ST G1 SC).
    assert (LB := LOW _ _ _ BS ES). assert (L1 := probability_le1 qs m1 H).
    assert (EL := estimates_last _ _ _ _ ES 0%Qc).
    assert (EN : nth (len ls - 1) ls 0%Qc = probability (net_of qs) ss).
    { rewrite <- EL. clear. induction ls as [|x [|y l] IH]; auto. change (last (x :: y :: l) 0%Qc) with (last (y :: l) 0%Qc). rewrite <- IH. cbn [List.length Nat.sub]. now rewrite !Nat.sub_0_r. }
    rewrite EN in DR. destruct DR as [DR|DR]; [|apply (Qclt_not_le _ _ DR); exact L1].
    apply (Qclt_not_le _ _ DR). apply Qcle_trans with 1%Qc.
    + destruct (len ls - 1) as [|k] eqn:EK; [exact T1|]. cbn [nth]. destruct (ND k ltac:(lia)) as (K & _). apply Qcnot_lt_le. intros Q. apply K. now right.
    + eapply Qcle_trans; [exact GB|]. rewrite (Qcmult_comm growth). apply Qcmult_le_compat_r; auto.
      apply Qclt_le_weak. apply Qcnot_le_lt. intros Q. apply (Qclt_not_le 0 1); [reflexivity|]. eapply Qcle_trans; [exact GB|].
      rewrite <- (Qcmult_0_l b). apply Qcmult_le_compat_r; auto. now apply Qclt_le_weak.
  - destruct (gain_tables t NO CF TS names m0 P ps1 (params_here t names m0 P m1 ps1 S1 P1) (positive_here t m0 m1 ps1 S1 PP1)) as (q' & G' & SC').
    assert (H : has q' m'). { split; auto. split; auto. split; auto. exact (installed_here t names m0 P m1 ps1 q' m' S1 S0' SC' I). }
    assert (Z : probability (net_of q') ss = 0%Qc).
    { rewrite <- (total_net t NO CF TS names m0 P MK ss FS q' m' H). unfold total_likelihood. eapply qprod_zero; eauto. }
    assert (X : exists u1 vs, batch_start t m0 random m u1 /\ estimates ss u1 vs (net_of q')).
    { destruct D as [(-> & -> & ->)|(qs1 & qs & G1 & SC & H1 & ES & NX)].
      - exists (net_of q'), [probability (net_of q') ss]. split; [eapply start_tables; eauto|apply est_last].
      - exists (net_of qs1), (ls ++ [probability (net_of q') ss]). split; [eapply start_tables; eauto|]. eapply estimates_more; eauto. }
    destruct X as (u1 & vs & BS & ES). assert (LB := LOW _ _ _ BS ES). rewrite Z in LB. apply (Qclt_not_le _ _ PB). exact LB.
Qed.

Hypothesis PRT : printable t.
Variable ks : list looks.
Variable size : Z * Z.
Hypothesis DOC : look_alike t ks size.
Variable vl : list pvar.
Hypothesis LVL : len vl = n.
Hypothesis NEXT : forall v x, nth_error vl v = Some x -> pv_next x = next_in t v.
Local Notation pages := (map (fun '(k, v) => page_of k v) (combine ks vl)).
Hypothesis LOOKS : map looks_on pages = map labelled ks.
Variable rnd : nat -> nat -> nat -> nat -> Qc.
Hypothesis RP : forall i k v x, (0 < rnd i k v x)%Qc.
Variable file : bool.
Hypothesis FLOOR : forall u1 l u, started rnd ss t file u1 -> estimates ss u1 l u -> (b <= probability u ss)%Qc.
Local Notation state_ok := (state_ok t m0 ss rnd file).

Lemma run_luck : forall i fuel k remain random m curve stop r, state_ok random m ->
  train_run fuel names pages size data growth tiny (rnd i) k remain random m curve stop = Ok r -> r_code r = NO_ERROR.
Proof.
  intros i. induction fuel as [|fuel IH]; intros k remain random m curve stop r (HL & S & D); [discriminate|].
  cbn [train_run]. set (current := if (BATCH_ITERATIONS <? remain)%Z then BATCH_ITERATIONS else remain).
  assert (R : ready t m0 (if random then Some (rnd i k) else None) m).
  { split; auto. split; auto. destruct random; [auto|]. destruct D as [D|(qs & H & _)]; [discriminate|eauto]. }
  destruct (batch_ok t NO CF TS names m0 P MK ss FS _ m current growth tiny curve R NE) as
    (m' & o & u1 & qs & ls & vs & E & BS & H & ES & OC & LE & FIN).
  assert (ST : forall u1, batch_start t m0 (if random then Some (rnd i k) else None) m u1 -> started rnd ss t file u1).
  { intros u2 BS2. destruct random; cbn [batch_start] in BS2.
    - eapply started_random; eauto.
    - destruct D as [D|(q & Hq & Lq)]; [discriminate|]. eapply started_again; eauto. }
  assert (CODE := batch_luck _ m current curve m' o R (fun u1 vs u B => FLOOR u1 vs u (ST u1 B)) E).
  rewrite E. cbn [bind]. rewrite CODE.
  assert (LQ : learned rnd ss t file (net_of qs)) by (eapply learned_batch; eauto).
  destruct (write_ok t NO CF TS PRT names m0 P MK ks size DOC vl LVL NEXT LOOKS qs m' H) as (mw & text & W & HW & _). rewrite W. cbn [bind].
  match goal with |- (if ?c then ?x else _) = _ -> _ => destruct c end.
  - apply IH. destruct HW as (G & HL' & S' & I'). split; auto. split; auto. right. exists qs. split; auto. split; auto.
  - intros X. injection X as <-. reflexivity.
Qed.
End Luck.

Section Tool.
Variable k1 k2 : list pvar -> list nat -> Z.
Variable c : Z.
Variable net_text : list ascii.
Variable t : net.
Hypothesis NF : net_file k1 k2 c net_text t.
Hypothesis PRT : printable t.
Local Notation card := (card_in t).
Local Notation n := (ParseSpec.size t).
Variable data_text : list ascii.
Variable cols : list (nat * nat).
Variable ss : list series.
Hypothesis DF : data_file t data_text cols ss.
Hypothesis NE : ss <> [].
Hypothesis NC : cols <> [].
Variable rnd : nat -> nat -> nat -> nat -> Qc.
Variables lo hi : Qc.
Hypothesis LO : (0 < lo)%Qc.
Hypothesis BETWEEN : forall i k v x, (lo <= rnd i k v x)%Qc /\ (rnd i k v x <= hi)%Qc.
Variable randomise : bool.
Hypothesis POS : randomise = true \/ positive_tables t.
Hypothesis POSS : exists w, same_network t w /\ probability w ss <> 0%Qc.

Lemma C81_ends_lemma : exists b, (0 < b)%Qc /\ forall growth tiny low mx, (1 <= growth * b)%Qc -> (tiny <= 1)%Qc -> (low <= b)%Qc ->
  forall fuel batches, 0 < fuel -> Z.to_nat mx < batches ->
  niptrain fuel batches k1 k2 (fresh_globals c) (Some net_text) (Some data_text) randomise growth tiny low mx rnd <> NoFuel.
Proof.
  assert (NF' := NF). destruct NF' as [_ NO CF PR TS _ _ _].
  assert (RP : forall i k v x, (0 < rnd i k v x)%Qc) by (intros; eapply Qclt_le_trans; [exact LO|apply BETWEEN]).
  assert (HI : (0 <= hi)%Qc). { destruct (BETWEEN 0 0 0 0) as (B1 & B2). apply Qcle_trans with lo; [now apply Qclt_le_weak|eapply Qcle_trans; eauto]. }
  assert (FF : exists F, (0 <= F)%Qc /\ (negb randomise = true -> floor t F t)).
  { destruct randomise; [exists 0%Qc; split; [apply Qcle_refl|discriminate]|]. destruct POS as [|PT]; [discriminate|].
    destruct (file_floor t NO PT) as (F & F1 & F2). exists F. auto. }
  destruct FF as (F & F0 & FF).
  set (K := qn (most_states t)).
  set (A := (K * (1 + qn (steps ss)) + (K * hi / lo + F))%Qc).
  assert (KP : (0 < K)%Qc) by (apply qn_pos, most_pos; auto).
  assert (H1 : (0 < K * (1 + qn (steps ss)))%Qc). { apply Qc_mul_pos; auto. apply Qcplus_pos; [reflexivity|apply qn_nonneg]. }
  assert (H2 : (0 <= K * hi / lo)%Qc).
  { unfold Qcdiv. apply Qc_mul_nonneg; [apply Qc_mul_nonneg; auto; now apply Qclt_le_weak|]. apply Qclt_le_weak. now apply Qc_inv_pos. }
  assert (N2 : (0 <= K * hi / lo + F)%Qc). { rewrite <- (Qcplus_0_r 0). now apply Qcplus_le_compat. }
  assert (PA : (0 < A)%Qc) by (apply Qcplus_pos; auto).
  assert (LA : (K * (1 + qn (steps ss)) <= A)%Qc). { unfold A. rewrite <- (Qcplus_0_r (K * _)) at 1. apply Qcplus_le_compat; [apply Qcle_refl|auto]. }
  assert (RA : (K * hi <= A * lo)%Qc).
  { replace (K * hi)%Qc with (K * hi / lo * lo)%Qc by (field; now apply Qc_pos_neq). apply Qcmult_le_compat_r; [|now apply Qclt_le_weak].
    unfold A. replace (K * hi / lo)%Qc with (0 + (K * hi / lo + 0))%Qc at 1 by ring. apply Qcplus_le_compat; [now apply Qclt_le_weak|].
    apply Qcplus_le_compat; [apply Qcle_refl|auto]. }
  assert (FA : negb randomise = true -> floor t A t).
  { intros E. assert (PT : positive_tables t) by (destruct POS as [->|]; auto; discriminate).
    apply (floor_more t F A t PT); auto; [now repeat split|].
    unfold A. replace F with (0 + (0 + F))%Qc at 1 by ring. apply Qcplus_le_compat; [now apply Qclt_le_weak|]. apply Qcplus_le_compat; [auto|apply Qcle_refl]. }
  assert (PS : forall ts, In ts ss -> exists a, course_fits t ts a).
  { intros ts I. destruct POSS as (w & S & N). apply (possible_course t NO w ts S).
    intros E. apply N. unfold probability. eapply qprod_zero; eauto. }
  exists (least t A ss). split; [now apply least_pos|].
  intros growth tiny low mx GB T1 LB fuel batches HF HB.
  destruct (train_begins k1 k2 c net_text t NF PRT data_text cols ss DF NE NC rnd randomise growth tiny low mx) as
    (names & m0 & ks & size & vl & P & MK & TX & LVL & NEXT & LK & EQ). cbv zeta in *. rewrite EQ. clear EQ.
  assert (DOC : look_alike t ks size) by (destruct TX as (? & ? & _ & _ & D); eapply document_looks; eauto).
  assert (FS : Forall (fit_series n) ss). { eapply Forall_impl; [|exact (data_fits t data_text cols ss DF)]. intros s (Q & _). exact Q. }
  assert (SK : state_ok t m0 ss rnd (negb randomise) randomise m0).
  { split; [exact (base_learnable t NO CF TS names m0 P)|]. split; [apply same_structure_refl|]. destruct randomise; [now left|right].
    destruct POS as [|PT]; [discriminate|]. destruct (file_tables k1 k2 c net_text t NF names m0 P PT) as (G & I). exists (tables t). split.
    - split; auto. split; [exact (base_learnable t NO CF TS names m0 P)|]. split; auto. apply same_structure_refl.
    - apply learned_file; auto; [apply with_network|]. intros v x Hv Hx. rewrite (with_entry t NO _ G) by auto. now rewrite tables_param. }
  assert (FLOOR := fun u1 l u => learning_floor t NO ss PS A PA LA rnd lo hi LO BETWEEN RA (negb randomise) FA u1 l u).
  destruct fuel as [|fuel]; [lia|]. cbn [train_runs].
  destruct (run_lemma t NO CF TS PRT names m0 P MK ks size DOC vl LVL NEXT LK ss FS NE rnd RP (negb randomise) growth tiny 1 batches 0 mx randomise m0 [] None SK)
    as (E1 & [E2|(r & Er & RO)]); [exfalso; now apply (E1 HB)|]. rewrite Er. cbn [bind].
  assert (CODE : r_code r = NO_ERROR).
  { eapply (run_luck t NO CF TS names m0 P MK ss FS NE (least t A ss) (least_pos t A ss PA) growth tiny GB T1 PRT ks size DOC vl LVL NEXT LK rnd RP (negb randomise) FLOOR); [exact SK|exact Er]. }
  rewrite CODE. cbn [orb].
  destruct RO as (qs & H & LQ & more & EC & LM & [C|(C & before & ls & u1 & EM & L3 & ST & ES & L1 & FIN)]); [congruence|].
  assert (LAST : last (r_curve r) 1%Qc = probability (with_tables t qs) ss).
  { rewrite EC, EM. cbn [app]. rewrite (last_app_ne _ before ls 1%Qc 0%Qc (estimates_some _ _ _ _ ES)). exact (estimates_last _ _ _ _ ES 0%Qc). }
  assert (NL : Qc_ltb (last (r_curve r) 1%Qc) low = false).
  { rewrite LAST. apply LearnProofs.Qc_ltb_false. eapply Qcle_trans; [exact LB|]. exact (FLOOR u1 ls _ ST ES). }
  rewrite NL. cbn [bind]. rewrite CODE.
  destruct (write_ok t NO CF TS PRT names m0 P MK ks size DOC vl LVL NEXT LK qs (r_model r) H) as (mw & text & W & _). rewrite W. cbn [bind is_err]. discriminate.
Qed.
End Tool.
