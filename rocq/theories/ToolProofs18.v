(** * Proofs: one series of nipbenchmark (for C93) *)
From Coq Require Import String Ascii Permutation QArith.Qcanon Field.
From Verif Require Import Base BaseProofs StringSpec PotentialModel PotentialSpec PotentialProofs VariableModel AssignSpec AssignProofs
  JoinTreeModel JoinTreeSpec JoinTreeProofs NipModel NipSpec NipProofs NipProofs2 NipProofs3 SliceModel SliceSpec SliceProofs SliceProofs2 SliceProofs4 SliceProofs5
  LearnModel LearnSpec LearnProofs2 LearnProofs3 LearnProofs4 LearnProofs5 LearnProofs6 FactorProofs SeriesFileModel SeriesFileSpec SeriesFileProofs4
  GraphModel ParseModel ParseSpec ParseProofs3 ParseProofs5 ParseProofs6 ParseProofs8 ParseProofs9 ParseProofs10
  NetLexModel NetGrammarModel NetSpec WriteModel WriteSpec WriteProofs9
  LearnProofs8 ToolModel ToolSpec ToolSpec3 ToolProofs ToolProofs2 ToolProofs3 ToolProofs7 ToolProofs8 ToolProofs9 ToolProofs10 ToolProofs11 ToolProofs12 ToolProofs13 ToolSpec6.
Import ListNotations.
Open Scope nat_scope.
Local Open Scope list_scope.
Local Open Scope res_scope.
Local Notation len := List.length.

Add Field Qcfield_tool18 : Qcft.

(** ** Concealed records *)
Lemma conceal_fit : forall n v ts, fit_series n ts -> fit_series n (conceal v ts).
Proof.
  intros n v ts (A & B & C & D). unfold fit_series, conceal. cbn [s_observed s_data s_length]. split; auto. split; auto. split.
  - apply Forall_map. eapply Forall_impl; [|exact C]. intros row H. rewrite map_length, combine_length, H. lia.
  - intros H. rewrite map_length. auto.
Qed.
Lemma conceal_row : forall v ts s, nth s (s_data (conceal v ts)) [] =
  map (fun '(w, d) => if Nat.eqb w v then (-1)%Z else d) (combine (s_observed ts) (nth s (s_data ts) [])).
Proof.
  intros v ts s. cbn [conceal s_data]. destruct (Nat.lt_ge_cases s (len (s_data ts))) as [H|H].
  - now rewrite (nth_map _ _ _ _ _ []).
  - rewrite !nth_overflow by (rewrite ?map_length; auto). destruct (s_observed ts); reflexivity.
Qed.
Lemma said_conceal : forall v ts w s, said (conceal v ts) w s = if Nat.eqb w v then None else said ts w s.
Proof.
  intros v ts w s. unfold said. rewrite conceal_row. cbn [conceal s_observed].
  generalize (nth s (s_data ts) []) as row. induction (s_observed ts) as [|o os IH]; intros [|d row]; cbn [combine map find]; try (now destruct (Nat.eqb w v)).
  destruct (Nat.eqb_spec w o) as [<-|N]; [|apply IH]. destruct (Nat.eqb w v); reflexivity.
Qed.
Lemma conceal_entry : forall n v ts s j, fit_series n ts -> s < s_length ts -> j < len (s_observed ts) ->
  NipSpec.entry (to_ts (conceal v ts)) s j = if Nat.eqb (nth j (s_observed ts) 0) v then (-1)%Z else NipSpec.entry (to_ts ts) s j.
Proof.
  intros n v ts s j (ND & HV & HR & HL) Hs Hj. unfold NipSpec.entry, to_ts, rows_of. cbn [ts_data conceal s_observed].
  destruct (s_observed ts) as [|o os] eqn:EO; [cbn in Hj; lia|]. rewrite <- EO in *.
  assert (NE : s_observed ts <> []) by (rewrite EO; discriminate). specialize (HL NE).
  change (nth j (nth s (firstn (s_length ts) (s_data (conceal v ts))) []) 0%Z = if Nat.eqb (nth j (s_observed ts) 0) v then (-1)%Z else nth j (nth s (firstn (s_length ts) (s_data ts)) []) 0%Z).
  assert (LC : len (s_data (conceal v ts)) = s_length ts) by (cbn [conceal s_data]; rewrite map_length; exact HL).
  rewrite (firstn_all2 (s_data (conceal v ts))), (firstn_all2 (s_data ts)) by lia. rewrite conceal_row.
  assert (LR : len (nth s (s_data ts) []) = len (s_observed ts)). { rewrite Forall_forall in HR. apply HR. apply nth_In. lia. }
  rewrite (nth_map _ _ _ _ _ (0, 0%Z)) by (rewrite combine_length; lia). rewrite combine_nth by auto. reflexivity.
Qed.

(** ** Marks *)
Lemma same_marks : forall m m', same_model m m' -> same_model (all_marked m) (all_marked m').
Proof.
  intros m m' (A & L & B & C). split; [exact A|]. split; [now rewrite !all_marked_len|]. split; [|exact C].
  intros v. destruct (Nat.lt_ge_cases v (len (m_vars m))) as [Hv|Hv].
  - rewrite !all_marked_var by lia. destruct (B v) as (B1 & B2 & B3 & B4 & B5). cbn [v_card v_prior v_parents v_old v_mark set_vmark]. repeat split; auto.
  - unfold var. rewrite !nth_overflow by (rewrite all_marked_len; lia). repeat split; auto.
Qed.
Lemma marks_marking : forall m f, all_marked (marking m f) = all_marked m.
Proof.
  intros m f. rewrite <- !marking_all. unfold marking at 1. rewrite marking_len.
  change (mkModel (map (fun v => set_vmark (var (marking m f) v) MARK_ON) (seq 0 (len (m_vars m)))) (m_jt m) (m_indep m)
    (m_children m) (m_out m) (m_prev m) (m_in_clique m) (m_out_clique m) = marking m (fun _ => MARK_ON)).
  unfold marking at 2. f_equal. apply map_ext_in. intros v Hv. apply in_seq in Hv. rewrite marking_var by lia. reflexivity.
Qed.
Lemma marking_factor : forall card m f a s, slices_ok card m -> slice_factor (marking m f) a s = slice_factor m a s.
Proof.
  intros card m f a s SO. assert (MI := mo_indep _ _ (so_model _ _ SO)).
  assert (Q : forall l b, incl l (m_indep m) -> priors (marking m f) l b = priors m l b).
  { intros l b Hl. unfold priors. apply qprod_map_ext. intros v Hv. rewrite marking_var by (apply MI; now apply Hl). reflexivity. }
  unfold slice_factor. rewrite marking_len. change (m_indep (marking m f)) with (m_indep m). change (m_prev (marking m f)) with (m_prev m).
  change (original (marking m f)) with (original m). change (linked (marking m f)) with (linked m). destruct s as [|s].
  - now rewrite Q by apply incl_refl.
  - rewrite Q; [reflexivity|]. intros v Hv. apply filter_In in Hv. tauto.
Qed.

Definition all_on_but (v w : nat) : nat := if Nat.eqb w v then MARK_OFF else MARK_ON.
Section Unmarked.
Variable card : nat -> nat.
Variable m : model.
Hypothesis SO : slices_ok card m.
Hypothesis MK : forall w, w < len (m_vars m) -> v_mark (var m w) = MARK_ON.
Variable v : nat.
Local Notation off := (all_on_but v).
Local Notation mo := (marking m off).
Variable ts : series.
Hypothesis F : fit_series (len (m_vars m)) ts.

Lemma off_agrees : forall s b, s < s_length ts -> agrees mo (to_ts ts) s b = agrees m (to_ts (conceal v ts)) s b.
Proof.
  intros s b Hs. unfold agrees. change (ts_observed (to_ts (conceal v ts))) with (s_observed ts). change (ts_observed (to_ts ts)) with (s_observed ts).
  apply forallb_ext_in. intros j Hj. apply in_seq in Hj. assert (Hw : nth j (s_observed ts) 0 < len (m_vars m)). { apply F. apply nth_In. lia. }
  rewrite (conceal_entry (len (m_vars m)) v ts s j F Hs) by lia. rewrite marking_var by auto. cbn [v_mark set_vmark]. rewrite (MK _ Hw). unfold all_on_but.
  destruct (Nat.eqb (nth j (s_observed ts) 0) v); reflexivity.
Qed.
Lemma off_unrolled : forall S E a, E <= s_length ts -> unrolled mo (to_ts ts) S E a = unrolled m (to_ts (conceal v ts)) S E a.
Proof.
  intros S E a HE. unfold unrolled. apply qprod_map_ext. intros s _. rewrite marking_len, (marking_factor card) by auto.
  destruct (Nat.ltb_spec s E); [|reflexivity]. cbn [negb orb]. now rewrite off_agrees by lia.
Qed.
Lemma off_sum : forall S f, sum_steps card mo S f = sum_steps card m S f.
Proof. intros S f. unfold sum_steps. now rewrite marking_len. Qed.
Lemma off_evidence : forall S E, E <= s_length ts -> sum_steps card mo S (unrolled mo (to_ts ts) S E) = sum_steps card m S (unrolled m (to_ts (conceal v ts)) S E).
Proof. intros S E HE. rewrite off_sum. apply sum_steps_ext. intros a. now apply off_unrolled. Qed.
Lemma off_posterior : forall S E s w x, E <= s_length ts -> posterior_at card mo (to_ts ts) S E s w x = posterior_at card m (to_ts (conceal v ts)) S E s w x.
Proof.
  intros S E s w x HE. unfold posterior_at. rewrite off_evidence by auto. f_equal. rewrite off_sum. apply sum_steps_ext. intros a.
  rewrite marking_len. now rewrite off_unrolled.
Qed.
Lemma off_conditional : conditional_slices card m -> conditional_slices card mo.
Proof.
  intros C. apply conditional_unmarked; [now apply marking_slices|]. rewrite marks_marking, marked_same by auto. exact C.
Qed.
End Unmarked.

(** ** Series that are possible *)
Definition in_range (t : net) (ts : series) : Prop := forall w s x, said ts w s = Some x -> x < card_in t w.

Lemma possible_positive : forall u ts, net_ok u -> positive_tables u -> in_range u ts -> possible_series u ts.
Proof.
  intros u ts NO PT R. set (n := ParseSpec.size u).
  destruct (existsb (from_before u) (seq 0 n)) eqn:EB.
  { left. apply existsb_exists in EB. destruct EB as (w & _ & H). eauto. }
  right. assert (NB : forall w, w < n -> from_before u w = false).
  { intros w Hw. destruct (from_before u w) eqn:E; auto. rewrite <- EB. symmetry. apply existsb_exists. exists w. split; auto. apply in_seq. lia. }
  destruct (file_floor u NO PT) as (A & A0 & FA). assert (SN : same_network u u) by now repeat split.
  assert (A1 : (0 < A + 1)%Qc). { rewrite Qcplus_comm. apply Qcplus_pos; [reflexivity|auto]. }
  assert (FA1 : floor u (A + 1) u). { apply (floor_more u A); auto. rewrite <- (Qcplus_0_r A) at 1. apply Qcplus_le_compat; [apply Qcle_refl|discriminate]. }
  assert (NP : 0 < n) by (apply (n_pos u NO)).
  assert (K : (least_course u (A + 1) ts <= evidence u ts (s_length ts) (s_length ts))%Qc).
  { apply (evidence_floor u NO (A + 1) u ts A1 SN PT FA1).
    exists (fun i => if Nat.ltb i (s_length ts * n) then match said ts (i mod n) (i / n) with Some x => x | None => 0 end else 0).
    split; [|split].
    - intros i. cbv beta. destruct (Nat.ltb _ _); [|now apply card_in_pos]. destruct (said ts (i mod n) (i / n)) as [x|] eqn:E; [exact (R _ _ _ E)|now apply card_in_pos].
    - intros i Hi. fold n in Hi. destruct (Nat.ltb_spec i (s_length ts * n)); [lia|reflexivity].
    - intros s Hs. split.
      + unfold record_fits. apply forallb_forall. intros w Hw. apply in_seq in Hw. fold n in Hw. unfold at_step, moment. fold n.
        destruct (Nat.ltb_spec w n); [|lia]. destruct (Nat.ltb_spec (s * n + w) (s_length ts * n)); [|nia].
        replace ((s * n + w) mod n) with w by (rewrite Nat.add_comm, Nat.mod_add, Nat.mod_small; lia).
        replace ((s * n + w) / n) with s by (rewrite Nat.add_comm, Nat.div_add, Nat.div_small; lia).
        destruct (said ts w s); [apply Nat.eqb_refl|reflexivity].
      + destruct s as [|s]; auto. unfold follows. apply forallb_forall. intros w Hw. apply in_seq in Hw. fold n in Hw. rewrite NB by lia. destruct (next_in u w); reflexivity. }
  apply Qc_pos_neq. eapply Qclt_le_trans; [|exact K]. unfold least_course. apply qprod_pos. intros s _. apply qprod_pos. intros w _. apply Qcdiv_pos; [reflexivity|auto].
Qed.
Lemma range_conceal : forall t v ts, in_range t ts -> in_range t (conceal v ts).
Proof. intros t v ts H w s x. rewrite said_conceal. destruct (Nat.eqb w v); [discriminate|apply H]. Qed.
Lemma range_same : forall t u ts, same_network t u -> in_range t ts -> in_range u ts.
Proof. intros t u ts S H w s x E. rewrite (same_card t u w S). eapply H; eauto. Qed.
Lemma data_range : forall t data_text cols ss, net_ok t -> data_file t data_text cols ss -> Forall (in_range t) ss.
Proof.
  intros t data_text cols ss NO (header & data & R & H & EC & ND & ->). apply Forall_map, Forall_forall. intros b Hb w s x. unfold said, series_of_block.
  cbn [s_observed s_data].
  assert (CR : forall p, In p cols -> snd p < ParseSpec.size t). { intros p Hp. rewrite <- named_len. subst cols. eapply columns_lt; eauto. }
  destruct cols as [|c0 cs]; [discriminate|]. set (cols := c0 :: cs) in *.
  destruct (Nat.lt_ge_cases s (len b)) as [Hs|Hs].
  2:{ rewrite nth_overflow by (rewrite map_length; auto). rewrite combine_nil. discriminate. }
  rewrite (nth_map _ _ _ _ _ []) by auto. generalize (nth s b []) as line. intros line. unfold data_of_line. clear -CR NO.
  induction cols as [|(i, v) l IH]; cbn [map combine find]; [discriminate|]. cbn [snd].
  destruct (Nat.eqb_spec w v) as [<-|N]; [|apply IH; intros; apply CR; now right].
  assert (Hw := CR (i, w) (or_introl eq_refl)). cbn [snd] in Hw.
  destruct (nth_error line i) as [f|].
  - unfold datum. assert (Q := position_spec (string_of_list_ascii f) (states_at (named_in t) w)). destruct (position _ _) as [k|]; [|discriminate].
    destruct (Z.ltb_spec (Z.of_nat k) 0); [discriminate|]. intros E. injection E as <-. rewrite Nat2Z.id. destruct Q as (Q & _).
    unfold states_at, named_in in Q. rewrite nth_error_map in Q. unfold card_in, node.
    rewrite (nth_error_nth' (n_nodes t) (mkNode EmptyString None (Some [EmptyString]) None)) in Q by exact Hw. exact Q.
  - cbn [Z.ltb Z.compare]. intros E. injection E as <-. now apply card_in_pos.
Qed.

(** ** The prediction *)
Section Predict.
Variable t : net.
Hypothesis NO : net_ok t.
Hypothesis CF : children_first t.
Hypothesis TS : two_slices t.
Variable names : list named_variable.
Variable m0 : model.
Hypothesis P : parsed t names m0.
Hypothesis MK : forall v, v < len (m_vars m0) -> v_mark (var m0 v) = MARK_ON.
Local Notation card := (card_in t).
Local Notation n := (ParseSpec.size t).
Local Notation net_of qs := (with_tables t qs).
Local Notation has := (has_tables t m0).

Lemma predict_one : forall qs m v ts, has qs m -> v < n -> fit_series n ts -> in_range t ts ->
  exists mo m' rs l, mark_var m v MARK_OFF = Ok mo /\ forward_backward_inference mo (to_ts ts) [v] true = Ok (m', rs, l) /\
    has qs (all_marked m') /\ chances (net_of qs) (conceal v ts) [v] true rs /\ likelihood_of (net_of qs) (conceal v ts) l.
Proof.
  intros qs m v ts H Hv F RG. destruct (stands t NO CF names m0 P MK qs m H) as (mp & SM & PM & AM). assert (H0 := H). destruct H0 as (G & HL & S & I).
  set (u := net_of qs) in *. assert (NU := with_ok t NO qs G). assert (CU := with_children_first t CF qs). assert (TU := with_two_slices t TS qs). assert (PU := with_proper t NO qs G).
  assert (LM : len (m_vars m) = n) by (destruct S as (_ & _ & -> & _); apply P).
  assert (MM : forall w, w < len (m_vars m) -> v_mark (var m w) = MARK_ON).
  { intros w Hw. destruct S as (_ & _ & L & V & _). destruct (V w) as (_ & _ & _ & ->). apply MK. lia. }
  exists (marking m (all_on_but v)).
  assert (EM : mark_var m v MARK_OFF = Ok (marking m (all_on_but v))).
  { rewrite <- (marking_id m) at 1. rewrite mark_marking by lia. f_equal. apply marking_ext. intros w Hw. unfold all_on_but. destruct (Nat.eqb w v); auto. }
  assert (SO := le_slices _ _ HL). assert (SOo := marking_slices card m (all_on_but v) SO).
  assert (FM : fit_series (len (m_vars m)) ts) by now rewrite LM.
  assert (FC : fit_series n (conceal v ts)) by now apply conceal_fit.
  assert (SR : series_ok (marking m (all_on_but v)) (to_ts ts)) by (apply to_ts_ok; now rewrite marking_len).
  assert (LT := to_ts_len n ts F). set (T := s_length ts) in *.
  assert (EV : sum_steps card (marking m (all_on_but v)) T (unrolled (marking m (all_on_but v)) (to_ts ts) T T) = evidence u (conceal v ts) T T).
  { rewrite (off_evidence card m SO MM v ts FM T T (le_n _)).
    assert (Q := evidence_sum u NU CU PU TU names mp PM (conceal v ts) FC T T (le_n _)). rewrite AM in Q. rewrite <- Q.
    change (card_in u) with card. rewrite (sum_steps_same card m mp T _ SM). apply sum_steps_ext. intros a. symmetry. now apply unrolled_same. }
  assert (PO : possible_series u (conceal v ts)).
  { apply possible_positive; auto; [now apply with_positive|]. apply range_conceal. exact (range_same t u ts (with_network t qs) RG). }
  assert (DE : defined card (marking m (all_on_but v)) (to_ts ts)).
  { unfold defined. rewrite LT, EV. change (m_out (marking m (all_on_but v))) with (m_out m). destruct PO as [(w & Hw)|PO]; [left|right; exact PO].
    intros E0.
    assert (Q := pa_out _ _ _ PM). assert (EO : m_out mp = m_out m) by apply SM. rewrite EO, E0 in Q.
    apply (prev_from u NU names mp PM) in Hw; auto. destruct (m_prev mp); [destruct Hw|discriminate Q]. }
  assert (HV : forall w, In w [v] -> w < len (m_vars (marking m (all_on_but v)))). { intros w [<-|[]]. rewrite marking_len. lia. }
  destruct (forward_backward_ok card (marking m (all_on_but v)) (to_ts ts) SOo SR [v] true HV DE) as (m' & rs & l & E & M' & S' & _ & _).
  exists m', rs, l. split; auto. split; auto. split; [|split].
  - assert (SA := same_marks _ _ S'). rewrite marks_marking, (marked_same m MM) in SA. apply (has_same t m0 qs m); auto.
    assert (X := slices_ok_same card _ m' SOo M' S'). apply (so_model _ _ (all_marked_slices card m' X)).
  - destruct (C41_lemma card (marking m (all_on_but v)) (to_ts ts) [v] true SOo SR DE HV) as (m2 & rs2 & l2 & E2 & R1 & R2). rewrite E in E2. injection E2 as <- <- <-.
    rewrite LT in *. split; [exact R1|]. cbn [conceal s_length]. fold T. intros s Hs. destruct (R2 s Hs) as (A & B). split; auto. intros i Hi. destruct (B i Hi) as (C & D). split; [exact C|].
    intros x Hx. rewrite D by exact Hx. rewrite (off_posterior card m SO MM v ts FM) by apply le_n.
    assert (Q := posterior_chance u NU CU PU TU names mp PM (conceal v ts) FC T T s (nth i [v] 0) x (le_n _)). rewrite AM in Q. rewrite <- Q.
    symmetry. now apply posterior_same.
  - intros HE. cbn [conceal s_length] in *. fold T in HE |- *.
    assert (CS : conditional_slices card (marking m (all_on_but v))).
    { apply off_conditional; auto. apply (LearnProofs4.conditional_same card mp m (same_model_sym _ _ SM)).
      apply (parsed_conditional u NU CU (with_roots t qs)) with (names := names); auto.
      - apply acyclic_children_first; auto.
      - now apply with_columns. }
    destruct (C41_likelihood_lemma card (marking m (all_on_but v)) (to_ts ts) [v] SOo SR CS) as (m2 & rs2 & l2 & E2 & R1 & R2); auto.
    { rewrite LT, EV. exact HE. }
    rewrite E in E2. injection E2 as <- <- <-. rewrite LT in *. rewrite EV in R2. auto.
Qed.

Lemma chances_reports : forall qs v ts rs, good_tables t qs -> chances (net_of qs) ts [v] true rs ->
  (exists m, has qs m) ->
  distributions [v] rs v (card v) (map (fun row => nth 0 row []) rs) /\ reports (net_of qs) ts v (map (map print_f) (map (fun row => nth 0 row []) rs)).
Proof.
  intros qs v ts rs G (L & H) (m & HM). destruct (stands t NO CF names m0 P MK qs m HM) as (mp & SM & PM & AM).
  assert (CR := chance_range (net_of qs) (with_ok t NO qs G) names mp PM ts). split.
  - exists 0. split; [split; [reflexivity|intros; lia]|]. rewrite <- L in H.
    assert (Q : Forall (fun row => nth_error row 0 = Some (nth 0 row []) /\ len (nth 0 row []) = card v /\
       Forall (fun q => (0 <= q)%Qc /\ (q <= 1)%Qc) (nth 0 row [])) rs).
    { apply Forall_forall. intros row Hr. apply In_nth with (d := []) in Hr. destruct Hr as (s & Hs & <-).
      destruct (H s Hs) as (A & B). destruct (B 0) as (C & D); [cbn; lia|]. cbn [nth] in C, D. split; [apply nth_error_nth'; cbn in A; lia|].
      split; auto. apply Forall_forall. intros q Hq. apply In_nth with (d := 0%Qc) in Hq. destruct Hq as (x & Hx & <-). rewrite C in Hx.
      rewrite D by auto. apply CR. }
    clear L H. induction Q; cbn [map]; constructor; auto.
  - split; [rewrite !map_length; congruence|]. intros s Hs. destruct (H s Hs) as (C1 & C2). destruct (C2 0) as (C3 & C4); [cbn; lia|]. cbn [nth] in C3, C4.
    rewrite (nth_map _ _ _ _ _ []) by (rewrite map_length; lia). rewrite (nth_map _ _ _ _ _ []) by lia.
    split; [now rewrite map_length|]. intros x Hx. rewrite (nth_map _ _ _ _ _ 0%Qc) by lia. rewrite <- C4 by auto. apply printed.
    rewrite C4 by auto. apply CR.
Qed.
End Predict.
