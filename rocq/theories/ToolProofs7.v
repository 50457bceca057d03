(** * Proofs: niplikelihood from the files *)
From Coq Require Import String Ascii Permutation Field.
From Verif Require Import Base BaseProofs StringSpec PotentialModel PotentialSpec PotentialProofs VariableModel AssignSpec AssignProofs
  JoinTreeModel JoinTreeSpec JoinTreeProofs NipModel NipSpec NipProofs NipProofs2 NipProofs3 SliceModel SliceSpec SliceProofs SliceProofs2 SliceProofs3 SliceProofs4
  SliceProofs5 LearnModel LearnSpec LearnProofs2 LearnProofs6 LearnProofs8 SeriesFileModel SeriesFileSpec
  GraphModel ParseModel ParseSpec ParseProofs3 ParseProofs6 ParseProofs8 ParseProofs9
  NetLexModel NetGrammarModel NetSpec WriteSpec ToolModel ToolSpec ToolModel2 ToolSpec2 ToolProofs ToolProofs3 ToolProofs4 ToolProofs6.
Import ListNotations.
Open Scope nat_scope.
Local Open Scope res_scope.
Local Notation len := List.length.
Add Field Qcfield_tool7 : Qcft.

(** ** Marks *)
Lemma marking_slices : forall card m f, slices_ok card m -> slices_ok card (marking m f).
Proof.
  intros card m f H. assert (M := so_model _ _ H). assert (MI := mo_indep _ _ M).
  constructor; try apply H.
  - constructor; try apply M.
    + intros i v Hi Hv. rewrite marking_len. now apply (mo_scope _ _ M i).
    + intros v Hv. rewrite marking_len in Hv. rewrite marking_var by auto. exact (mo_var _ _ M v Hv).
    + split; [apply MI|]. intros v Hv. rewrite marking_len. destruct MI as (_ & MI). destruct (MI v Hv) as (A & B).
      split; auto. rewrite marking_var by auto. exact B.
  - intros v Hv. rewrite marking_var by (now apply MI). exact (so_old _ _ H v Hv).
Qed.
Lemma mark_each : forall m k, for_up 0 (len (m_vars m)) (fun i m => mark_var m i k) m = Ok (marking m (fun _ => k)).
Proof.
  intros m k.
  destruct (for_up_inv model (fun i m' => m' = marking m (fun v => if Nat.ltb v i then k else v_mark (var m v)))
    (fun i m' => mark_var m' i k) 0 (len (m_vars m)) m) as (m' & E & ->).
  - lia.
  - symmetry. transitivity (marking m (fun v => v_mark (var m v))); [|apply marking_id]. apply marking_ext. intros v _. reflexivity.
  - intros i m' Hi ->. rewrite mark_marking by lia. eexists. split; [reflexivity|]. apply marking_ext. intros v Hv.
    destruct (Nat.eqb_spec v i) as [->|N].
    + destruct (Nat.ltb_spec i (S i)); auto; lia.
    + destruct (Nat.ltb_spec v i); destruct (Nat.ltb_spec v (S i)); auto; lia.
  - rewrite E. f_equal. apply marking_ext. intros v Hv. destruct (Nat.ltb_spec v (len (m_vars m))); auto. lia.
Qed.

Lemma nth_number : forall t s, In s (symbols t) -> nth (ParseSpec.number t s) (symbols t) EmptyString = s.
Proof.
  intros t s H. unfold ParseSpec.number. assert (Q := position_spec s (symbols t)). destruct (position s (symbols t)); [apply Q|tauto].
Qed.
Lemma number_nth : forall t, net_ok t -> forall v, v < ParseSpec.size t -> ParseSpec.number t (nth v (symbols t) EmptyString) = v.
Proof.
  intros t NO v Hv. assert (E := f_equal (fun l => nth v l 0) (map_number_symbols t NO)). cbv beta in E.
  rewrite (nth_map _ _ _ _ _ EmptyString) in E by (unfold symbols; now rewrite map_length). rewrite seq_nth in E by auto. exact E.
Qed.

Section Likelihood.
Variable k1 k2 : list pvar -> list nat -> Z.
Variable c : Z.
Variable net_text : list ascii.
Variable t : net.
Hypothesis NF : net_file k1 k2 c net_text t.
Local Notation card := (card_in t).
Local Notation n := (ParseSpec.size t).
Local Notation NO := (nf_ok _ _ _ _ _ NF).
Local Notation CF := (nf_order _ _ _ _ _ NF).
Local Notation PR := (nf_proper _ _ _ _ _ NF).
Local Notation TS := (nf_slices _ _ _ _ _ NF).

Section Model.
Variable names : list named_variable.
Variable m : model.
Hypothesis P : parsed t names m.

Definition groups_of (sel : nat -> bool) : model := marking m (fun v => if sel v then MARK_ON else MARK_OFF).

Lemma mark_asked_ok : forall syms sel, exists sel', mark_asked names (groups_of sel) syms = Ok (groups_of sel') /\
  forall v, v < n -> sel' v = (sel v || asked t syms v)%bool.
Proof.
  induction syms as [|s syms IH]; intros sel; cbn [mark_asked].
  - exists sel. split; auto. intros v _. unfold asked. cbn [existsb]. now rewrite orb_false_r.
  - destruct (in_dec string_dec s (symbols t)) as [I|N].
    + destruct (symbol_number k1 k2 c net_text t NF names m s P I) as (E & Hv). rewrite E. cbn [bind].
      unfold groups_of. rewrite mark_marking by (rewrite (pa_size _ _ _ P); exact Hv). cbn [bind].
      destruct (IH (fun v => (Nat.eqb v (ParseSpec.number t s) || sel v)%bool)) as (sel' & E' & H'). exists sel'. split.
      * etransitivity; [|exact E']. f_equal. unfold groups_of. apply marking_ext. intros v _. destruct (Nat.eqb v (ParseSpec.number t s)); reflexivity.
      * intros v Lv. rewrite (H' v Lv). unfold asked. cbn [existsb].
        replace (String.eqb (nth v (symbols t) EmptyString) s) with (Nat.eqb v (ParseSpec.number t s)).
        { destruct (Nat.eqb _ _), (sel v); reflexivity. }
        apply eq_true_iff_eq. rewrite Nat.eqb_eq, String.eqb_eq. split.
        { intros ->. now apply nth_number. }
        { intros <-. symmetry. apply (number_nth t NO). exact Lv. }
    + rewrite (symbol_unknown k1 k2 c net_text t NF names m s P N). cbn [bind]. destruct (IH sel) as (sel' & E' & H'). exists sel'. split; auto.
      intros v Lv. rewrite (H' v Lv). f_equal. unfold asked. cbn [existsb]. destruct (String.eqb_spec (nth v (symbols t) EmptyString) s) as [<-|]; auto.
      exfalso. apply N. apply nth_In. unfold symbols. rewrite map_length. exact Lv.
Qed.

Section Selected.
Variable sel : nat -> bool.
Local Notation mg := (groups_of sel).

Lemma groups_len : len (m_vars mg) = n.
Proof. unfold groups_of. rewrite marking_len. apply P. Qed.
Lemma groups_slices : slices_ok card mg.
Proof. apply marking_slices. apply P. Qed.
Lemma groups_masked : forall v, v < n -> masked mg MARK_ON v = sel v /\ masked mg MARK_OFF v = negb (sel v).
Proof.
  intros v Hv. unfold masked, groups_of. rewrite marking_var by (rewrite (pa_size _ _ _ P); exact Hv). cbn [v_mark set_vmark].
  destruct (sel v); split; reflexivity.
Qed.

Lemma weight_slice : forall s a, valid card a -> weight_of mg (Nat.ltb 0 s) a = slice t (Nat.eqb s 0) a.
Proof.
  intros s a Ha. unfold weight_of, slice_priors. change (m_indep mg) with (m_indep m). change (m_prev mg) with (m_prev m).
  change (original mg a) with (original (all_marked m) a).
  assert (Q : forall l, incl l (m_indep m) -> priors mg l a = priors (all_marked m) l a).
  { intros l Hl. unfold priors. apply qprod_map_ext. intros v Hv.
    assert (Lv : v < len (m_vars m)) by (apply (mo_indep _ _ (so_model _ _ (pa_slices _ _ _ P))); now apply Hl).
    unfold groups_of. rewrite marking_var, all_marked_var by auto. reflexivity. }
  destruct s as [|s]; cbn [Nat.ltb Nat.leb Nat.eqb].
  - rewrite Q by apply incl_refl. exact (slice_first t NO CF PR names m P a Ha).
  - rewrite Q by (intros v Hv; apply filter_In in Hv; tauto). exact (slice_later t NO CF PR TS names m P a Ha).
Qed.

Lemma agree_fits : forall ts s mask which a, fit_series n ts -> s < s_length ts ->
  (forall v, v < n -> masked mg mask v = which v) -> agree_on mg mask (to_ts ts) s a = fits_on t ts s which a.
Proof.
  intros ts s mask which a (ND & HV & HR & HL) Hs HW. apply eq_true_iff_eq. unfold agree_on, fits_on. rewrite !forallb_forall.
  change (ts_observed (to_ts ts)) with (s_observed ts).
  destruct (s_observed ts) as [|o os] eqn:EO.
  { split; [|intros _ j []]. intros _ v _. unfold said. rewrite EO. reflexivity. }
  rewrite <- EO in *. assert (NE : s_observed ts <> []) by (rewrite EO; discriminate).
  assert (LR : len (nth s (s_data ts) []) = len (s_observed ts)).
  { rewrite Forall_forall in HR. apply HR. apply nth_In. rewrite HL by auto. exact Hs. }
  assert (EN : forall j, NipSpec.entry (to_ts ts) s j = nth j (nth s (s_data ts) []) 0%Z).
  { intros j. unfold NipSpec.entry, to_ts, rows_of. cbn [ts_data]. rewrite EO. rewrite firstn_all2 by (rewrite HL by auto; lia). reflexivity. }
  assert (MK : forall j, j < len (s_observed ts) -> masked mg mask (nth j (s_observed ts) 0) = which (nth j (s_observed ts) 0)).
  { intros j Hj. apply HW. apply HV. now apply nth_In. }
  split.
  - intros H v Hv. unfold said. assert (Q := find_combine (s_observed ts) (nth s (s_data ts) []) v ND LR).
    destruct (find _ _) as [(w & d)|]; auto. destruct Q as (j & H1 & H2 & H3 & _).
    assert (K := H j). unfold agree1 in K. change (ts_observed (to_ts ts)) with (s_observed ts) in K. rewrite EN, H3, MK, H2 in K by auto.
    assert (Ij : In j (seq 0 (len (s_observed ts)))) by (apply in_seq; lia). assert (K' := K Ij). destruct (Z.ltb_spec d 0); auto.
    rewrite orb_false_r in K'. destruct (negb (which v)); auto. cbn [orb] in K' |- *. apply Z.eqb_eq in K'.
    apply Nat.eqb_eq. rewrite K'. symmetry. apply Nat2Z.id.
  - intros H j Hj. apply in_seq in Hj. unfold agree1. change (ts_observed (to_ts ts)) with (s_observed ts). rewrite EN, MK by lia.
    assert (V : nth j (s_observed ts) 0 < n) by (apply HV, nth_In; lia).
    assert (Iv : In (nth j (s_observed ts) 0) (seq 0 n)) by (apply in_seq; lia).
    assert (K := H (nth j (s_observed ts) 0) Iv). unfold said in K.
    assert (Q := find_combine (s_observed ts) (nth s (s_data ts) []) (nth j (s_observed ts) 0) ND LR).
    destruct (find _ _) as [(w & d)|]; [|exfalso; apply Q, nth_In; lia]. destruct Q as (i & H1 & H2 & H3 & _).
    assert (i = j) by (apply (proj1 (NoDup_nth (s_observed ts) 0) ND); auto; lia). subst i. rewrite H3.
    destruct (Z.ltb_spec d 0); [now rewrite orb_true_r|]. rewrite orb_false_r. apply orb_true_iff in K. destruct K as [->|K]; auto.
    apply Nat.eqb_eq in K. rewrite K. apply orb_true_iff. right. apply Z.eqb_eq. rewrite Z2Nat.id; lia.
Qed.
Lemma fits_both : forall ts s a, (fits_on t ts s (fun v => negb (sel v)) a && fits_on t ts s sel a)%bool = fits_on t ts s (fun _ => true) a.
Proof.
  intros ts s a. unfold fits_on. induction (seq 0 n) as [|v l IH]; [reflexivity|]. cbn [forallb]. rewrite <- IH.
  destruct (said ts v s) as [x|]; [|reflexivity]. destruct (sel v), (Nat.eqb (a v) x), (forallb _ l), (forallb _ l); reflexivity.
Qed.
Lemma mass_step : forall ts s which p, (forall a, valid card a -> p a = fits_on t ts s which a) ->
  mass_of card mg (Nat.ltb 0 s) p = step_mass t ts s which.
Proof.
  intros ts s which p H. unfold mass_of, step_mass. rewrite groups_len. apply sumv_ext; [intros v; exact (card_pos t names m P v)|].
  intros a Ha. rewrite H, weight_slice by auto. reflexivity.
Qed.
End Selected.
End Model.

Lemma C79_lemma : forall data_text cols ss, data_file t data_text cols ss -> forall asked_for, ss <> [] ->
  exists ls, niplikelihood k1 k2 (fresh_globals c) (Some net_text) (Some data_text) asked_for = Ok (0%Z, ls) /\
    Forall2 (fun ts l => len l = s_length ts /\ forall s, s < s_length ts ->
      nth s l (0, 0)%Qc = (step_mass t ts s (fun v => negb (asked t asked_for v)), step_mass t ts s (fun _ => true))) ss ls.
Proof.
  intros data_text cols ss DF asked_for NE. destruct (inputs_ok k1 k2 c net_text t NF data_text cols ss DF) as (names & m & P & E).
  unfold niplikelihood. rewrite E. cbn [bind]. destruct ss as [|ts0 ss0]; [congruence|]. rewrite mark_each. cbn [bind].
  destruct (mark_asked_ok names m P asked_for (fun _ => false)) as (sel & E2 & HS). unfold groups_of in E2 at 1. cbv beta iota in E2.
  rewrite E2. cbn [bind]. set (ss := ts0 :: ss0) in *.
  destruct (likelihood_all_ok card (groups_of m sel) (groups_slices names m P sel)) with (ss := ss) (m := groups_of m sel) as (ls & E3 & H3).
  - intros v Hv. rewrite (groups_len names m P sel) in Hv. destruct (groups_masked names m P sel v Hv) as (-> & ->). reflexivity.
  - apply (so_model _ _ (groups_slices names m P sel)).
  - apply same_model_refl.
  - rewrite (groups_len names m P sel). assert (Q := data_fits t data_text cols ss DF). eapply Forall_impl; [|exact Q]. cbv beta. tauto.
  - rewrite E3. cbn [bind]. exists ls. split; auto.
    assert (Q := data_fits t data_text cols ss DF). clear NE E E3. revert Q. generalize dependent ls. clear DF.
    generalize ss as l. induction l as [|ts l IH]; intros ls H Q; inversion H as [|? x ? xs (L & A) R]; subst; constructor; [|apply IH; auto; now apply Forall_inv_tail in Q].
    split; auto. apply Forall_inv in Q. destruct Q as (F & _). intros s Hs. rewrite A by auto.
    assert (W1 : forall a, fits_on t ts s (fun v => negb (sel v)) a = fits_on t ts s (fun v => negb (asked t asked_for v)) a).
    { intros a. unfold fits_on. apply forallb_ext_in. intros v Hv. apply in_seq in Hv. rewrite HS by lia. reflexivity. }
    f_equal.
    + apply (mass_step names m P). intros a Ha. rewrite <- W1. apply agree_fits; auto. intros v Hv. now apply (groups_masked names m P sel v Hv).
    + apply (mass_step names m P). intros a Ha. rewrite <- (fits_both sel). f_equal; apply agree_fits; auto; intros v Hv; now apply (groups_masked names m P sel v Hv).
Qed.
End Likelihood.
