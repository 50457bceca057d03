(** * Proofs: the unrolled parsed model is the process that the file describes *)
From Coq Require Import String Ascii Permutation.
From Verif Require Import Base BaseProofs StringSpec PotentialModel PotentialSpec VariableModel AssignSpec AssignProofs
  JoinTreeModel JoinTreeSpec JoinTreeProofs NipModel NipSpec NipProofs SliceModel SliceSpec SliceProofs SliceProofs4 SliceProofs5
  LearnModel LearnSpec LearnProofs2 LearnProofs6 LearnProofs8 SeriesFileModel SeriesFileSpec
  GraphModel ParseModel ParseSpec ParseProofs3 ParseProofs6 ParseProofs8 ParseProofs9
  NetLexModel NetGrammarModel NetSpec WriteSpec ToolModel ToolSpec.
From Verif Require LearnProofs4.
Import ListNotations.
Open Scope nat_scope.
Local Notation len := List.length.
Add Field Qcfield_tool : Qcft.

Lemma qprod_nonneg : forall A (f : A -> Qc) l, (forall x, In x l -> (0 <= f x)%Qc) -> (0 <= qprod (map f l))%Qc.
Proof.
  induction l as [|x l IH]; intros H; [discriminate|]. cbn [map qprod].
  replace 0%Qc with (0 * qprod (map f l))%Qc by ring. apply Qcmult_le_compat_r; [apply H; left; auto|apply IH; intros; apply H; now right].
Qed.

(** What read_timeseries guarantees of its series. *)
Definition fit_series (n : nat) (ts : series) : Prop :=
  NoDup (s_observed ts) /\ (forall v, In v (s_observed ts) -> v < n) /\
  Forall (fun row => len row = len (s_observed ts)) (s_data ts) /\
  (s_observed ts <> [] -> len (s_data ts) = s_length ts).

Lemma to_ts_len : forall n ts, fit_series n ts -> len (ts_data (to_ts ts)) = s_length ts.
Proof.
  intros n ts (_ & _ & _ & L). unfold to_ts, rows_of. cbn [ts_data]. destruct (s_observed ts) eqn:E.
  - apply repeat_length.
  - rewrite firstn_length, L by discriminate. lia.
Qed.
Lemma to_ts_ok : forall m ts, fit_series (len (m_vars m)) ts -> series_ok m (to_ts ts).
Proof.
  intros m ts (A & B & C & L). split; [exact A|]. split; [exact B|]. unfold to_ts, rows_of. cbn [ts_data ts_observed].
  destruct (s_observed ts) eqn:E.
  - apply Forall_forall. intros x Hx. apply repeat_spec in Hx. now subst.
  - rewrite firstn_all2 by (rewrite L by discriminate; lia). exact C.
Qed.

Lemma find_combine : forall (os : list nat) (row : list Z) v, NoDup os -> len row = len os ->
  match find (fun '(w, d) => Nat.eqb v w) (combine os row) with
  | Some (w, d) => exists j, j < len os /\ nth j os 0 = v /\ nth j row 0%Z = d /\ w = v
  | None => ~ In v os
  end.
Proof.
  induction os as [|o os IH]; intros row v ND L; destruct row as [|d row]; try discriminate L; cbn [combine find]; [intros []|].
  inversion ND as [|? ? N1 N2]; subst. destruct (Nat.eqb_spec v o) as [->|NE].
  - exists 0. cbn. repeat split; auto. lia.
  - injection L as L. specialize (IH row v N2 L). destruct (find _ _) as [(w & d')|].
    + destruct IH as (j & H1 & H2 & H3 & H4). exists (S j). cbn. repeat split; auto. lia.
    + intros [K|K]; auto.
Qed.

Section File.
Variable t : net.
Hypothesis NO : net_ok t.
Hypothesis CF : children_first t.
Hypothesis PR : proper t.
Hypothesis TS : two_slices t.
Variable names : list named_variable.
Variable m : model.
Hypothesis P : parsed t names m.
Local Notation card := (card_in t).
Local Notation n := (ParseSpec.size t).
Local Notation mm := (all_marked m).

Lemma size_pos : 0 < n.
Proof. unfold ParseSpec.size. destruct (n_nodes t) eqn:E; [now apply (no_nodes t NO) in E|cbn; lia]. Qed.
Lemma mm_len : len (m_vars mm) = n.
Proof. rewrite all_marked_len. apply P. Qed.
Lemma mm_slices : slices_ok card mm.
Proof. apply all_marked_slices. apply P. Qed.
Lemma card_pos : forall v, 0 < card v.
Proof. exact (SliceProofs4.HC card mm mm_slices). Qed.

Lemma from_before_iff : forall u, from_before t u = true <-> old_outgoing t u.
Proof.
  intros u. unfold from_before, old_outgoing. destruct (next_in t u) as [v|]; [|split; [discriminate|tauto]].
  rewrite existsb_exists. split.
  - intros (d & Hd & K). split; [discriminate|]. apply existsb_exists in K. destruct K as (x & Hx & E). apply Nat.eqb_eq in E. subst x.
    exists (child_of t d), d. auto.
  - intros (_ & w & d & Hd & _ & Hu). exists d. split; auto. apply existsb_exists. exists u. split; auto. apply Nat.eqb_refl.
Qed.
Lemma parent_lt : forall u v, parent t u v -> u < n.
Proof.
  intros u v (d & Hd & _ & Hu). unfold parents_of in Hu. apply in_map_iff in Hu. destruct Hu as (s & <- & Hs). apply in_rev in Hs.
  destruct (no_decl t NO d Hd) as (I & _). assert (K : In (ParseSpec.number t s) (seq 0 n)). { rewrite <- (map_number_symbols t NO). apply in_map, I. now right. }
  apply in_seq in K. lia.
Qed.
Lemma from_before_lt : forall u, from_before t u = true -> u < n.
Proof. intros u H. apply from_before_iff in H. destruct H as (_ & w & H). eapply parent_lt; eauto. Qed.
Lemma prev_from : forall u, In u (m_prev m) <-> from_before t u = true.
Proof.
  intros u. rewrite (pa_prev _ _ _ P), from_before_iff. split; [tauto|]. intros H. split; auto.
  apply from_before_lt. now apply from_before_iff.
Qed.
Lemma prev_existsb : forall u, existsb (Nat.eqb u) (m_prev m) = from_before t u.
Proof.
  intros u. apply eq_true_iff_eq. rewrite <- prev_from, existsb_exists. split.
  - intros (x & Hx & E). apply Nat.eqb_eq in E. now subst.
  - intros H. exists u. split; auto. apply Nat.eqb_refl.
Qed.

Lemma linked_follows : forall a b, linked mm a b = follows t a b.
Proof.
  intros a b. unfold linked. change (m_out mm) with (m_out m). change (m_prev mm) with (m_prev m).
  assert (Q := pa_out _ _ _ P). apply eq_true_iff_eq. rewrite ix_eqb_true. unfold follows. rewrite forallb_forall.
  assert (X : map a (m_out m) = map b (m_prev m) <->
    forall u, In u (m_prev m) -> match next_in t u with Some v => a v = b u | None => True end).
  { clear NO CF PR TS P. revert Q. generalize (m_prev m) as pl. generalize (m_out m) as ol. induction ol as [|o ol IH]; intros [|p pl] Q; try discriminate Q.
    - split; [intros _ u []|reflexivity].
    - cbn [map] in Q. injection Q as Q1 Q2. cbn [map]. split.
      + intros E. injection E as E1 E2. intros u [<-|Hu]; [now rewrite <- Q1|]. now apply (proj1 (IH pl Q2)).
      + intros H. f_equal; [|apply (proj2 (IH pl Q2)); intros u Hu; apply H; now right].
        assert (K := H p (or_introl eq_refl)). now rewrite <- Q1 in K. }
  rewrite X. split.
  - intros H u Hu. destruct (next_in t u) as [v|] eqn:E; auto. destruct (from_before t u) eqn:F; auto. cbn [negb orb].
    apply Nat.eqb_eq. assert (K := H u (proj2 (prev_from u) F)). now rewrite E in K.
  - intros H u Hu. assert (F := proj1 (prev_from u) Hu). assert (I : In u (seq 0 n)) by (apply in_seq; assert (X1 := from_before_lt u F); lia).
    specialize (H u I). destruct (next_in t u) as [v|] eqn:E; auto. rewrite F in H. cbn [negb orb] in H. now apply Nat.eqb_eq.
Qed.

Lemma priors_mm : forall l a, incl l (m_indep m) -> priors mm l a = priors m l a.
Proof.
  intros l a Hl. unfold priors. apply qprod_map_ext. intros v Hv.
  rewrite all_marked_var; [reflexivity|]. apply (mo_indep _ _ (so_model _ _ (pa_slices _ _ _ P))). now apply Hl.
Qed.
Lemma prior_factors : forall l a, incl l (m_indep m) -> valid card a ->
  priors m l a = qprod (map (fun v => factor_of t (decl_of t v) a) l).
Proof.
  intros l a Hl Ha. unfold priors. f_equal. apply map_ext_in. intros v Hv. apply Hl in Hv. rewrite (pa_indep _ _ _ P) in Hv.
  apply filter_In in Hv. destruct Hv as (Hv & B). apply in_seq in Hv.
  destruct (pa_priors _ _ _ P v) as (l' & -> & Q); [lia| |auto]. destruct (parents_of t (decl_of t v)); [auto|discriminate].
Qed.

Lemma slice_first : forall a, valid card a -> (original mm a * priors mm (m_indep mm) a)%Qc = slice t true a.
Proof.
  intros a Ha. change (original mm a) with (original m a). change (m_indep mm) with (m_indep m). rewrite priors_mm by apply incl_refl.
  rewrite (whole_joint t NO names m P a Ha), (proper_joint t NO CF PR a Ha). unfold file_joint, slice. f_equal. f_equal.
  cbn [orb]. induction (n_potentials t) as [|d l IH]; cbn; congruence.
Qed.
Lemma slice_later : forall a, valid card a ->
  (original mm a * priors mm (filter (fun v => negb (existsb (Nat.eqb v) (m_prev mm))) (m_indep mm)) a)%Qc = slice t false a.
Proof.
  intros a Ha. change (original mm a) with (original m a). change (m_indep mm) with (m_indep m). change (m_prev mm) with (m_prev m).
  assert (I : incl (filter (fun v => negb (existsb (Nat.eqb v) (m_prev m))) (m_indep m)) (m_indep m)).
  { intros v Hv. apply filter_In in Hv. tauto. }
  rewrite priors_mm, prior_factors by auto. destruct (pa_joint _ _ _ P a Ha) as (-> & _). rewrite (pa_indep _ _ _ P).
  unfold slice. cbn [orb]. rewrite (filter_perm t NO).
  transitivity (qprod (map (fun v => factor_of t (decl_of t v) a) (filter (fun v => negb (from_before t v)) (seq 0 n)))).
  - rewrite <- (qprod_split _ (fun v => match parents_of t (decl_of t v) with [] => true | _ => false end) _ (filter (fun v => negb (from_before t v)) (seq 0 n))).
    f_equal; f_equal; f_equal.
    + rewrite LearnProofs4.filter_filter. apply filter_ext_in. intros v Hv. apply in_seq in Hv.
      destruct (parents_of t (decl_of t v)) as [|u r] eqn:E; [now rewrite andb_false_r|].
      cbn [negb]. rewrite andb_true_r. symmetry. apply negb_true_iff. destruct (from_before t v) eqn:F; auto. exfalso.
      apply from_before_iff in F. apply (TS u v F). apply (parent_iff t NO). split; [lia|]. rewrite E. left. auto.
    + rewrite LearnProofs4.filter_filter, LearnProofs4.filter_filter. apply filter_ext. intros v. rewrite prev_existsb.
      apply andb_comm.
  - f_equal. etransitivity; [|symmetry; apply map_ext_in; intros v Hv; reflexivity].
    erewrite filter_ext_in. 1: apply map_ext_in.
    + intros v Hv. apply filter_In in Hv. destruct Hv as (Hv & _). apply in_seq in Hv. apply (proper_factor t NO CF PR); auto.
      apply (decl_of_ok t NO). lia.
    + intros v Hv. apply in_seq in Hv. cbv beta. now rewrite (proj2 (decl_of_ok t NO v ltac:(lia))).
Qed.

Section Series.
Variable ts : series.
Hypothesis FS : fit_series n ts.
Local Notation T := (s_length ts).

Lemma agrees_fits : forall s a, s < T -> agrees mm (to_ts ts) s a = record_fits t ts s a.
Proof.
  intros s a Hs. destruct FS as (ND & HV & HR & HL). apply eq_true_iff_eq. unfold agrees, record_fits. rewrite !forallb_forall.
  change (ts_observed (to_ts ts)) with (s_observed ts).
  destruct (s_observed ts) as [|o os] eqn:EO.
  { split; [|intros _ j []]. intros _ v _. unfold said. rewrite EO. reflexivity. }
  rewrite <- EO in *. assert (NE : s_observed ts <> []) by (rewrite EO; discriminate).
  assert (LR : len (nth s (s_data ts) []) = len (s_observed ts)).
  { rewrite Forall_forall in HR. apply HR. apply nth_In. rewrite HL by auto. exact Hs. }
  assert (EN : forall j, NipSpec.entry (to_ts ts) s j = nth j (nth s (s_data ts) []) 0%Z).
  { intros j. unfold NipSpec.entry, to_ts, rows_of. cbn [ts_data]. rewrite EO. rewrite firstn_all2 by (rewrite HL by auto; lia). reflexivity. }
  assert (MK : forall j, j < len (s_observed ts) ->
    Nat.eqb (Nat.land (v_mark (var mm (nth j (s_observed ts) 0))) MARK_ON) 0 = false).
  { intros j Hj. rewrite all_marked_var; [reflexivity|]. rewrite (pa_size _ _ _ P). apply HV. now apply nth_In. }
  split.
  - intros H v Hv. unfold said. assert (Q := find_combine (s_observed ts) (nth s (s_data ts) []) v ND LR).
    destruct (find _ _) as [(w & d)|]; auto. destruct Q as (j & H1 & H2 & H3 & _).
    assert (K := H j). rewrite EN, H3, MK, H2 in K by auto. cbn [orb] in K.
    assert (Ij : In j (seq 0 (len (s_observed ts)))) by (apply in_seq; lia). assert (K' := K Ij). destruct (Z.ltb_spec d 0); auto. cbn [orb] in K'. apply Z.eqb_eq in K'.
    apply Nat.eqb_eq. rewrite K'. symmetry. apply Nat2Z.id.
  - intros H j Hj. apply in_seq in Hj. rewrite EN, MK by lia. cbn [orb].
    assert (V : nth j (s_observed ts) 0 < n) by (apply HV, nth_In; lia).
    assert (Iv : In (nth j (s_observed ts) 0) (seq 0 n)) by (apply in_seq; lia).
    assert (K := H (nth j (s_observed ts) 0) Iv). unfold said in K.
    assert (Q := find_combine (s_observed ts) (nth s (s_data ts) []) (nth j (s_observed ts) 0) ND LR).
    destruct (find _ _) as [(w & d)|]; [|exfalso; apply Q, nth_In; lia]. destruct Q as (i & H1 & H2 & H3 & _).
    assert (i = j) by (apply (proj1 (NoDup_nth (s_observed ts) 0) ND); auto; lia). subst i. rewrite H3.
    destruct (Z.ltb_spec d 0); auto. cbn [orb]. apply Nat.eqb_eq in K. rewrite K. apply Z.eqb_eq. rewrite Z2Nat.id; lia.
Qed.

Lemma step_valid : forall a s, valid (fun i => card (i mod n)) a -> valid card (moment n a s).
Proof.
  intros a s Ha v. unfold moment. destruct (Nat.ltb_spec v n) as [L|L]; [|apply card_pos].
  assert (K := Ha (s * n + v)). cbv beta in K. replace ((s * n + v) mod n) with v in K; auto.
  rewrite Nat.add_comm, Nat.mod_add by lia. symmetry. now apply Nat.mod_small.
Qed.

Lemma unrolled_course : forall S E a, E <= T -> valid (fun i => card (i mod n)) a ->
  unrolled mm (to_ts ts) S E a = course t ts S E a.
Proof.
  intros S E a HE Ha. unfold unrolled, course. apply qprod_map_ext. intros s _. rewrite mm_len. unfold at_step.
  assert (V := step_valid a s Ha). f_equal.
  - destruct (Nat.ltb_spec s E); auto. cbn [negb orb]. apply agrees_fits. lia.
  - unfold slice_factor. rewrite mm_len. destruct s as [|s]; cbn [Nat.eqb given].
    + now apply slice_first.
    + now rewrite linked_follows, slice_later.
Qed.
Lemma valid_all : valid (fun i => card (i mod n)) (fun _ => 0).
Proof. intros v. apply card_pos. Qed.
Lemma sum_total : forall S f g, (forall a, valid (fun i => card (i mod n)) a -> f a = g a) -> sum_steps card mm S f = total t S g.
Proof. intros S f g H. unfold sum_steps, total. rewrite mm_len. apply sumv_ext; auto using valid_all. Qed.

Lemma posterior_chance : forall S E s v x, E <= T -> posterior_at card mm (to_ts ts) S E s v x = chance t ts S E s v x.
Proof.
  intros S E s v x HE. unfold posterior_at, chance, evidence. f_equal; [|f_equal].
  - apply sum_total. intros a Ha. rewrite mm_len, unrolled_course by auto. reflexivity.
  - apply sum_total. intros a Ha. now apply unrolled_course.
Qed.
Lemma evidence_sum : forall S E, E <= T -> sum_steps card mm S (unrolled mm (to_ts ts) S E) = evidence t ts S E.
Proof. intros S E HE. apply sum_total. intros a Ha. now apply unrolled_course. Qed.

Lemma defined_possible : possible_series t ts -> defined card mm (to_ts ts).
Proof.
  intros H. unfold defined. rewrite (to_ts_len n ts FS). destruct H as [(u & Hu)|H].
  - left. change (m_out mm) with (m_out m). intros E. assert (Q := pa_out _ _ _ P). rewrite E in Q. apply prev_from in Hu.
    destruct (m_prev m); [destruct Hu|discriminate Q].
  - right. now rewrite evidence_sum.
Qed.

Lemma course_nonneg : forall S E a, valid (fun i => card (i mod n)) a -> (0 <= course t ts S E a)%Qc.
Proof.
  intros S E a Ha. apply qprod_nonneg. intros s _. apply given_nonneg, given_nonneg. apply qprod_nonneg. intros d Hd.
  apply filter_In in Hd. destruct Hd as (Hd & _). destruct (table_of_table t NO d (no_decl t NO d Hd)) as (A & B).
  eapply den_nonneg; eauto. now apply step_valid.
Qed.
Lemma chance_range : forall S E s v x, (0 <= chance t ts S E s v x)%Qc /\ (chance t ts S E s v x <= 1)%Qc.
Proof.
  intros S E s v x. unfold chance, evidence, total. set (c := fun i => card (i mod n)).
  set (A := sumv c _ (fun a => given _ _) _). set (B := sumv c _ (course t ts S E) _).
  assert (A0 : (0 <= A)%Qc). { apply sumv_nonneg; [exact valid_all|]. intros b Hb. apply given_nonneg. now apply course_nonneg. }
  assert (B0 : (0 <= B)%Qc). { apply sumv_nonneg; [exact valid_all|]. intros b Hb. now apply course_nonneg. }
  assert (AB : (A <= B)%Qc).
  { apply sumv_le; [exact valid_all|]. intros b Hb. assert (K := course_nonneg S E b Hb). destruct (Nat.eqb _ _); cbn [given]; [apply Qcle_refl|exact K]. }
  split; [now apply Qc_div_nonneg|]. destruct (Qc_eq_dec B 0%Qc) as [Z|Z].
  - rewrite Z. unfold Qcdiv. replace (/ 0)%Qc with 0%Qc by (apply Qc_is_canon; reflexivity). rewrite Qcmult_0_r. discriminate.
  - assert (BP : (0 < B)%Qc). { destruct (Qcle_lt_or_eq _ _ B0) as [|K]; auto. now symmetry in K. }
    apply (Qcmult_lt_0_le_reg_r _ _ B BP). unfold Qcdiv. rewrite <- Qcmult_assoc, (Qcmult_comm (/ B)), Qcmult_inv_r by auto.
    now rewrite Qcmult_1_r, Qcmult_1_l.
Qed.
End Series.
End File.
