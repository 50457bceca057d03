(** * Proofs: rounds of learning as estimates *)
From Coq Require Import String Ascii Permutation QArith.Qcanon Field.
From Verif Require Import Base BaseProofs StringSpec PotentialModel PotentialSpec PotentialProofs VariableModel AssignSpec AssignProofs
  JoinTreeModel JoinTreeSpec JoinTreeProofs NipModel NipSpec NipProofs NipProofs2 SliceModel SliceSpec SliceProofs SliceProofs2 SliceProofs4
  LearnModel LearnSpec LearnProofs2 LearnProofs3 LearnProofs4 LearnProofs5 SeriesFileModel SeriesFileSpec
  GraphModel ParseModel ParseSpec ParseProofs3 ParseProofs5 ParseProofs6 ParseProofs8 ParseProofs9
  NetLexModel NetGrammarModel NetSpec WriteSpec WriteProofs9 LearnProofs8 ToolModel ToolSpec ToolSpec3 ToolProofs ToolProofs9.
Import ListNotations.
Open Scope nat_scope.
Local Open Scope res_scope.
Local Notation len := List.length.

Add Field Qcfield_tool10 : Qcft.

Lemma marked_same : forall m, (forall v, v < len (m_vars m) -> v_mark (var m v) = MARK_ON) -> all_marked m = m.
Proof.
  intros m H. unfold all_marked. replace (map _ (m_vars m)) with (m_vars m); [now destruct m|].
  rewrite <- (map_id (m_vars m)) at 1. apply map_ext_in. intros x Hx. apply (In_nth _ _ (nth 0 (m_vars m) x)) in Hx. destruct Hx as (v & Hv & <-).
  specialize (H v Hv). unfold var in H. rewrite (nth_indep _ _ (nth 0 (m_vars m) x) Hv) in H.
  revert H. generalize (nth v (m_vars m) (nth 0 (m_vars m) x)). intros y H. rewrite <- H. now destruct y.
Qed.
Lemma parsed_marked : forall t names m, parsed t names m -> parsed t names (all_marked m).
Proof.
  intros t names m P. assert (LN := all_marked_len m).
  assert (V : forall v, v < len (m_vars m) -> var (all_marked m) v = set_vmark (var m v) MARK_ON).
  { intros v Hv. unfold var. cbn [all_marked m_vars]. erewrite nth_indep by (rewrite map_length; exact Hv). now rewrite map_nth. }
  assert (VP : forall v, v_parents (var (all_marked m) v) = v_parents (var m v)).
  { intros v. destruct (Nat.lt_ge_cases v (len (m_vars m))) as [Hv|Hv]; [now rewrite V by auto|].
    unfold var. rewrite !nth_overflow; auto. cbn [all_marked m_vars]. now rewrite map_length. }
  constructor; try apply P.
  - apply all_marked_slices. apply P.
  - rewrite LN. apply P.
  - destruct (pa_names _ _ _ P) as (A & B). split; [now rewrite LN|]. intros v nv H. assert (Hv : v < len (m_vars m)) by (rewrite <- A; apply nth_error_Some; congruence).
    exact (B v nv H).
  - intros v Hv. rewrite VP. now apply P.
  - intros v Hv. rewrite V by (rewrite (pa_size _ _ _ P); auto). now apply P.
  - intros k a Hk Ha. cbn [all_marked m_jt]. rewrite (pa_factored _ _ _ P) by auto. f_equal. f_equal. rewrite LN. unfold housed. apply filter_ext. intros v.
    unfold has_parents, home, family. now rewrite VP.
  - intros v Hv HP. rewrite V by (rewrite (pa_size _ _ _ P); auto). now apply P.
  - intros v Hv. rewrite V by (rewrite (pa_size _ _ _ P); auto). now apply P.
  - intros v Hv. right. rewrite V by (rewrite (pa_size _ _ _ P); auto). reflexivity.
Qed.

Lemma Qcplus_pos : forall x y, (0 < x)%Qc -> (0 <= y)%Qc -> (0 < x + y)%Qc.
Proof. intros x y Hx Hy. apply Qclt_le_trans with (x + 0)%Qc; [now rewrite Qcplus_0_r|]. apply Qcplus_le_compat; [apply Qcle_refl|auto]. Qed.
Lemma qsum_pos : forall l, l <> [] -> (forall x, In x l -> (0 < x)%Qc) -> (0 < qsum l)%Qc.
Proof.
  intros l NE H. destruct l as [|x l]; [congruence|]. clear NE. cbn [qsum fold_right]. apply Qcplus_pos; [apply H; now left|].
  assert (K : forall y, In y l -> (0 < y)%Qc) by (intros; apply H; now right). clear H. induction l as [|z l IH]; [apply Qcle_refl|].
  cbn [fold_right]. apply Qclt_le_weak, Qcplus_pos; [apply K; now left|]. apply IH. intros; apply K; now right.
Qed.
Lemma sumv_pos : forall card vs f a, (forall v, 0 < card v) -> (forall b, valid card b -> (0 < f b)%Qc) -> valid card a -> (0 < sumv card vs f a)%Qc.
Proof.
  intros card vs f a C H. revert a. induction vs as [|v vs IH]; intros a Ha; cbn [sumv]; auto. apply qsum_pos.
  - intros E. apply map_eq_nil in E. specialize (C v). destruct (card v); [lia|discriminate].
  - intros x Hx. apply in_map_iff in Hx. destruct Hx as (k & <- & Hk). apply in_seq in Hk. apply IH. apply upd_valid; auto. lia.
Qed.

Section Train.
Variable t : net.
Hypothesis NO : net_ok t.
Hypothesis CF : children_first t.
Hypothesis TS : two_slices t.
Variable names : list named_variable.
Variable m0 : model.
Hypothesis P : parsed t names m0.
Hypothesis MK : forall v, v < len (m_vars m0) -> v_mark (var m0 v) = MARK_ON.
Local Notation card := (card_in t).
Local Notation n := (ParseSpec.size t).
Local Notation fam v := (family_of t (decl_of t v)).
Local Notation good := (good_tables t).

Lemma base_learnable : learnable card m0.
Proof. eapply parsed_learnable; eauto. now apply acyclic_children_first. Qed.
Lemma base_len : len (m_vars m0) = n.
Proof. apply P. Qed.
Lemma base_family : forall v, v < n -> family m0 v = fam v.
Proof. intros v Hv. now apply (parsed_family t NO names m0 P). Qed.
Lemma base_nodup : forall v, v < n -> NoDup (fam v).
Proof. intros v Hv. rewrite <- base_family by auto. apply (le_family _ _ base_learnable). now rewrite base_len. Qed.
Lemma cards_pos : forall v, 0 < card v.
Proof. intro. now apply card_in_pos. Qed.

(** Parameters without zeros, as distributions. *)
Definition positive_params (m : model) (ps : list potential) : Prop :=
  forall v a, v < len (m_vars m) -> valid card a -> (0 < den (family m v) (param ps v) a)%Qc.
Lemma Qcdiv_pos : forall x y, (0 < x)%Qc -> (0 < y)%Qc -> (0 < x / y)%Qc.
Proof.
  intros x y Hx Hy. unfold Qcdiv. apply Qc_mul_pos; auto. now apply Qc_inv_pos.
Qed.
Lemma column_pos : forall ps, positive_params m0 ps -> forall v a, v < n -> valid card a -> (0 < LearnSpec.column card m0 ps v a)%Qc.
Proof.
  intros ps H v a Hv Ha. unfold LearnSpec.column. apply sumv_pos; auto using cards_pos.
  intros b Hb. apply H; auto. now rewrite base_len.
Qed.
Definition same_cond (ps qs : list potential) : Prop :=
  forall v a, v < n -> valid card a -> LearnSpec.cond card m0 qs v a = LearnSpec.cond card m0 ps v a.
Lemma gain_tables : forall ps, params_ok card m0 ps -> positive_params m0 ps -> exists qs, good qs /\ same_cond ps qs.
Proof.
  intros ps HP PP. exists (map (fun v => tabulated card (fam v) (LearnSpec.cond card m0 ps v)) (seq 0 n)).
  assert (PA : forall v, v < n -> param (map (fun v => tabulated card (fam v) (LearnSpec.cond card m0 ps v)) (seq 0 n)) v = tabulated card (fam v) (LearnSpec.cond card m0 ps v)).
  { intros v Hv. unfold param. rewrite (nth_indep _ _ (tabulated card (fam 0) (LearnSpec.cond card m0 ps 0))) by now rewrite map_length, seq_length.
    rewrite (map_nth (fun v => tabulated card (fam v) (LearnSpec.cond card m0 ps v))). now rewrite seq_nth. }
  assert (TB : forall v, v < n -> AssignSpec.table card (fam v) (tabulated card (fam v) (LearnSpec.cond card m0 ps v)) /\
     forall a, valid card a -> den (fam v) (tabulated card (fam v) (LearnSpec.cond card m0 ps v)) a = LearnSpec.cond card m0 ps v a).
  { intros v Hv. apply tabulated_ok; auto using cards_pos, base_nodup.
    - destruct HP as (_ & HP). destruct (HP v) as ((_ & _ & W) & D & _); [now rewrite base_len|]. rewrite D, base_family in W by auto. exact W.
    - rewrite <- base_family by auto. apply (cond_dep card m0 base_learnable). now rewrite base_len. }
  assert (G : good (map (fun v => tabulated card (fam v) (LearnSpec.cond card m0 ps v)) (seq 0 n))).
  { intros v Hv. rewrite PA by auto. destruct (TB v Hv) as (T1 & T2). split; auto. split.
    - intros a Ha. rewrite T2 by auto. unfold LearnSpec.cond. apply Qcdiv_pos; [|now apply column_pos]. apply PP; auto. now rewrite base_len.
    - intros a Ha. rewrite <- (cond_sum card m0 base_learnable ps v a); auto.
      + apply sumv_ext; auto.
      + now rewrite base_len.
      + apply Qc_pos_neq. now apply column_pos. }
  split; auto. intros v a Hv Ha. rewrite (good_cond t NO _ G names m0 P) by auto. rewrite PA by auto. now apply TB.
Qed.
Lemma cond_structure : forall m ps v a, same_structure m0 m -> LearnSpec.cond card m ps v a = LearnSpec.cond card m0 ps v a.
Proof. intros m ps v a S. unfold LearnSpec.cond, LearnSpec.column. now rewrite (structure_family m0 m v S). Qed.
Lemma installed_here : forall m ps qs m', same_structure m0 m -> same_structure m0 m' -> same_cond ps qs -> installed card m ps m' -> installed card m0 qs m'.
Proof.
  intros m ps qs m' S S' C (I1 & I2 & I3). assert (LN : len (m_vars m) = n) by (rewrite <- base_len; apply S).
  assert (LN' : len (m_vars m') = n) by (rewrite <- base_len; apply S').
  assert (VP : forall v, v_parents (var m v) = v_parents (var m0 v)) by (intros v; apply S).
  split; [|split].
  - intros a Ha. rewrite I1 by auto. unfold product_cond. rewrite LN, base_len. rewrite (filter_ext (has_parents m) (has_parents m0)).
    + apply qprod_map_ext. intros v Hv. apply filter_In in Hv. destruct Hv as (Hv & _). apply in_seq in Hv.
      rewrite (cond_structure m ps v a S). symmetry. apply C; [lia|auto].
    + intros v. unfold has_parents. now rewrite VP.
  - intros k a Hk Ha. rewrite I2 by auto. apply qprod_map_ext. intros v Hv. unfold housed in Hv. apply filter_In in Hv. destruct Hv as (Hv & _).
    apply in_seq in Hv. rewrite (cond_structure m ps v a S). symmetry. apply C; [lia|auto].
  - intros v Hv HP. destruct (I3 v) as (l & El & Q). { rewrite LN, <- base_len. exact Hv. } { now rewrite VP. } exists l. split; auto.
    intros a Ha. rewrite Q by auto. rewrite (cond_structure m ps v a S). symmetry. apply C; auto. now rewrite <- base_len.
Qed.

(** A model that has the tables [qs]. *)
Definition has_tables (qs : list potential) (m : model) : Prop :=
  good qs /\ learnable card m /\ same_structure m0 m /\ installed card m0 qs m.
Local Notation net_of qs := (with_tables t qs).

Section Stand.
Variable qs : list potential.
Variable m : model.
Hypothesis H : has_tables qs m.
Local Notation u := (net_of qs).
Variable ts : series.
Hypothesis FS : fit_series n ts.

Lemma stands : exists m', same_model m m' /\ parsed u names m' /\ all_marked m' = m'.
Proof.
  destruct H as (G & HL & SS & I). destruct (with_stands t NO CF qs G names m0 P m HL SS I) as (m' & S & Pm). exists m'. split; auto. split; auto.
  apply marked_same. intros v Hv. assert (S' := same_structure_trans _ _ _ SS (same_structure_model _ _ S)).
  destruct S' as (_ & _ & L & V & _). destruct (V v) as (_ & _ & _ & ->). apply MK. lia.
Qed.
Lemma likelihood_net : LearnSpec.likelihood card m (to_ts ts) = evidence u ts (s_length ts) (s_length ts).
Proof.
  destruct stands as (m' & S & Pm & AM). destruct H as (G & _). rewrite <- (likelihood_same card m m' (to_ts ts) S). unfold LearnSpec.likelihood.
  rewrite (to_ts_len n ts FS). rewrite <- AM.
  exact (evidence_sum u (with_ok t NO qs G) (with_children_first t CF qs) (with_proper t NO qs G) (with_two_slices t TS qs) names m' Pm ts FS (s_length ts) (s_length ts) (le_n _)).
Qed.
Lemma expected_net : forall v x, v < n -> valid card x ->
  expected card m (to_ts ts) v (map x (fam v)) =
  qsum (map (fun s => given (Nat.eqb s 0 || negb (from_before u v)) (family_chance u ts s v x)) (seq 0 (s_length ts))).
Proof.
  intros v x Hv Hx. destruct stands as (m' & S & Pm & AM). destruct H as (G & _). rewrite <- (expected_same card m m' (to_ts ts) v _ S). unfold expected.
  rewrite (to_ts_len n ts FS). apply f_equal. apply map_ext_in. intros s Hs. apply in_seq in Hs.
  assert (EO : v_old (var m' v) = from_before u v).
  { apply Bool.eq_iff_eq_true. rewrite (pa_old _ _ _ Pm v Hv). symmetry. apply (from_before_iff u). }
  rewrite EO. f_equal. unfold family_at, family_chance. rewrite (to_ts_len n ts FS).
  assert (SU := sum_total u names m' Pm (s_length ts)).
  assert (UC := unrolled_course u (with_ok t NO qs G) (with_children_first t CF qs) (with_proper t NO qs G) (with_two_slices t TS qs) names m' Pm ts FS (s_length ts) (s_length ts)).
  rewrite AM in SU, UC. f_equal; [|f_equal]; apply SU; intros a Ha.
  - rewrite UC by auto. f_equal. rewrite (parsed_family u (with_ok t NO qs G) names m' Pm) by auto. rewrite (pa_size _ _ _ Pm).
    change (moment (ParseSpec.size u) a s) with (at_step u a s). rewrite (with_decl t NO qs v Hv). change (family_of u _) with (fam v).
    clear. induction (fam v) as [|w l IH]; cbn [map forallb]; [reflexivity|]. now rewrite ix_eqb_cons, IH.
  - now apply UC.
Qed.
End Stand.
End Train.
