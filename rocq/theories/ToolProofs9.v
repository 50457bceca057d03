(** * Proofs: a network with other tables, and the model that stands for it *)
From Coq Require Import String Ascii Permutation QArith.Qcanon Field.
From Verif Require Import Base BaseProofs StringSpec PotentialModel PotentialSpec PotentialProofs VariableModel AssignSpec AssignProofs
  JoinTreeModel JoinTreeSpec JoinTreeProofs NipModel NipSpec NipProofs NipProofs2 SliceModel SliceSpec SliceProofs2
  LearnModel LearnSpec LearnProofs2 LearnProofs3 LearnProofs4 SeriesFileModel SeriesFileSpec
  GraphModel ParseModel ParseSpec ParseProofs3 ParseProofs5 ParseProofs6 ParseProofs8 ParseProofs9
  NetLexModel NetGrammarModel NetSpec WriteSpec WriteProofs9 ToolModel ToolSpec ToolSpec3 ToolProofs.
Import ListNotations.
Open Scope nat_scope.
Local Open Scope res_scope.
Local Notation len := List.length.

Add Field Qcfield_tool9 : Qcft.

(** ** Tables from functions *)
Fixpoint setting (vs ix : list nat) : nat -> nat :=
  match vs, ix with
  | v :: vs, x :: ix => upd (setting vs ix) v x
  | _, _ => fun _ => 0
  end.
Lemma setting_map : forall vs ix, NoDup vs -> len ix = len vs -> map (setting vs ix) vs = ix.
Proof.
  induction vs as [|v vs IH]; intros [|x ix] ND L; try discriminate L; auto. cbn [setting map]. inversion ND; subst. f_equal.
  - apply upd_same.
  - rewrite <- (IH ix) at 2 by (auto; cbn in L; lia). apply map_ext_in. intros w Hw. apply upd_other. congruence.
Qed.
Lemma setting_valid : forall card vs ix, (forall v, 0 < card v) -> valid_ix (map card vs) ix -> valid card (setting vs ix).
Proof.
  intros card. induction vs as [|v vs IH]; intros ix C H; cbn [map] in H; inversion H; subst; cbn [setting]; [intro; auto|].
  apply upd_valid; auto.
Qed.
Definition tabulated (card : nat -> nat) (vs : list nat) (f : (nat -> nat) -> Qc) : potential :=
  mkPot (map card vs) (map (fun ix => f (setting vs ix)) (all_ix (map card vs))).
Lemma tabulated_ok : forall card vs f, (forall v, 0 < card v) -> NoDup vs -> (Z.of_nat (prod (map card vs)) <= INT_MAX)%Z -> dep vs f ->
  AssignSpec.table card vs (tabulated card vs f) /\ forall a, valid card a -> den vs (tabulated card vs f) a = f a.
Proof.
  intros card vs f C ND FI D. unfold tabulated. split.
  - split; auto. split; [|reflexivity]. split; [apply Forall_map, Forall_forall; auto|]. cbn [data dims].
    split; auto. now rewrite map_length, all_ix_length.
  - intros a Ha. unfold den, cell. cbn [data dims].
    assert (V : valid_ix (map card vs) (map a vs)). { clear -Ha. unfold valid_ix. induction vs; cbn; constructor; auto. }
    rewrite all_ix_unflat, map_map. set (g := fun x => f (setting vs (unflat (map card vs) x))).
    rewrite (nth_indep _ 0%Qc (g 0)) by (rewrite map_length, seq_length; now apply flat_lt).
    rewrite map_nth, seq_nth by now apply flat_lt. unfold g. cbn [plus]. rewrite unflat_flat by auto. apply D. intros w Hw.
    assert (K := setting_map vs (map a vs) ND (map_length _ _)). apply (In_nth _ _ 0) in Hw. destruct Hw as (i & Hi & <-).
    apply (f_equal (fun l => nth i l (a 0))) in K. rewrite map_nth in K.
    rewrite (nth_indep _ _ (setting vs (map a vs) 0)) in K by now rewrite map_length. now rewrite map_nth in K.
Qed.
Lemma find_map : forall A B (f : A -> B) p l, find p (map f l) = option_map f (find (fun x => p (f x)) l).
Proof. induction l as [|x l IH]; cbn; auto. destruct (p (f x)); auto. Qed.
Lemma Qc_pos_neq : forall x, (0 < x)%Qc -> x <> 0%Qc.
Proof. intros x H ->. now apply Qclt_not_eq in H. Qed.

(** ** The network with the tables [qs] *)
Definition with_tables (t : net) (qs : list potential) : net :=
  mkNet (n_nodes t)
    (map (fun d => mkDecl (pd_child d) (pd_parents d) (Some (data (param qs (child_of t d))))) (n_potentials t)).

Section With.
Variable t : net.
Hypothesis NO : net_ok t.
Hypothesis CF : children_first t.
Hypothesis TS : two_slices t.
Local Notation card := (card_in t).
Local Notation n := (ParseSpec.size t).
Local Notation fam v := (family_of t (decl_of t v)).

(** Tables of positive conditional distributions. *)
Definition good_tables (qs : list potential) : Prop :=
  forall v, v < n -> AssignSpec.table card (fam v) (param qs v) /\ (forall a, valid card a -> (0 < den (fam v) (param qs v) a)%Qc) /\
    forall a, valid card a -> sumv card [v] (den (fam v) (param qs v)) a = 1%Qc.
Variable qs : list potential.
Hypothesis GT : good_tables qs.
Local Notation u := (with_tables t qs).
Local Notation new d := (mkDecl (pd_child d) (pd_parents d) (Some (data (param qs (child_of t d))))).

Lemma with_network : same_network t u.
Proof. split; [reflexivity|]. cbn [with_tables n_potentials]. rewrite !map_map. split; reflexivity. Qed.
Lemma with_decl : forall v, v < n -> decl_of u v = new (decl_of t v).
Proof.
  intros v Hv. destruct (decl_of_ok t NO v Hv) as (A & B). unfold decl_of in *. cbn [with_tables n_potentials]. rewrite find_map.
  change (find (fun x => child_of u (new x) =? v) (n_potentials t)) with (find (fun x => child_of t x =? v) (n_potentials t)).
  destruct (find _ (n_potentials t)) as [d|] eqn:E; [reflexivity|]. exfalso.
  assert (I : In v (map (child_of t) (n_potentials t))) by (eapply Permutation_in; [symmetry; apply (children_perm t NO)|apply in_seq; lia]).
  apply in_map_iff in I. destruct I as (d & Ed & Hd). assert (K := find_none _ _ E d Hd). cbn in K. rewrite Ed, Nat.eqb_refl in K. discriminate.
Qed.
Lemma with_family : forall d, family_of u (new d) = family_of t d.
Proof. reflexivity. Qed.
Lemma with_table : forall d, In d (n_potentials t) -> table_of u (new d) = param qs (child_of t d).
Proof.
  intros d Hd. assert (Hv : child_of t d < n).
  { assert (I := in_map (child_of t) _ _ Hd). eapply Permutation_in in I; [|apply (children_perm t NO)]. apply in_seq in I. lia. }
  destruct (GT _ Hv) as ((_ & (_ & L & _) & D) & _). rewrite (decl_of_child t NO d Hd) in D. unfold table_of. cbn [pd_data].
  assert (EC : cells_of u (new d) = len (data (param qs (child_of t d)))).
  { rewrite L, D. reflexivity. }
  rewrite EC, firstn_all. change (map (card_in u) (family_of u (new d))) with (map card (family_of t d)). rewrite <- D. now destruct (param qs (child_of t d)).
Qed.
Lemma with_entry : forall v a, v < n -> WriteSpec.entry u v a = den (fam v) (param qs v) a.
Proof.
  intros v a Hv. destruct (decl_of_ok t NO v Hv) as (A & B). unfold WriteSpec.entry. rewrite with_decl by auto. rewrite with_table by auto. now rewrite B.
Qed.
Lemma with_parent : forall x v, parent u x v <-> parent t x v.
Proof.
  intros x v. unfold parent. cbn [with_tables n_potentials]. split.
  - intros (d & Hd & E & I). apply in_map_iff in Hd. destruct Hd as (d0 & <- & Hd0). exists d0. auto.
  - intros (d & Hd & E & I). exists (new d). split; auto. apply in_map_iff. exists d. auto.
Qed.
Lemma with_old : forall v, old_outgoing u v <-> old_outgoing t v.
Proof.
  intros v. unfold old_outgoing. change (next_in u v) with (next_in t v). split; intros (A & w & B); (split; [auto|]); exists w; now apply with_parent.
Qed.
Lemma with_connected : forall x v, connected u x v -> connected t x v.
Proof.
  intros x v [(d & Hd & A & B)|[(A & B)|((y & A & A') & (z & B & B'))]].
  - left. cbn [with_tables n_potentials] in Hd. apply in_map_iff in Hd. destruct Hd as (d0 & <- & Hd0). exists d0. auto.
  - right; left. split; now apply with_old.
  - right; right. split; [exists y|exists z]; (split; [assumption|now apply with_old]).
Qed.
Lemma with_children_first : children_first u.
Proof. intros x v H. apply CF. now apply with_parent. Qed.
Lemma with_two_slices : two_slices u.
Proof. intros x v H K. apply (TS x v); [now apply with_old|now apply with_parent]. Qed.
Lemma with_proper : proper u.
Proof.
  intros d a Hd Ha. cbn [with_tables n_potentials] in Hd. apply in_map_iff in Hd. destruct Hd as (d0 & <- & Hd0).
  rewrite with_table by auto. assert (I := in_map (child_of t) _ _ Hd0). eapply Permutation_in in I; [|apply (children_perm t NO)]. apply in_seq in I.
  destruct (GT (child_of t d0) ltac:(lia)) as (_ & _ & K). rewrite (decl_of_child t NO d0 Hd0) in K. exact (K a Ha).
Qed.
Lemma with_roots : roots_given u.
Proof. intros d Hd _. cbn [with_tables n_potentials] in Hd. apply in_map_iff in Hd. destruct Hd as (d0 & <- & _). discriminate. Qed.
Lemma with_positive : positive_tables u.
Proof. intros v a Hv Ha. change (ParseSpec.size u) with n in Hv. rewrite with_entry by auto. now apply GT. Qed.
Lemma with_columns : columns_ok u.
Proof. intros d a Hd Ha. rewrite with_proper by auto. discriminate. Qed.
Lemma with_ok : net_ok u.
Proof.
  constructor.
  - apply NO.
  - apply NO.
  - apply NO.
  - apply NO.
  - cbn [with_tables n_potentials]. rewrite map_map. apply NO.
  - intros d Hd. cbn [with_tables n_potentials] in Hd. apply in_map_iff in Hd. destruct Hd as (d0 & <- & Hd0).
    destruct (no_decl t NO d0 Hd0) as (A & B & C & _ & E). split; [exact A|]. split; [exact B|]. split; [exact C|]. split; [|exact E].
    intros l El. cbn [pd_data] in El. injection El as <-.
    assert (I := in_map (child_of t) _ _ Hd0). eapply Permutation_in in I; [|apply (children_perm t NO)]. apply in_seq in I.
    destruct (GT (child_of t d0) ltac:(lia)) as (T & K & _). rewrite (decl_of_child t NO d0 Hd0) in T, K. destruct T as (ND & W & D). split.
    + change (cells_of u (new d0)) with (prod (map card (family_of t d0))). destruct W as (_ & L & _). rewrite L, D. auto.
    + apply (nonneg_cells _ W). intros ix Hix. rewrite D in Hix.
      destruct (ix_assignment card (family_of t d0) ix (fun _ => 0)) as (a & Va & <- & _); auto. { intro. now apply card_in_pos. }
      apply Qclt_le_weak. now apply K.
  - apply NO.
  - apply NO.
  - intros d Hd HP. cbn [with_tables n_potentials] in Hd. apply in_map_iff in Hd. destruct Hd as (d0 & <- & Hd0). rewrite with_table by auto.
    assert (I := in_map (child_of t) _ _ Hd0). eapply Permutation_in in I; [|apply (children_perm t NO)]. apply in_seq in I.
    destruct (GT (child_of t d0) ltac:(lia)) as ((ND & W & D) & K & _). set (p := param qs (child_of t d0)) in *.
    assert (V : valid card (fun _ => 0)) by (intro; now apply card_in_pos).
    exists (den (fam (child_of t d0)) p (fun _ => 0)). split; [|now apply K]. unfold den, cell. apply nth_In.
    destruct W as (_ & L & _). rewrite L. apply flat_lt. rewrite D. unfold valid_ix. clear -V.
    induction (fam (child_of t d0)); cbn; constructor; auto.
  - apply NO.
Qed.
Lemma with_printable : printable t -> printable u.
Proof.
  intros PR. constructor; try apply PR. intros d Hd. cbn [with_tables n_potentials] in Hd. apply in_map_iff in Hd. destruct Hd as (d0 & <- & Hd0).
  exact (pr_parents _ PR d0 Hd0).
Qed.
Lemma with_factor : forall v a, v < n -> valid card a -> factor_of u (decl_of u v) a = den (fam v) (param qs v) a.
Proof.
  intros v a Hv Ha. rewrite <- with_entry by auto. apply (proper_factor u with_ok with_children_first with_proper); auto.
  apply (decl_of_ok u with_ok). exact Hv.
Qed.

(** ** The model *)
Variable names : list named_variable.
Variable m0 : model.
Hypothesis P : parsed t names m0.

Lemma good_cond : forall v a, v < n -> valid card a -> LearnSpec.cond card m0 qs v a = den (fam v) (param qs v) a.
Proof.
  intros v a Hv Ha. unfold LearnSpec.cond, LearnSpec.column. rewrite (parsed_family t NO _ _ P) by auto. destruct (GT v Hv) as (_ & _ & K). rewrite K by auto.
  field. discriminate.
Qed.
Lemma with_parents : forall v, v < n -> parents_of u (decl_of u v) = parents_of t (decl_of t v).
Proof. intros v Hv. now rewrite with_decl. Qed.
Lemma with_parsed : forall m, learnable card m -> same_structure m0 m -> installed card m0 qs m ->
  (forall v, v < len (m_vars m) -> v_lik (var m v) = repeat 1%Qc (card v) /\ v_entered (var m v) = false) ->
  (forall a, valid card a -> joint (m_jt m) a = original m a) -> parsed u names m.
Proof.
  intros m HL SS (I1 & I2 & I3) FR JO. destruct SS as (S1 & S2 & S3 & S4 & S5 & S6 & S7 & S8 & S9 & S10).
  assert (LN : len (m_vars m) = n) by (rewrite S3; apply P).
  assert (PE : filter (fun v => match parents_of u (decl_of u v) with [] => true | _ => false end) (seq 0 n)
                                 = filter (fun v => match parents_of t (decl_of t v) with [] => true | _ => false end) (seq 0 n)).
  { apply filter_ext_in. intros v Hv. apply in_seq in Hv. now rewrite with_parents by lia. }
  assert (PF : filter (fun v => match parents_of u (decl_of u v) with [] => false | _ => true end) (seq 0 n)
                                 = filter (fun v => match parents_of t (decl_of t v) with [] => false | _ => true end) (seq 0 n)).
  { apply filter_ext_in. intros v Hv. apply in_seq in Hv. now rewrite with_parents by lia. }
  constructor; change (ParseSpec.size u) with n; change (card_in u) with card.
  - apply HL.
  - exact LN.
  - destruct (pa_names _ _ _ P) as (A & B). split; [|exact B]. rewrite A. now rewrite S3.
  - exact (pa_symbols _ _ _ P).
  - exact (pa_states _ _ _ P).
  - intros v Hv. destruct (S4 v) as (_ & -> & _). rewrite with_parents by auto. now apply P.
  - intros v Hv. apply FR. now rewrite LN.
  - intros a Ha. split; [|now apply JO]. rewrite I1 by auto. unfold product_cond. rewrite PF, (pa_size _ _ _ P).
    rewrite (filter_ext_in (has_parents m0) (fun v => match parents_of t (decl_of t v) with [] => false | _ => true end)).
    + f_equal. apply map_ext_in. intros v Hv. apply filter_In in Hv. destruct Hv as (Hv & _). apply in_seq in Hv.
      rewrite with_factor by (auto; lia). apply good_cond; [lia|auto].
    + intros v Hv. apply in_seq in Hv. unfold has_parents. rewrite (pa_parents _ _ _ P) by lia. reflexivity.
  - intros k a Hk Ha. rewrite I2 by auto. apply qprod_map_ext. intros v Hv. unfold housed in Hv. apply filter_In in Hv. destruct Hv as (Hv & _).
    apply in_seq in Hv. rewrite LN in Hv. rewrite with_factor by (auto; lia). apply good_cond; [lia|auto].
  - intros v Hv HP. rewrite with_parents in HP by auto. destruct (I3 v) as (l & El & Q).
    + rewrite (pa_size _ _ _ P). auto.
    + now rewrite (pa_parents _ _ _ P).
    + exists l. split; auto. intros a Ha. rewrite Q by auto. rewrite with_factor by auto. now apply good_cond.
  - rewrite S5, (pa_indep _ _ _ P). symmetry. now apply PE.
  - rewrite S6, (pa_children _ _ _ P). now symmetry.
  - intros v. rewrite S8, (pa_prev _ _ _ P). now rewrite with_old.
  - rewrite S7, S8. exact (pa_out _ _ _ P).
  - intros v Hv. destruct (S4 v) as (_ & _ & -> & _). rewrite with_old. now apply P.
  - intros l HI HC. rewrite S1. destruct (pa_cliques _ _ _ P l HI) as (i & Hi & I).
    { intros x v Hx Hv D. apply with_connected. auto. }
    exists i. rewrite S2. auto.
  - rewrite S1. intros i j. rewrite !S2. apply (pa_maximal _ _ _ P).
  - intros v Hv. destruct (S4 v) as (_ & _ & _ & ->). now apply P.
Qed.
Lemma with_stands : forall m, learnable card m -> same_structure m0 m -> installed card m0 qs m ->
  exists m', same_model m m' /\ parsed u names m'.
Proof.
  intros m HL SS I. destruct (reset_model_ok card m (so_model _ _ (le_slices _ _ HL))) as (m' & _ & M & SM & FR & _ & JO).
  exists m'. split; auto. apply with_parsed.
  - eapply learnable_same; eauto.
  - eapply same_structure_trans; [exact SS|]. now apply same_structure_model.
  - destruct I as (I1 & I2 & I3). split; [|split].
    + intros a Ha. rewrite (same_original m m') by auto. auto.
    + eapply factored_same; eauto.
    + intros v Hv HP. destruct (I3 v Hv HP) as (l & El & Q). exists l. split; auto. destruct SM as (_ & _ & SV & _). destruct (SV v) as (_ & -> & _). auto.
  - intros v Hv. apply FR. destruct SM as (_ & L & _). lia.
  - intros a Ha. rewrite JO by auto. symmetry. now apply same_original.
Qed.
End With.
