(** * Proofs about evidence handling, part 3: names and histories *)
From Coq Require Import Permutation Field String.
From Verif Require Import Base BaseProofs PotentialModel PotentialSpec PotentialProofs
  PotentialProofs2 PotentialProofs3 VariableModel VariableProofs JoinTreeModel
  AssignSpec AssignProofs JoinTreeSpec JoinTreeProofs JoinTreeProofs2 JoinTreeProofs3
  JoinTreeProofs4 JoinTreeProofs5 JoinTreeProofs6 JoinTreeProofs7 NipModel NipSpec NipProofs NipProofs2.
Import ListNotations.
Open Scope nat_scope.
Local Open Scope res_scope.

Add Field Qcfield_nip3 : Qcft.

Lemma revivesb_spec : forall l e, revivesb l e = true <-> revives l e.
Proof. intros. apply reviveb_spec. Qed.

Lemma filter_all_false : forall A (f : A -> bool) l, (forall x, In x l -> f x = false) -> filter f l = [].
Proof.
  intros A f. induction l as [|x l IH]; intros H; auto. simpl. rewrite H by (simpl; auto).
  apply IH. intros; apply H; simpl; auto.
Qed.

(** ** Names *)
Lemma position_spec : forall s l,
  match position s l with
  | Some i => i < length l /\ nth i l EmptyString = s /\ forall k, k < i -> nth k l EmptyString <> s
  | None => ~ In s l
  end.
Proof.
  intros s. induction l as [|x l IH]; simpl; auto.
  destruct (String.eqb_spec s x) as [->|N].
  - split; [lia|]. split; auto. intros; lia.
  - destruct (position s l) as [i|]; simpl.
    + destruct IH as (A & B & C). split; [lia|]. split; auto. intros [|k] Hk; [congruence|]. apply C. lia.
    + intros [H|H]; auto.
Qed.

Lemma find_position : forall s l test, 
  (forall i, i < length l -> test i = Ok (String.eqb s (nth i l EmptyString))) ->
  find_up 0 (length l) test = Ok (position s l).
Proof.
  intros s l test H.
  destruct (find_up_ok (fun i => String.eqb s (nth i l EmptyString)) 0 (length l) test) as (o & E & Ho).
  { intros i Hi. apply H. lia. }
  rewrite E. f_equal. assert (P := position_spec s l). destruct o as [i|].
  - destruct Ho as (A & B & C). apply String.eqb_eq in B. destruct (position s l) as [j|].
    + destruct P as (P1 & P2 & P3). destruct (Nat.lt_trichotomy i j) as [L|[->|L]]; auto.
      * exfalso. apply (P3 i L). auto.
      * exfalso. specialize (C j). rewrite P2 in C. rewrite String.eqb_refl in C.
        assert (true = false) by (apply C; lia). discriminate.
    + exfalso. apply P. rewrite B. apply nth_In. lia.
  - destruct (position s l) as [j|]; auto. destruct P as (P1 & P2 & _). specialize (Ho j).
    rewrite P2, String.eqb_refl in Ho. assert (true = false) by (apply Ho; lia). discriminate.
Qed.

Lemma model_variable_ok : forall card m names s, names_ok card m names ->
  model_variable names s = Ok (position s (map symbol_of names)).
Proof.
  intros card m names s (HL & HN). unfold model_variable. rewrite <- (map_length symbol_of names).
  apply find_position. intros i Hi. rewrite map_length in Hi.
  set (d := mkNamed 0 None 0 NamesNull []).
  rewrite (rd_ok _ names i d) by auto. cbn [bind].
  rewrite (nth_map _ _ _ _ _ d) by auto.
  destruct (HN i (nth i names d)) as (A & _); [now apply nth_error_nth'|].
  unfold symbol_of. destruct (nv_symbol (nth i names d)); [reflexivity|congruence].
Qed.

Lemma state_index_position : forall card m names v nv s, names_ok card m names ->
  nth_error names v = Some nv ->
  variable_state_index nv s =
    Ok (match position s (states_of nv) with Some i => Z.of_nat i | None => (-1)%Z end).
Proof.
  intros card m names v nv s (HL & HN) Hn. destruct (HN v nv Hn) as (_ & C & (l & El & Ll)).
  unfold variable_state_index, states_of. rewrite El. rewrite C, <- Ll.
  rewrite (find_position s l).
  - cbn [bind]. destruct (position s l); reflexivity.
  - intros i Hi. rewrite (rd_ok _ l i EmptyString) by auto. reflexivity.
Qed.

(** ** One insertion *)
Lemma indicator_one_hot : forall n i, indicator n (Z.of_nat i) = one_hot n i.
Proof.
  intros n i. unfold indicator, one_hot. apply map_ext. intros j.
  destruct (Nat.eqb_spec j i) as [->|N].
  - now rewrite Z.eqb_refl.
  - destruct (Z.eqb_spec (Z.of_nat j) (Z.of_nat i)); auto. lia.
Qed.

(** What holds of a model that has learned [b]. *)
Record knows (card : nat -> nat) (m0 : model) (b : belief) (m : model) : Prop := {
  kn_ok : model_ok card m;
  kn_same : same_model m0 m;
  kn_lik : forall v, v < length (m_vars m0) -> v_lik (var m v) = b_lik b v;
  kn_done : forall v, In v (m_indep m0) -> v_entered (var m v) = b_done b v;
  kn_rep : represents card m (priors m0 (b_active b))
}.

Lemma names_ok_same : forall card m m' names, same_model m m' -> names_ok card m names -> names_ok card m' names.
Proof. intros card m m' names (_ & L & _) (A & B). split; auto. congruence. Qed.

Lemma knows_evidence : forall card m0 b m v e, knows card m0 b m -> v < length (m_vars m0) ->
  vector_ok card v e ->
  exists m', enter_evidence m v (Some e) = Ok (m', NO_ERROR) /\
    knows card m0 (mkBelief (fun w => if Nat.eqb w v then e else b_lik b w)
      (if revivesb (b_lik b v) e then [] else b_active b) (b_done b)) m'.
Proof.
  intros card m0 b m v e [K1 K2 K3 K4 K5] Hv He.
  assert (L : length (m_vars m) = length (m_vars m0)) by apply K2.
  destruct (enter_evidence_ok card m v e _ K1 K5) as (m' & E & A1 & A2 & A3 & A4 & A5 & A6); auto; [lia|].
  exists m'. split; auto. split; auto.
  - eapply same_model_trans; eauto.
  - intros w Hw. cbn [b_lik]. rewrite A3. destruct (Nat.eqb w v); [reflexivity|now apply K3].
  - intros w Hw. rewrite A4. now apply K4.
  - cbn [b_active]. destruct (revivesb (b_lik b v) e) eqn:R.
    + apply (represents_ext card m' (fun _ => 1%Qc)); [reflexivity|]. apply A5. rewrite K3 by auto. now apply revivesb_spec.
    + apply A6. rewrite K3 by auto. intros Q. apply revivesb_spec in Q. congruence.
Qed.

Lemma knows_consistent : forall card m0 b m, knows card m0 b m ->
  exists m', make_consistent_model m = Ok m' /\ knows card m0 b m'.
Proof.
  intros card m0 b m [K1 K2 K3 K4 K5].
  destruct (make_consistent_model_ok card m K1) as (jt' & E & _ & M1 & S1 & _ & J1).
  exists (set_jt m jt'). split; auto. split; auto.
  - eapply same_model_trans; eauto.
  - apply represents_jt; auto. apply S1.
Qed.

Lemma knows_insert : forall card names m0 b m x, names_ok card m0 names -> knows card m0 b m ->
  insertion_ok card names x ->
  exists m' e, insert1 names m x = Ok (m', e) /\ knows card m0 (learn1 card names m0 b (Insert x)) m'.
Proof.
  intros card names m0 b m x HN HK HO. assert (HN' := names_ok_same card m0 m names (kn_same _ _ _ _ HK) HN).
  assert (LN : length names = length (m_vars m0)) by apply HN.
  unfold insertion_ok in HO. destruct x as [s st|s l]; cbn [insert1 learn1 says] in *.
  - unfold insert_hard_evidence. rewrite (model_variable_ok card m names s HN'). cbn [bind].
    assert (P := position_spec s (map symbol_of names)).
    destruct (position s (map symbol_of names)) as [v|].
    2: { exists m, EINVAL. auto. }
    destruct P as (P1 & _). rewrite map_length in P1.
    set (d := mkNamed 0 None 0 NamesNull []) in *.
    unfold enter_observation. rewrite (rd_ok _ names v d) by auto. cbn [bind].
    rewrite (state_index_position card m names v (nth v names d) st HN') by (now apply nth_error_nth').
    cbn [bind]. destruct (position st (states_of (nth v names d))) as [i|].
    + destruct (Z.ltb_spec (Z.of_nat i) 0); [lia|].
      assert (Lv : length (m_vars m) = length (m_vars m0)) by apply (kn_same _ _ _ _ HK).
      rewrite (enter_index_ok card) by (lia || apply HK). rewrite indicator_one_hot.
      destruct (knows_evidence card m0 b m v (one_hot (card v) i) HK) as (m1 & E1 & K1); auto; [lia|].
      rewrite E1. cbn [bind].
      destruct (knows_consistent card m0 _ m1 K1) as (m2 & E2 & K2). rewrite E2. cbn [bind].
      exists m2, NO_ERROR. auto.
    + cbn. destruct (knows_consistent card m0 _ m HK) as (m2 & E2 & K2). rewrite E2. cbn [bind].
      exists m2, NO_ERROR. auto.
  - unfold insert_soft_evidence. rewrite (model_variable_ok card m names s HN'). cbn [bind].
    assert (P := position_spec s (map symbol_of names)).
    destruct (position s (map symbol_of names)) as [v|].
    2: { exists m, EINVAL. auto. }
    destruct P as (P1 & _). rewrite map_length in P1.
    destruct (knows_evidence card m0 b m v l HK) as (m1 & E1 & K1); auto; [lia|].
    rewrite E1. cbn [bind].
    destruct (knows_consistent card m0 _ m1 K1) as (m2 & E2 & K2). rewrite E2. cbn [bind].
    exists m2, NO_ERROR. auto.
Qed.

Lemma same_var : forall m m' v, same_model m m' -> v_old (var m' v) = v_old (var m v).
Proof. intros m m' v (_ & _ & H & _). apply H. Qed.

Lemma pending_ext : forall card m0 b m h, knows card m0 b m ->
  pending m h = filter (fun v => negb (b_done b v) && (negb h || negb (v_old (var m0 v)))) (m_indep m0).
Proof.
  intros card m0 b m h HK. unfold pending.
  assert (EI : m_indep m = m_indep m0) by apply (kn_same _ _ _ _ HK). rewrite EI.
  apply filter_ext_in. intros v Hv. rewrite (kn_done _ _ _ _ HK) by auto.
  now rewrite (same_var m0 m v (kn_same _ _ _ _ HK)).
Qed.

Lemma priors_app : forall m a b x, priors m (a ++ b) x = (priors m a x * priors m b x)%Qc.
Proof. intros. unfold priors. now rewrite map_app, qprod_app. Qed.

Lemma marks_same_shape : forall jt jt', marks_only jt jt' -> same_shape jt jt'.
Proof. intros. now apply marks_only_same. Qed.

Lemma phi_marks : forall jt jt' i a, marks_only jt jt' -> i < length (cls jt) -> phi jt' i a = phi jt i a.
Proof. intros jt jt' i a (_ & _ & H) Hi. unfold phi. destruct (H i Hi) as (b & ->). reflexivity. Qed.
Lemma joint_marks : forall jt jt' a, marks_only jt jt' -> joint jt' a = joint jt a.
Proof.
  intros jt jt' a MO. assert (SH := marks_same_shape _ _ MO). unfold joint.
  destruct (shape_len _ _ SH) as (-> & ->). f_equal.
  - apply qprod_map_ext. intros i Hi. apply in_seq in Hi. apply phi_marks; auto. lia.
  - destruct MO as (E & _). unfold psi, sep. rewrite E. reflexivity.
Qed.
Lemma nonneg_marks : forall jt jt', marks_only jt jt' -> tables_nonneg jt -> tables_nonneg jt'.
Proof.
  intros jt jt' MO (H1 & H2). assert (SH := marks_same_shape _ _ MO).
  destruct (shape_len _ _ SH) as (L1 & L2). destruct MO as (E & _ & H). split.
  - intros i Hi. rewrite L1 in Hi. destruct (H i Hi) as (b & ->). cbn. auto.
  - intros s Hs. unfold sep. rewrite E in *. apply H2. auto.
Qed.

Lemma knows_step : forall card names m0 b m o, names_ok card m0 names -> knows card m0 b m ->
  op_ok card names m0 o ->
  exists m', run1 names m o = Ok m' /\ knows card m0 (learn1 card names m0 b o) m'.
Proof.
  intros card names m0 b m o HN HK HO. destruct o as [x|h| | |v|]; cbn [run1 op_ok] in *.
  - destruct (knows_insert card names m0 b m x HN HK HO) as (m' & e & E & K).
    rewrite E. cbn [bind]. eauto.
  - cbn [learn1]. rewrite <- (pending_ext card m0 b m h HK).
    assert (HK' := HK). destruct HK' as [K1 K2 K3 K4 K5].
    destruct (use_priors_ok card m h _ K1 K5) as (m' & E & A1 & A2 & A3 & A4 & A5).
    exists m'. split; auto. split; auto.
    + eapply same_model_trans; eauto.
    + intros w Hw. rewrite A3. now apply K3.
    + intros w Hw. cbn [b_done]. rewrite <- K4 by auto. apply eq_true_iff_eq. rewrite A4, orb_true_iff.
      rewrite existsb_exists. split.
      * intros [H|H]; auto. right. exists w. split; auto. apply Nat.eqb_refl.
      * intros [H|(z & Hz & H)]; auto. apply Nat.eqb_eq in H. subst. auto.
    + cbn [b_active]. eapply represents_ext; [|exact A5]. intros a Ha. cbv beta.
      rewrite priors_app. f_equal. now apply same_priors.
  - destruct HK as [K1 K2 K3 K4 K5].
    destruct (reset_model_ok card m K1) as (m' & E & A1 & A2 & A3 & A4 & A5).
    assert (L : length (m_vars m) = length (m_vars m0)) by apply K2.
    exists m'. split; auto. split; auto.
    + eapply same_model_trans; eauto.
    + intros w Hw. apply A3. lia.
    + intros w Hw. cbn. apply A3.
      assert (EI : m_indep m = m_indep m0) by apply K2.
      destruct (mo_indep _ _ K1) as (_ & HI). rewrite EI in HI. now apply HI.
  - destruct (knows_consistent card m0 b m HK) as (m' & E & K). eauto.
  - unfold get_probability. destruct HK as [K1 K2 K3 K4 K5].
    assert (L : length (m_vars m) = length (m_vars m0)) by apply K2.
    rewrite rd_var by lia. cbn [bind].
    destruct (find_family_ok card m v K1) as (mf & k & Ef & F1 & F2 & F3 & F4 & F5 & F6 & F7 & _); [lia|].
    rewrite Ef. cbn [bind]. rewrite F3.
    destruct (mo_var _ _ K1 v) as (X1 & _); [lia|].
    destruct (marginalise_clique_ok card (m_jt m) k v (repeat 0%Qc (v_card (var m v)))) as (r & Er & Lr & _).
    { apply K1. } { auto. } { apply F7. simpl; auto. } { rewrite repeat_length. auto. }
    rewrite Er. cbn [bind]. rewrite X1, <- Lr. rewrite normalise_array_ok. cbn [bind].
    exists mf. split; auto. split; auto.
    + eapply same_model_trans; eauto.
    + intros w Hw. rewrite F4. now apply K3.
    + intros w Hw. rewrite F5. now apply K4.
    + intros a Ha. cbn [learn1]. rewrite F3, K5 by auto. rewrite (same_original m mf a F2).
      f_equal. f_equal. unfold evidence. rewrite <- (proj1 (proj2 F2)). apply weight_ext. intros; now rewrite F4.
  - unfold model_prob_mass. destruct HK as [K1 K2 K3 K4 K5].
    destruct (probability_mass_raw card (m_jt m) (mo_shape _ _ K1) (mo_tree _ _ K1)) as (jt' & E & MO).
    rewrite E. cbn [bind]. assert (SH := marks_same_shape _ _ MO).
    exists (set_jt m jt'). split; auto. split; auto.
    + apply model_ok_jt; auto. apply (marks_only_ok card (m_jt m)); auto. apply K1.
      apply (nonneg_marks (m_jt m)); auto. apply K1.
    + eapply same_model_trans; [exact K2|]. now apply same_model_jt.
    + apply represents_jt; auto. intros a Ha. now apply joint_marks.
Qed.

Lemma knows_run : forall card names m0 os b m, names_ok card m0 names -> knows card m0 b m ->
  Forall (op_ok card names m0) os ->
  exists m', run names m os = Ok m' /\ knows card m0 (learn card names m0 b os) m'.
Proof.
  intros card names m0. induction os as [|o os IH]; intros b m HN HK HO; cbn [run].
  - exists m. auto.
  - inversion HO as [|? ? H1 H2]; subst.
    destruct (knows_step card names m0 b m o HN HK H1) as (m1 & E1 & K1). rewrite E1. cbn [bind].
    destruct (IH _ m1 HN K1 H2) as (m2 & E2 & K2). exists m2. auto.
Qed.

Lemma knows_reset : forall card m, model_ok card m ->
  exists m', reset_model m = Ok m' /\ knows card m (no_belief card) m'.
Proof.
  intros card m HM. destruct (reset_model_ok card m HM) as (m' & E & A1 & A2 & A3 & A4 & A5).
  exists m'. split; auto. split; auto.
  - intros v Hv. now apply A3.
  - intros v Hv. apply A3. destruct (mo_indep _ _ HM) as (_ & HI). now apply HI.
Qed.

Lemma knows_joint : forall card m b m' a, knows card m b m' -> valid card a ->
  joint (m_jt m') a = (original m a * weight (length (m_vars m)) (b_lik b) a * priors m (b_active b) a)%Qc.
Proof.
  intros card m b m' a [K1 K2 K3 K4 K5] Ha. rewrite K5 by auto. rewrite (same_original m m' a K2).
  f_equal. f_equal. unfold evidence. rewrite (proj1 (proj2 K2)). apply weight_ext. auto.
Qed.

(** ** The property lemmas *)
Lemma C34_history_lemma : forall card names m os, model_ok card m -> names_ok card m names ->
  Forall (op_ok card names m) os ->
  exists m', run names m (Reset :: os) = Ok m' /\
    (forall v, v < length (m_vars m) -> v_lik (var m' v) = b_lik (learn card names m (no_belief card) os) v) /\
    forall a, valid card a ->
      joint (m_jt m') a =
        (original m a * weight (length (m_vars m)) (b_lik (learn card names m (no_belief card) os)) a *
         priors m (b_active (learn card names m (no_belief card) os)) a)%Qc.
Proof.
  intros card names m os HM HN HO. cbn [run run1].
  destruct (knows_reset card m HM) as (m1 & E1 & K1). rewrite E1. cbn [bind].
  destruct (knows_run card names m os _ m1 HN K1 HO) as (m2 & E2 & K2).
  exists m2. split; auto. split; [apply K2|]. intros a Ha. now apply (knows_joint card).
Qed.

Lemma learn_inserts : forall card names m xs b,
  b_lik (learn card names m b (map Insert xs)) = latest card names xs (b_lik b) /\
  b_done (learn card names m b (map Insert xs)) = b_done b /\
  (b_active b = [] -> b_active (learn card names m b (map Insert xs)) = []) /\
  (never_revives card names xs (b_lik b) ->
   b_active (learn card names m b (map Insert xs)) = b_active b).
Proof.
  intros card names m. induction xs as [|x xs IH]; intros b.
  - cbn. auto.
  - unfold learn. cbn [map fold_left latest never_revives]. fold (learn card names m).
    change (fold_left (learn1 card names m) (map Insert xs) (learn1 card names m b (Insert x)))
      with (learn card names m (learn1 card names m b (Insert x)) (map Insert xs)).
    destruct (IH (learn1 card names m b (Insert x))) as (I1 & I2 & I3 & I4).
    cbn [learn1] in *. destruct (says card names x) as [(v & l)|].
    + cbn [b_lik b_active b_done] in *. split; auto. split; auto. split.
      * intros E. apply I3. destruct (revivesb _ _); auto.
      * intros (A & B). rewrite I4 by auto. destruct (revivesb (b_lik b v) l) eqn:R; auto.
        exfalso. apply A. now apply revivesb_spec.
    + auto.
Qed.

Lemma insert_all_run : forall names xs m, insert_all names m xs = run names m (map Insert xs).
Proof.
  intros names. induction xs as [|x xs IH]; intros m; auto. cbn [insert_all map run run1].
  destruct (insert1 names m x) as [(m' & e)| |]; cbn [bind]; auto.
Qed.

Lemma inserts_ok : forall card names m xs, Forall (insertion_ok card names) xs ->
  Forall (op_ok card names m) (map Insert xs).
Proof. intros card names m xs H. induction H; simpl; constructor; auto. Qed.

Lemma C34_latest_lemma : forall card names m xs, model_ok card m -> names_ok card m names ->
  Forall (insertion_ok card names) xs ->
  exists m0 m', reset_model m = Ok m0 /\ insert_all names m0 xs = Ok m' /\
    forall a, valid card a ->
      joint (m_jt m') a =
        (original m a *
         weight (length (m_vars m)) (latest card names xs (fun v => repeat 1%Qc (card v))) a)%Qc.
Proof.
  intros card names m xs HM HN HX.
  destruct (knows_reset card m HM) as (m1 & E1 & K1).
  destruct (knows_run card names m (map Insert xs) _ m1 HN K1) as (m2 & E2 & K2).
  { now apply inserts_ok. }
  exists m1, m2. split; auto. split; [now rewrite insert_all_run|]. intros a Ha.
  rewrite (knows_joint card m _ m2 a K2 Ha).
  destruct (learn_inserts card names m xs (no_belief card)) as (I1 & _ & I3 & _).
  rewrite I1, I3 by reflexivity. unfold priors. cbn [map qprod b_lik no_belief]. ring.
Qed.

Lemma C34_priors_lemma : forall card names m h xs, model_ok card m -> names_ok card m names ->
  Forall (insertion_ok card names) xs ->
  never_revives card names xs (fun v => repeat 1%Qc (card v)) ->
  exists m0 m1 m', reset_model m = Ok m0 /\ use_priors m0 h = Ok m1 /\ insert_all names m1 xs = Ok m' /\
    forall a, valid card a ->
      joint (m_jt m') a =
        (original m a *
         weight (length (m_vars m)) (latest card names xs (fun v => repeat 1%Qc (card v))) a *
         priors m (filter (fun v => negb h || negb (v_old (var m v))) (m_indep m)) a)%Qc.
Proof.
  intros card names m h xs HM HN HX HV.
  destruct (knows_reset card m HM) as (m0 & E0 & K0).
  destruct (knows_step card names m _ m0 (Priors h) HN K0 I) as (m1 & E1 & K1).
  destruct (knows_run card names m (map Insert xs) _ m1 HN K1) as (m2 & E2 & K2).
  { now apply inserts_ok. }
  exists m0, m1, m2. split; auto. split; [exact E1|]. split; [now rewrite insert_all_run|]. intros a Ha.
  rewrite (knows_joint card m _ m2 a K2 Ha).
  destruct (learn_inserts card names m xs (learn1 card names m (no_belief card) (Priors h))) as (I1 & _ & _ & I4).
  rewrite I1, I4 by auto. reflexivity.
Qed.

(** C34: evidence for an excluded state drops the priors, whatever they are. *)
Lemma C34_lost_lemma : forall card names m h xs x v l, model_ok card m -> names_ok card m names ->
  Forall (insertion_ok card names) xs -> insertion_ok card names x ->
  says card names x = Some (v, l) ->
  revives (latest card names xs (fun v => repeat 1%Qc (card v)) v) l ->
  exists m0 m1 m', reset_model m = Ok m0 /\ use_priors m0 h = Ok m1 /\
    insert_all names m1 (xs ++ [x]) = Ok m' /\
    forall a, valid card a ->
      joint (m_jt m') a =
        (original m a *
         weight (length (m_vars m)) (latest card names (xs ++ [x]) (fun v => repeat 1%Qc (card v))) a)%Qc.
Proof.
  intros card names m h xs x v l HM HN HX HX1 HS HR.
  destruct (knows_reset card m HM) as (m0 & E0 & K0).
  destruct (knows_step card names m _ m0 (Priors h) HN K0 I) as (m1 & E1 & K1).
  destruct (knows_run card names m (map Insert (xs ++ [x])) _ m1 HN K1) as (m2 & E2 & K2).
  { apply inserts_ok. apply Forall_app. split; auto. }
  exists m0, m1, m2. split; auto. split; [exact E1|]. split; [now rewrite insert_all_run|]. intros a Ha.
  rewrite (knows_joint card m _ m2 a K2 Ha).
  destruct (learn_inserts card names m (xs ++ [x]) (learn1 card names m (no_belief card) (Priors h))) as (I1 & _).
  rewrite I1.
  replace (b_active _) with (@nil nat); [unfold priors; cbn [map qprod]; cbn [b_lik learn1 no_belief]; ring|].
  unfold learn. rewrite map_app, fold_left_app. cbn [map fold_left].
  change (fold_left (learn1 card names m) (map Insert xs) (learn1 card names m (no_belief card) (Priors h)))
    with (learn card names m (learn1 card names m (no_belief card) (Priors h)) (map Insert xs)).
  destruct (learn_inserts card names m xs (learn1 card names m (no_belief card) (Priors h))) as (J1 & _).
  set (b1 := learn card names m (learn1 card names m (no_belief card) (Priors h)) (map Insert xs)) in *.
  cbn [learn1]. rewrite HS. cbn [b_active]. rewrite J1. cbn [learn1 b_lik no_belief].
  apply revivesb_spec in HR. now rewrite HR.
Qed.

Lemma C35_lemma : forall card m1 m2, model_ok card m1 -> model_ok card m2 -> same_model m1 m2 ->
  exists r1 r2, reset_model m1 = Ok r1 /\ reset_model m2 = Ok r2 /\
    (forall a, valid card a -> joint (m_jt r1) a = original m1 a /\ joint (m_jt r2) a = original m1 a) /\
    (forall v, v < length (m_vars m1) ->
       v_lik (var r1 v) = repeat 1%Qc (card v) /\ v_lik (var r2 v) = repeat 1%Qc (card v) /\
       v_entered (var r1 v) = false /\ v_entered (var r2 v) = false) /\
    same_model r1 r2.
Proof.
  intros card m1 m2 H1 H2 SM.
  destruct (reset_model_ok card m1 H1) as (r1 & E1 & A1 & A2 & A3 & A4 & A5).
  destruct (reset_model_ok card m2 H2) as (r2 & E2 & B1 & B2 & B3 & B4 & B5).
  exists r1, r2. split; auto. split; auto.
  assert (L : length (m_vars m2) = length (m_vars m1)) by apply SM.
  split.
  - intros a Ha. rewrite A5, B5 by auto. split; auto. now apply same_original.
  - split.
    + intros v Hv. destruct (A3 v Hv), (B3 v); [lia|]. auto.
    + eapply same_model_trans; [|exact B2]. eapply same_model_trans; [|exact SM].
      clear -A2. destruct A2 as (S1 & S2 & S3 & S4 & S5 & S6 & S7 & S8 & S9).
      assert (SH : same_shape (m_jt r1) (m_jt m1)).
      { destruct S1 as (T1 & T2 & T3 & T4). split; [auto|]. split; [auto|]. split.
        - intros i. destruct (T3 i) as (U1 & U2 & U3). auto.
        - intros i. destruct (T4 i) as (U1 & U2 & U3). auto. }
      split; auto. split; auto. split; [|auto 10].
      intros v. destruct (S3 v) as (U1 & U2 & U3 & U4 & U5). auto 10.
Qed.

(** ** Priors *)

Lemma priors_perm : forall m a b x, Permutation a b -> priors m a x = priors m b x.
Proof. intros. unfold priors. apply qprod_perm. now apply Permutation_map. Qed.

Lemma filter_split : forall (f g : nat -> bool) l,
  Permutation (filter f l ++ filter (fun v => negb (f v) && g v) l) (filter (fun v => f v || g v) l).
Proof.
  intros f g. induction l as [|x l IH]; simpl; auto.
  destruct (f x); simpl; auto. destruct (g x); simpl; auto.
  symmetry. apply Permutation_cons_app. now symmetry.
Qed.

Lemma C36_lemma : forall card m hs, model_ok card m ->
  exists m0 m', reset_model m = Ok m0 /\ priors_all m0 hs = Ok m' /\
    forall a, valid card a ->
      joint (m_jt m') a =
        (original m a *
         priors m (filter (fun v => existsb (fun h => negb h || negb (v_old (var m v))) hs) (m_indep m)) a)%Qc.
Proof.
  intros card m hs HM. destruct (knows_reset card m HM) as (m0 & E0 & K0). exists m0.
  assert (G : forall hs mi done, model_ok card mi -> same_model m mi ->
     (forall v, In v (m_indep m) -> v_entered (var mi v) = done v) ->
     represents card mi (priors m (filter done (m_indep m))) ->
     exists m', priors_all mi hs = Ok m' /\ same_model m m' /\
       (forall v, v_lik (var m' v) = v_lik (var mi v)) /\
       represents card m' (priors m (filter (fun v => done v ||
          existsb (fun h => negb h || negb (v_old (var m v))) hs) (m_indep m)))).
  { clear. induction hs as [|h hs IH]; intros mi done HM SM HD HR; cbn [priors_all].
    - exists mi. split; auto. split; auto. split; auto. eapply represents_ext; [|exact HR].
      intros a Ha. cbv beta. f_equal. apply filter_ext. intros v. simpl. now rewrite orb_false_r.
    - destruct (use_priors_ok card mi h _ HM HR) as (m1 & E1 & A1 & A2 & A3 & A4 & A5).
      rewrite E1. cbn [bind].
      assert (EI : m_indep mi = m_indep m) by apply SM.
      assert (EP : pending mi h = filter (fun v => negb (done v) && (negb h || negb (v_old (var m v)))) (m_indep m)).
      { unfold pending. rewrite EI. apply filter_ext_in. intros v Hv. rewrite HD by auto.
        now rewrite (same_var m mi v SM). }
      destruct (IH m1 (fun v => done v || (negb h || negb (v_old (var m v))))) as (m' & E' & B1 & B2 & B3); auto.
      + eapply same_model_trans; eauto.
      + intros v Hv. apply eq_true_iff_eq. rewrite A4, EP, filter_In, HD by auto.
        destruct (done v), (negb h || negb (v_old (var m v)))%bool; simpl; intuition congruence.
      + eapply represents_ext; [|exact A5]. intros a Ha. cbv beta. rewrite (same_priors m mi) by auto.
        rewrite <- priors_app. rewrite EP. apply priors_perm. apply filter_split.
      + exists m'. split; auto. split; auto. split. { intros v. now rewrite B2. }
        eapply represents_ext; [|exact B3]. intros a Ha. cbv beta. f_equal. apply filter_ext. intros v.
        cbn [existsb]. now rewrite !orb_assoc. }
  destruct (G hs m0 (fun _ => false)) as (m' & E' & S' & L' & R'); try apply K0.
  { eapply represents_ext; [|apply (kn_rep _ _ _ _ K0)]. intros a Ha. cbv beta. cbn [b_active no_belief].
    f_equal. symmetry. now apply filter_all_false. }
  exists m'. split; auto. split; auto. intros a Ha. rewrite R' by auto.
  rewrite (same_original m m' a S').
  assert (EV : evidence m' a = 1%Qc).
  { unfold evidence, weight. apply qprod_ones. intros v Hv. apply in_seq in Hv.
    rewrite (proj1 (proj2 S')) in Hv. rewrite L', (kn_lik _ _ _ _ K0) by lia. now apply at_ones. }
  rewrite EV. cbn [orb]. ring.
Qed.

(** A second call with the same argument does not change anything. *)
Lemma use_priors_idle : forall card m h, model_ok card m -> pending m h = [] -> use_priors m h = Ok m.
Proof.
  intros card m h HM HP. unfold use_priors. destruct (mo_indep _ _ HM) as (ND & HI).
  match goal with |- context [for_up 0 ?n ?b ?s] =>
    destruct (for_up_inv model (fun _ m' => m' = m) b 0 n s) as (m1 & E1 & ->) end; auto.
  { lia. }
  intros i mi Hi ->. rewrite (rd_ok _ (m_indep m) i 0) by lia. cbn [bind].
  set (v := nth i (m_indep m) 0). assert (Iv : In v (m_indep m)) by (apply nth_In; lia).
  destruct (HI v Iv) as (Hv & (l & El & _)). rewrite rd_var by auto. cbn [bind]. rewrite El.
  destruct (v_entered (var m v)) eqn:EN; [eauto|].
  destruct (negb h || negb (v_old (var m v)))%bool eqn:HB; [|eauto]. exfalso.
  assert (In v (pending m h)); [|rewrite HP in *; contradiction].
  unfold pending. apply filter_In. rewrite EN, HB. auto.
Qed.

Lemma C36_idempotent_lemma : forall card m h m1, model_ok card m -> (exists F, represents card m F) ->
  use_priors m h = Ok m1 -> use_priors m1 h = Ok m1.
Proof.
  intros card m h m1 HM (F & HR) HE.
  destruct (use_priors_ok card m h F HM HR) as (m' & E & A1 & A2 & A3 & A4 & A5).
  rewrite E in HE. inversion HE; subst m'. apply (use_priors_idle card); auto.
  unfold pending. apply filter_all_false. intros v Hv.
  assert (EI : m_indep m1 = m_indep m) by apply A2. rewrite EI in Hv.
  destruct (v_entered (var m1 v)) eqn:EN; auto. rewrite (same_var m m1 v A2).
  destruct (negb h || negb (v_old (var m v)))%bool eqn:HB; auto. exfalso.
  assert (K : v_entered (var m1 v) = true); [|congruence]. apply A4.
  destruct (v_entered (var m v)) eqn:EM; auto. right. unfold pending. apply filter_In. rewrite EM, HB. auto.
Qed.

(** ** Mass and posterior *)
Lemma model_mass_ok : forall card m m1, model_ok card m -> make_consistent_model m = Ok m1 ->
  exists m2, model_prob_mass m1 = Ok (m2, sum_all card m (joint (m_jt m))).
Proof.
  intros card m m1 HM HE. unfold make_consistent_model in HE.
  destruct (make_consistent_model_ok card m HM) as (jt' & E & Ej & M1 & S1 & C1 & J1).
  rewrite Ej in HE. cbn [bind] in HE. inversion HE; subst. unfold model_prob_mass. cbn [m_jt set_jt].
  destruct (C37_mass_lemma card (m_jt m) jt' NO_ERROR (fun _ => 0) (mo_shape _ _ HM) (mo_nonneg _ _ HM)
    (mo_tree _ _ HM) (mo_rip _ _ HM) Ej (zero_valid card m HM)) as (j2 & E2).
  rewrite E2. cbn [bind]. eexists. do 3 f_equal. unfold sum_all.
  apply sumv_perm; [|apply joint_is_ext]. now apply (all_vars_model card).
Qed.

(** The ratio of two masses is the expectation of the evidence under the
    distribution of the model before. *)
Lemma C37_ratio_lemma : forall card m v e F, model_ok card m -> represents card m F ->
  v < length (m_vars m) -> vector_ok card v e -> v_lik (var m v) = repeat 1%Qc (card v) ->
  exists m1 m1' z1 m2 m3 m3' z3,
    make_consistent_model m = Ok m1 /\ model_prob_mass m1 = Ok (m1', z1) /\
    enter_evidence m1' v (Some e) = Ok (m2, NO_ERROR) /\
    make_consistent_model m2 = Ok m3 /\ model_prob_mass m3 = Ok (m3', z3) /\
    z1 = sum_all card m (joint (m_jt m)) /\
    z3 = sum_all card m (fun a => joint (m_jt m) a * at_state e v a)%Qc.
Proof.
  intros card m v e F HM HR Hv He HL.
  destruct (make_consistent_model_ok card m HM) as (jt' & E & Ej & M1 & S1 & C1 & J1).
  set (m1 := set_jt m jt') in *.
  assert (R1 : represents card m1 F) by (apply represents_jt; auto; apply S1).
  destruct (model_mass_ok card m m1 HM E) as (m1' & E1).
  assert (Q : exists jt2, m1' = set_jt m1 jt2 /\ marks_only jt' jt2).
  { unfold model_prob_mass in E1. cbn [m_jt] in E1.
    destruct (probability_mass_raw card jt') as (j2 & E2 & MO).
    - apply M1. - apply M1.
    - change (m_jt m1) with jt' in E1. rewrite E2 in E1. cbn [bind] in E1. inversion E1. eauto. }
  destruct Q as (jt2 & -> & MO). assert (SH := marks_same_shape _ _ MO).
  assert (M1' : model_ok card (set_jt m1 jt2)).
  { apply model_ok_jt; auto. apply (marks_only_ok card jt'); auto. apply M1.
    apply (nonneg_marks jt'); auto. apply M1. }
  assert (R1' : represents card (set_jt m1 jt2) F).
  { apply represents_jt; auto. intros a Ha. now apply joint_marks. }
  assert (SM1 : same_model m (set_jt m1 jt2)).
  { eapply same_model_trans; [exact S1|]. now apply same_model_jt. }
  destruct (enter_evidence_ok card (set_jt m1 jt2) v e F M1' R1') as (m2 & E2 & A1 & A2 & A3 & A4 & A5 & A6); auto.
  change (var (set_jt m1 jt2) v) with (var m v) in *.
  assert (R2 : represents card m2 F).
  { apply A6. rewrite HL. intros (i & Hi & Z & _). rewrite repeat_length in Hi. rewrite nth_repeat_lt in Z by auto.
    discriminate. }
  destruct (make_consistent_model_ok card m2 A1) as (jt3 & E3 & _).
  destruct (model_mass_ok card m2 _ A1 E3) as (m3' & E3').
  do 7 eexists. split; [exact E|]. split; [exact E1|]. split; [exact E2|]. split; [exact E3|].
  split; [exact E3'|]. split; [reflexivity|].
  unfold sum_all. assert (SM2 : same_model m m2) by (eapply same_model_trans; eauto).
  rewrite (proj1 (proj2 SM2)). apply sumv_ext; [now apply (zero_valid card m)|].
  intros a Ha. rewrite R2, HR by auto. rewrite (same_original m m2 a SM2).
  unfold evidence. rewrite (proj1 (proj2 SM2)).
  rewrite (weight_ext _ (fun w => v_lik (var m2 w)) (fun w => if Nat.eqb w v then e else v_lik (var m w))).
  2: { intros w Hw. rewrite A3. reflexivity. }
  destruct (weight_change (length (m_vars m)) (fun w => v_lik (var m w)) v e a Hv) as (r & Q1 & Q2).
  rewrite Q1, Q2. rewrite HL, at_ones by auto. ring.
Qed.

Lemma C38_lemma : forall card m m1 v, model_ok card m -> make_consistent_model m = Ok m1 ->
  v < length (m_vars m) ->
  exists m2 r, get_probability m1 v = Ok (m2, Some r) /\ length r = card v /\
    (forall x, In x r -> (0 <= x)%Qc) /\
    (sum_all card m (joint (m_jt m)) <> 0%Qc -> qsum r = 1%Qc) /\
    (sum_all card m (joint (m_jt m)) = 0%Qc -> forall x, In x r -> x = 0%Qc).
Proof.
  intros card m m1 v HM HE Hv.
  destruct (get_probability_ok card m v HM Hv m1 HE) as (m2 & r & E & _ & _ & Lr & Hr).
  exists m2, r. split; auto. split; auto.
  set (Z := sum_all card m (joint (m_jt m))) in *.
  assert (NZ : (0 <= Z)%Qc).
  { apply sumv_nonneg; [now apply (zero_valid card m)|]. intros b Hb. apply (joint_nonneg card); auto; apply HM. }
  assert (NX : forall x, x < card v -> (0 <= sum_where card m (joint (m_jt m)) v x)%Qc).
  { intros x Hx. apply sumv_nonneg; [apply upd_valid; auto; now apply (zero_valid card m)|].
    intros b Hb. apply (joint_nonneg card); auto; apply HM. }
  split; [|split].
  - intros x Hx. apply (In_nth _ _ 0%Qc) in Hx. destruct Hx as (i & Hi & <-). rewrite Hr by lia.
    unfold Qcdiv. apply Qc_mul_nonneg; [apply NX; lia|now apply Qc_inv_nonneg].
  - intros N. rewrite <- (map_nth_seq Qc 0%Qc r). rewrite Lr.
    rewrite (qsum_map_ext _ _ (fun x => sum_where card m (joint (m_jt m)) v x / Z)%Qc).
    + unfold Qcdiv. rewrite qsum_map_scale_r.
      replace (qsum (map (sum_where card m (joint (m_jt m)) v) (seq 0 (card v)))) with Z; [field; auto|].
      symmetry. apply sum_where_total; auto. apply joint_is_ext.
    + intros x Hx. apply in_seq in Hx. apply Hr. lia.
  - intros N x Hx. apply (In_nth _ _ 0%Qc) in Hx. destruct Hx as (i & Hi & <-). rewrite Hr by lia.
    rewrite N. unfold Qcdiv. rewrite Qcinv_0. ring.
Qed.
