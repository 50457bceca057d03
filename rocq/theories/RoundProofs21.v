(** * Rounded arithmetic: expected counts under models that differ by roundings *)
From Coq Require Import ZArith QArith Qcanon Field Lia Permutation String.
From Verif Require Import Base BaseProofs PotentialModel PotentialSpec PotentialProofs PotentialProofs2
  PotentialProofs3 VariableModel VariableProofs JoinTreeModel AssignSpec AssignProofs JoinTreeSpec
  JoinTreeProofs NipModel NipSpec NipProofs SliceModel SliceSpec LearnModel LearnSpec LearnProofs LearnProofs3
  RoundSpec RoundSpec2 RoundSpec3 RoundProofs RoundProofs4.
Import ListNotations.
Open Scope nat_scope.
Local Open Scope list_scope.
Add Field QcfieldRound21 : Qcft.

Lemma list_sum_const : forall A (l : list A) k, list_sum (map (fun _ => k) l) = length l * k.
Proof. induction l as [|x l IH]; intros k; [reflexivity|]. cbn. unfold list_sum in *. now rewrite IH. Qed.

Section Stable.
Variable u : Qc.
Hypothesis Hu0 : (0 <= u)%Qc.
Hypothesis Hu1 : (u < 1)%Qc.
Variable card : nat -> nat.
Variables m m' : model.
Hypothesis HC : forall v, 0 < card v.
Hypothesis HS : same_structure m m'.
Variables ko kp : nat.
Hypothesis HO : forall a, valid card a -> near u ko (original m a) (original m' a).
Hypothesis HP : forall v a, In v (m_indep m) -> valid card a ->
  near u kp (at_state (match v_prior (var m v) with Some l => l | None => [] end) v a)
            (at_state (match v_prior (var m' v) with Some l => l | None => [] end) v a).
Local Notation n := (length (m_vars m)).
Local Notation K := (ko + length (m_indep m) * kp).

Lemma given_near : forall k (b : bool) x y, near u k x y -> near u k (given b x) (given b y).
Proof. intros k [|] x y H; cbn [given]; auto. apply near_refl; auto. apply Qcle_refl. Qed.

Lemma len' : length (m_vars m') = n.
Proof. apply HS. Qed.
Lemma priors_near : forall vs a, incl vs (m_indep m) -> length vs <= length (m_indep m) -> valid card a ->
  near u (length (m_indep m) * kp) (priors m vs a) (priors m' vs a).
Proof.
  intros vs a Hi Hl Ha. apply near_le with (length vs * kp); auto. { now apply Nat.mul_le_mono_r. }
  unfold priors. rewrite <- list_sum_const. apply (near_qprod u Hu0 Hu1 nat (fun _ => kp)). intros v Hv. apply HP; auto.
Qed.
Lemma slice_near : forall b t, (forall s, valid card (moment n b s)) -> near u K (slice_factor m b t) (slice_factor m' b t).
Proof.
  intros b t Hb. unfold slice_factor. rewrite len'. destruct HS as (_ & _ & _ & _ & SI & _ & SO & SP & _).
  unfold linked. rewrite SI, SO, SP. destruct t as [|t].
  - apply (near_mul u Hu0 Hu1); auto. apply priors_near; auto. apply incl_refl.
  - apply given_near. apply (near_mul u Hu0 Hu1); auto. apply priors_near; auto.
    + intros w Hw. apply filter_In in Hw. tauto.
    + clear. induction (m_indep m) as [|x l IH]; [auto|]. cbn [filter]. destruct (negb _); cbn [length]; lia.
Qed.
Lemma agrees_same : forall ts t a, agrees m' ts t a = agrees m ts t a.
Proof.
  intros ts t a. unfold agrees. destruct HS as (_ & _ & _ & SV & _).
  induction (seq 0 (length (ts_observed ts))) as [|j l IH]; [reflexivity|]. cbn [forallb].
  destruct (SV (nth j (ts_observed ts) 0)) as (_ & _ & _ & ->). now rewrite IH.
Qed.
Lemma moment_valid : forall b s, valid (fun i => card (i mod n)) b -> valid card (moment n b s).
Proof.
  intros b s Hb w. unfold moment. destruct (Nat.ltb_spec w n) as [L|L]; [|apply HC].
  specialize (Hb (s * n + w)). rewrite Nat.add_comm, Nat.mod_add, Nat.mod_small in Hb by lia. rewrite Nat.add_comm. exact Hb.
Qed.
Lemma unrolled_near : forall ts T E b, valid (fun i => card (i mod n)) b ->
  near u (T * K) (unrolled m ts T E b) (unrolled m' ts T E b).
Proof.
  intros ts T E b Hb. unfold unrolled. rewrite <- (seq_length T 0) at 1. rewrite <- list_sum_const.
  apply (near_qprod u Hu0 Hu1 nat (fun _ => K)). intros t _. rewrite len', agrees_same. apply given_near. apply slice_near.
  intros s. now apply moment_valid.
Qed.
Lemma sum_steps_near : forall k T f g, (forall b, valid (fun i => card (i mod n)) b -> near u k (f b) (g b)) ->
  near u k (sum_steps card m T f) (sum_steps card m' T g).
Proof.
  intros k T f g H. unfold sum_steps. rewrite len'. apply (near_sumv u Hu0 Hu1); auto. intros i. apply HC.
Qed.
Lemma likelihood_near : forall ts, near u (length (ts_data ts) * K) (likelihood card m ts) (likelihood card m' ts).
Proof. intros ts. apply sum_steps_near. intros b Hb. now apply unrolled_near. Qed.
Lemma family_same' : forall v, family m' v = family m v.
Proof. intros v. now apply structure_family. Qed.
Lemma expected_near : forall ts v ix,
  near u (2 * (length (ts_data ts) * K)) (expected card m ts v ix) (expected card m' ts v ix).
Proof.
  intros ts v ix. unfold expected. apply near_qsum; auto. intros t _.
  assert (V : v_old (var m' v) = v_old (var m v)) by apply HS. rewrite V. apply given_near.
  unfold family_at. cbv zeta. replace (2 * (length (ts_data ts) * K)) with (length (ts_data ts) * K + length (ts_data ts) * K) by lia.
  apply (near_div u Hu0 Hu1).
  - apply sum_steps_near. intros b Hb. rewrite family_same', len'. apply given_near. now apply unrolled_near.
  - apply sum_steps_near. intros b Hb. now apply unrolled_near.
Qed.
Lemma longest_ge : forall ts s, In s ts -> length (ts_data s) <= longest ts.
Proof.
  intros ts s H. unfold longest. induction ts as [|x ts IH]; [destruct H|]. cbn [map list_max fold_right] in *.
  destruct H as [->|H]; [lia|]. specialize (IH H). unfold list_max in IH. cbn. lia.
Qed.
Lemma total_expected_near : forall ts v ix,
  near u (2 * (longest ts * K)) (total_expected card m ts v ix) (total_expected card m' ts v ix).
Proof.
  intros ts v ix. unfold total_expected. apply near_qsum; auto. intros s Hs.
  apply near_le with (2 * (length (ts_data s) * K)); auto using expected_near.
  assert (L := longest_ge ts s Hs). apply Nat.mul_le_mono_l, Nat.mul_le_mono_r, L.
Qed.
End Stable.

(** ** Conditional distributions of parameters that differ by roundings *)
Section Params.
Variable u : Qc.
Hypothesis Hu0 : (0 <= u)%Qc.
Hypothesis Hu1 : (u < 1)%Qc.
Variable card : nat -> nat.
Variables m m' : model.
Hypothesis HC : forall v, 0 < card v.
Hypothesis HS : same_structure m m'.
Variables ps ps' : list potential.
Variable k : nat.
Hypothesis HN : params_near u k card m ps ps'.

Lemma den_params_near : forall v a, v < length (m_vars m) -> valid card a ->
  near u k (den (family m v) (param ps v) a) (den (family m' v) (param ps' v) a).
Proof. intros v a Hv Ha. rewrite (structure_family m m' v HS). unfold den. apply HN; auto. now apply valid_ix_map. Qed.
Lemma column_near : forall v a, v < length (m_vars m) -> valid card a ->
  near u k (column card m ps v a) (column card m' ps' v a).
Proof. intros v a Hv Ha. unfold column. apply (near_sumv u Hu0 Hu1); auto. intros b Hb. now apply den_params_near. Qed.
Lemma cond_near : forall v a, v < length (m_vars m) -> valid card a ->
  near u (2 * k) (cond card m ps v a) (cond card m' ps' v a).
Proof.
  intros v a Hv Ha. unfold cond. replace (2 * k) with (k + k) by lia. apply (near_div u Hu0 Hu1).
  - now apply den_params_near.
  - now apply column_near.
Qed.
Lemma columns_near : columns_positive card m ps -> columns_positive card m' ps'.
Proof.
  intros H v a Hv Ha E. destruct HS as (_ & _ & L & _). rewrite L in Hv.
  apply (H v a Hv Ha). exact (proj2 (near_zero u Hu0 Hu1 _ _ _ (column_near v a Hv Ha)) E).
Qed.
Lemma product_near : forall vs a, incl vs (seq 0 (length (m_vars m))) -> valid card a ->
  near u (length vs * (2 * k)) (product_cond card m ps vs a) (product_cond card m' ps' vs a).
Proof.
  intros vs a Hi Ha. unfold product_cond. rewrite <- list_sum_const. apply (near_qprod u Hu0 Hu1 nat (fun _ => 2 * k)).
  intros v Hv. apply cond_near; auto. apply Hi in Hv. apply in_seq in Hv. lia.
Qed.
End Params.
