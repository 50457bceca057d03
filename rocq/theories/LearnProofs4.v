(** * Proofs: installed parameters are conditional distributions; learning *)
From Coq Require Import Permutation Field Relations.
From Verif Require Import Base BaseProofs PotentialModel PotentialSpec PotentialProofs
  PotentialProofs2 PotentialProofs3 VariableModel VariableProofs JoinTreeModel
  AssignSpec AssignProofs JoinTreeSpec JoinTreeProofs JoinTreeProofs2 JoinTreeProofs3
  JoinTreeProofs4 JoinTreeProofs5 JoinTreeProofs6 JoinTreeProofs7 NipModel NipSpec NipProofs
  NipProofs2 NipProofs3 NipProofs4 GatherProofs GatherProofs2 SliceModel SliceSpec SliceProofs SliceProofs2 SliceProofs3
  SliceProofs4 SliceProofs5 LearnModel LearnSpec LearnProofs LearnProofs2 LearnProofs3.
Import ListNotations.
Open Scope nat_scope.
Local Open Scope res_scope.

Add Field Qcfield_learn4 : Qcft.

Lemma filter_perm : forall A (P : A -> bool) l l', Permutation l l' -> Permutation (filter P l) (filter P l').
Proof.
  intros A P l l' H. induction H; cbn [filter]; auto.
  - destruct (P x); auto.
  - destruct (P x), (P y); auto. constructor.
  - eapply Permutation_trans; eauto.
Qed.
Lemma filter_split : forall A (P : A -> bool) l, Permutation l (filter P l ++ filter (fun x => negb (P x)) l).
Proof.
  intros A P l. induction l as [|x l IH]; cbn [filter]; auto. destruct (P x); cbn [negb app].
  - now constructor.
  - apply Permutation_cons_app. auto.
Qed.
Lemma filter_filter : forall A (P Q : A -> bool) l, filter P (filter Q l) = filter (fun x => Q x && P x)%bool l.
Proof. intros A P Q l. induction l as [|x l IH]; cbn [filter]; auto. destruct (Q x); cbn [filter andb]; rewrite ?IH; auto. Qed.

Lemma sumv_last : forall card vs v f a, sumv card (vs ++ [v]) f a = sumv card vs (sumv card [v] f) a.
Proof. intros. now rewrite sumv_app. Qed.

Section Cond.
Variable card : nat -> nat.
Variable m0 : model.
Hypothesis HL : learnable card m0.
Local Notation n := (length (m_vars m0)).
Variable ps : list potential.
Hypothesis HP : params_ok card m0 ps.
Hypothesis HCol : forall v a, v < n -> valid card a -> column card m0 ps v a <> 0%Qc.

Lemma product_dep : forall vs v, (forall w, In w vs -> w < n /\ ~ In v (family m0 w)) ->
  forall a b, (forall w, w <> v -> a w = b w) -> product_cond card m0 ps vs a = product_cond card m0 ps vs b.
Proof.
  intros vs v H a b E. unfold product_cond. apply qprod_map_ext. intros w Hw. destruct (H w Hw) as (Hn & N).
  apply (cond_dep card m0 HL ps w Hn). intros u Hu. apply E. congruence.
Qed.
Lemma product_ext : forall vs, incl vs (seq 0 n) -> ext (product_cond card m0 ps vs).
Proof.
  intros vs H a b E. unfold product_cond. apply qprod_map_ext. intros w Hw. apply H, in_seq in Hw.
  apply (cond_dep card m0 HL ps w); auto. lia.
Qed.

Lemma sum_topological : forall vs, incl vs (seq 0 n) ->
  (forall vs1 v vs2, vs = vs1 ++ v :: vs2 -> forall w, In w vs1 -> ~ In v (family m0 w)) ->
  forall a, valid card a -> sumv card vs (product_cond card m0 ps vs) a = 1%Qc.
Proof.
  induction vs as [|v vs IH] using rev_ind; intros HI HT a Ha; [reflexivity|].
  assert (Hv : v < n) by (assert (K : In v (seq 0 n)) by (apply HI, in_app_iff; simpl; auto); apply in_seq in K; lia).
  assert (HI' : incl vs (seq 0 n)) by (intros w Hw; apply HI, in_app_iff; auto).
  rewrite sumv_last. rewrite (sumv_ext card vs _ (product_cond card m0 ps vs)); auto.
  - apply IH; auto. intros vs1 u vs2 E. apply (HT vs1 u (vs2 ++ [v])). rewrite E, <- app_assoc. reflexivity.
  - intros b Hb.
    transitivity (sumv card [v] (fun d => product_cond card m0 ps vs b * cond card m0 ps v d)%Qc b).
    + apply sumv_ext_free. intros d Hd. unfold product_cond at 1. rewrite map_app, qprod_app. cbn [map qprod]. rewrite Qcmult_1_r.
      f_equal. apply (product_dep vs v).
      * intros w Hw. split; [apply HI', in_seq in Hw; lia|]. apply (HT vs v []); auto.
      * intros w Hw. apply Hd. intros [K|[]]; congruence.
    + rewrite sumv_const_out. rewrite (cond_sum card m0 HL) by auto. ring.
Qed.

(** Any set of variables, the others being given. *)
Lemma filter_app_inv : forall (P : nat -> bool) l vs1 v vs2, filter P l = vs1 ++ v :: vs2 ->
  exists l1 l2, l = l1 ++ v :: l2 /\ filter P l1 = vs1.
Proof.
  intros P. induction l as [|x l IH]; intros vs1 v vs2 E; cbn [filter] in E.
  - destruct vs1; discriminate.
  - destruct (P x) eqn:Ex.
    + destruct vs1 as [|y vs1]; cbn [app] in E; injection E as E1 E2.
      * subst. exists [], l. auto.
      * subst. destruct (IH _ _ _ E2) as (l1 & l2 & -> & F). exists (y :: l1), l2. split; auto. cbn [filter]. rewrite Ex. congruence.
    + destruct (IH _ _ _ E) as (l1 & l2 & -> & F). exists (x :: l1), l2. split; auto. cbn [filter]. now rewrite Ex.
Qed.
Lemma sum_any : forall P a, valid card a ->
  sumv card (filter P (seq 0 n)) (product_cond card m0 ps (filter P (seq 0 n))) a = 1%Qc.
Proof.
  intros P a Ha. destruct (le_acyclic _ _ HL) as (l & HPm & HF).
  assert (PM : Permutation (filter P (seq 0 n)) (filter P l)) by (apply filter_perm; now symmetry).
  assert (IN : incl (filter P l) (seq 0 n)). { intros w Hw. apply filter_In in Hw. eapply Permutation_in; [exact HPm|tauto]. }
  assert (ND : NoDup l) by (eapply Permutation_NoDup; [symmetry; exact HPm|apply seq_NoDup]).
  rewrite (sumv_perm card _ (filter P l)); auto.
  - rewrite (sumv_ext card _ _ (product_cond card m0 ps (filter P l))); auto.
    + apply sum_topological; auto. intros vs1 v vs2 E w Hw.
      destruct (filter_app_inv P l vs1 v vs2 E) as (l1 & l2 & -> & <-). apply filter_In in Hw. destruct Hw as (Hw & _).
      assert (NV : ~ In v l1). { intros K. apply NoDup_remove_2 in ND. apply ND. apply in_app_iff. auto. }
      apply in_split in Hw. destruct Hw as (l3 & l4 & ->). intros [K|K].
      * apply NV. apply in_app_iff. right. left. auto.
      * apply NV. apply in_app_iff. left. apply (HF l3 w (l4 ++ v :: l2)); auto. rewrite <- app_assoc. reflexivity.
    + intros b Hb. unfold product_cond. apply qprod_perm, Permutation_map, PM.
  - apply product_ext. intros w Hw. apply filter_In in Hw. tauto.
Qed.

Lemma roots_perm : Permutation (m_indep m0) (filter (fun v => negb (has_parents m0 v)) (seq 0 n)).
Proof.
  destruct (mo_indep _ _ (so_model _ _ (le_slices _ _ HL))) as (ND & IO). apply NoDup_Permutation; auto.
  - apply NoDup_filter, seq_NoDup.
  - intros v. rewrite filter_In, in_seq. unfold has_parents. split.
    + intros H. destruct (IO v H) as (Hv & _). split; [lia|]. apply (le_roots _ _ HL v Hv) in H. now rewrite H.
    + intros (H & K). apply (le_roots _ _ HL); [lia|]. destruct (v_parents (var m0 v)); auto. discriminate.
Qed.

Lemma installed_factor : forall m' Q a, installed card m0 ps m' -> valid card a ->
  (forall v, v < n -> has_parents m0 v = true -> Q v = true) ->
  (original m' a * priors m' (filter Q (m_indep m0)) a)%Qc = product_cond card m0 ps (filter Q (seq 0 n)) a.
Proof.
  intros m' Q a (HO & _ & HR) Ha HQ. rewrite HO by auto.
  assert (E : priors m' (filter Q (m_indep m0)) a = product_cond card m0 ps (filter Q (m_indep m0)) a).
  { unfold priors, product_cond. apply qprod_map_ext. intros v Hv. apply filter_In in Hv. destruct Hv as (Hv & _).
    destruct (mo_indep _ _ (so_model _ _ (le_slices _ _ HL))) as (_ & IO). destruct (IO v Hv) as (Hn & _).
    destruct (HR v Hn) as (l & -> & K); auto. now apply (le_roots _ _ HL). }
  rewrite E. unfold product_cond. rewrite <- qprod_app, <- map_app. apply qprod_perm, Permutation_map.
  eapply Permutation_trans; [apply Permutation_app_head; apply filter_perm, roots_perm|].
  symmetry. eapply Permutation_trans; [apply (filter_split _ (has_parents m0))|]. rewrite !filter_filter.
  apply Permutation_app.
  - rewrite (filter_ext_in _ (has_parents m0)); auto. intros v Hv. apply in_seq in Hv. destruct (has_parents m0 v) eqn:K.
    + now rewrite HQ by (auto; lia).
    + now destruct (Q v).
  - rewrite (filter_ext_in _ (fun x => negb (has_parents m0 x) && Q x)%bool); auto.
    intros v _. apply andb_comm.
Qed.

Lemma installed_conditional : forall m', same_structure m0 m' -> installed card m0 ps m' -> conditional_slices card m'.
Proof.
  intros m' (A1 & A2 & A3 & A4 & A5 & A6 & A7 & A8 & A9 & A10) HI. assert (ZV := zero_ok card m0 HL). split.
  - unfold sum_all. rewrite A3, A5.
    assert (T : forall l : list nat, filter (fun _ => true) l = l) by (induction l; cbn; congruence).
    etransitivity; [|apply (sum_any (fun _ => true) (fun _ => 0) ZV)]. rewrite T. apply sumv_ext; auto. intros b Hb.
    rewrite <- (T (m_indep m0)). rewrite installed_factor by auto. now rewrite T.
  - intros a Ha. rewrite A3, A5, A8.
    etransitivity; [|apply (sum_any (fun v => negb (existsb (Nat.eqb v) (m_prev m0))) a Ha)].
    unfold minus. apply sumv_ext; auto. intros b Hb. apply installed_factor; auto.
    intros v Hv HP'. apply negb_true_iff. destruct (existsb (Nat.eqb v) (m_prev m0)) eqn:K; auto.
    apply existsb_exists in K. destruct K as (w & Hw & Ew). apply Nat.eqb_eq in Ew. subst w.
    apply (le_prev _ _ HL) in Hw. apply (le_roots _ _ HL v Hv) in Hw. unfold has_parents in HP'. rewrite Hw in HP'. discriminate.
Qed.
End Cond.

(** ** Several series *)
Lemma likelihood_same : forall card m m' ts, same_model m m' -> likelihood card m' ts = likelihood card m ts.
Proof.
  intros card m m' ts S. unfold likelihood. cbv zeta. rewrite (sum_steps_same card m m' _ _ S). apply sum_steps_ext.
  intros a. now apply unrolled_same.
Qed.
Lemma family_same : forall m m' v, same_model m m' -> family m' v = family m v.
Proof. intros m m' v S. apply structure_family. now apply same_structure_model. Qed.
Lemma expected_same : forall card m m' ts v ix, same_model m m' -> expected card m' ts v ix = expected card m ts v ix.
Proof.
  intros card m m' ts v ix S. unfold expected. apply qsum_map_ext. intros t _.
  assert (O : v_old (var m' v) = v_old (var m v)) by apply S. rewrite O. f_equal. unfold family_at. cbv zeta.
  assert (L : length (m_vars m') = length (m_vars m)) by apply S. rewrite L, (family_same m m' v S).
  rewrite !(sum_steps_same card m m' _ _ S).
  rewrite (sum_steps_ext card m _ (unrolled m' ts _ _) (unrolled m ts (length (ts_data ts)) (length (ts_data ts)))) by (intros a; now apply unrolled_same).
  f_equal. apply sum_steps_ext. intros a. now rewrite (unrolled_same m m').
Qed.
Lemma conditional_same : forall card m m', same_model m m' -> conditional_slices card m -> conditional_slices card m'.
Proof.
  intros card m m' S (A & B). assert (S' := S). destruct S' as (_ & L & _ & E1 & _ & _ & E2 & _). split.
  - unfold sum_all in *. rewrite L, E1. rewrite <- A. apply sumv_ext_free. intros d _.
    now rewrite (same_original m m' _ S), (same_priors m m' _ _ S).
  - intros a Ha. rewrite L, E1, E2. rewrite <- (B a Ha). apply sumv_ext_free. intros d _.
    now rewrite (same_original m m' _ S), (same_priors m m' _ _ S).
Qed.
Lemma params_same : forall card m m' ps, same_model m m' -> params_ok card m ps -> params_ok card m' ps.
Proof.
  intros card m m' ps S (A & B). assert (L : length (m_vars m') = length (m_vars m)) by apply S. split; [congruence|].
  intros v Hv. rewrite (family_same m m' v S). apply B. lia.
Qed.
Lemma learnable_same : forall card m m', learnable card m -> same_model m m' -> model_ok card m' -> learnable card m'.
Proof. intros. eapply learnable_structure; eauto. now apply same_structure_model. Qed.

Lemma e_steps_ok : forall card ts m ps L, learnable card m -> conditional_slices card m ->
  Forall (series_ok m) ts -> params_ok card m ps ->
  exists m' ps' L' e, e_steps m ts ps L = Ok (m', ps', L', e) /\ model_ok card m' /\ same_model m m' /\ params_ok card m ps' /\
    ((e = BAD_LUCK /\ exists s, In s ts /\ likelihood card m s = 0%Qc) \/
     (e = NO_ERROR /\ (forall s, In s ts -> likelihood card m s <> 0%Qc) /\
      L' = (L * total_likelihood card m ts)%Qc /\
      forall v ix, v < length (m_vars m) -> valid_ix (map card (family m v)) ix ->
        cell (param ps' v) ix = (cell (param ps v) ix + total_expected card m ts v ix)%Qc)).
Proof.
  intros card. induction ts as [|s ts IH]; intros m ps L HL HC HT HP; cbn [e_steps].
  - exists m, ps, L, NO_ERROR. split; auto. split; [apply HL|]. split; [apply same_model_refl|]. split; auto.
    right. split; auto. split; [intros s []|]. unfold total_likelihood, total_expected. cbn. split; [ring|intros; ring].
  - inversion HT as [|? ? HT1 HT2]; subst.
    destruct (C56_lemma card m s ps (le_slices _ _ HL) HT1 (le_family _ _ HL) HP) as (m1 & ps1 & ll & e & E & M1 & S1 & H & HX).
    destruct (HX HC) as (HB & HLL). rewrite E. cbn [bind].
    destruct H as [(-> & ->)|(-> & H1 & H2 & H3)]; cbn [is_err].
    + exists m1, ps, L, BAD_LUCK. split; auto. split; auto. split; auto. split; auto. left. split; auto. exists s.
      split; [left; auto|]. tauto.
    + rewrite (HLL eq_refl). destruct (Qc_ltb 1 (likelihood card m s)) eqn:EL.
      { apply Qc_ltb_true in EL. exfalso. apply (Qclt_not_le _ _ EL). apply (likelihood_le1 card m s (le_slices _ _ HL) HC). }
      destruct (IH m1 ps1 (L * likelihood card m s)%Qc) as (m2 & ps2 & L2 & e2 & E2 & M2 & S2 & P2 & H').
      { eapply learnable_same; eauto. } { eapply conditional_same; eauto. }
      { eapply Forall_impl; [|exact HT2]. intros x (X1 & X2 & X3). split; auto. split; auto.
        assert (LL : length (m_vars m1) = length (m_vars m)) by apply S1. rewrite LL. auto. }
      { eapply params_same; eauto. }
      exists m2, ps2, L2, e2. split; auto. split; auto. split; [eapply same_model_trans; eauto|].
      assert (LL : length (m_vars m1) = length (m_vars m)) by apply S1.
      split. { destruct P2 as (A & B). split; [congruence|]. intros v Hv. rewrite <- (family_same m m1 v S1). apply B. lia. }
      destruct H' as [(-> & x & Hx & Zx)|(-> & K1 & K2 & K3)].
      * left. split; auto. exists x. split; [right; auto|]. now rewrite <- (likelihood_same card m m1 x S1).
      * right. split; auto. split.
        { intros x [<-|Hx]; auto. rewrite <- (likelihood_same card m m1 x S1). auto. }
        split.
        { rewrite K2. unfold total_likelihood. cbn [map qprod].
          rewrite (qprod_map_ext _ (likelihood card m1) (likelihood card m)) by (intros; now apply likelihood_same). ring. }
        intros v ix Hv Hix. rewrite K3 by (rewrite ?(family_same m m1 v S1); auto; lia). rewrite H3 by auto.
        unfold total_expected. cbn [map qsum].
        rewrite (qsum_map_ext _ (fun s0 => expected card m1 s0 v ix) (fun s0 => expected card m s0 v ix)) by (intros; now apply expected_same). ring.
Qed.

(** ** One iteration *)
Lemma ones_params : forall card m ps, learnable card m -> params_ok card m ps ->
  exists ps', for_up 0 (length (m_vars m))
        (fun v l => let* p := rd l v in let* p := uniform_potential p 1%Qc in wr l v p) ps = Ok ps' /\
    params_ok card m ps' /\ forall v ix, v < length (m_vars m) -> valid_ix (map card (family m v)) ix -> cell (param ps' v) ix = 1%Qc.
Proof.
  intros card m ps HL (LP & HP).
  match goal with |- context [for_up 0 ?k ?b ?s] =>
    destruct (for_up_inv (list potential) (fun i l => length l = length ps /\
      (forall v, i <= v -> param l v = param ps v) /\
      (forall v, v < i -> param l v = ones (param ps v))) b 0 k s)
      as (ps' & E & A1 & A2 & A3) end.
  { lia. } { split; auto. split; auto. intros; lia. }
  { intros i l Hi (B1 & B2 & B3). rewrite (rd_ok _ l i (mkPot [] [])) by lia. cbn [bind]. fold (param l i).
    rewrite uniform_ok. cbn [bind]. rewrite wr_ok by lia. eexists. split; [reflexivity|].
    split; [now rewrite set_nth_length|].
    match goal with |- context [set_nth l i ?p] => assert (Q : forall v, param (set_nth l i p) v = if Nat.eqb v i then p else param l v)
      by (intros v; unfold param; rewrite nth_set_nth by lia; reflexivity) end.
    split.
    - intros v Hv. rewrite Q. destruct (Nat.eqb_spec v i); [lia|apply B2; lia].
    - intros v Hv. rewrite Q. destruct (Nat.eqb_spec v i) as [->|]; [|apply B3; lia]. rewrite (B2 i) by lia. reflexivity. }
  exists ps'. split; auto.
  assert (FT : forall v, v < length (m_vars m) -> table card (family m v) (param ps v)).
  { intros v Hv. destruct (HP v Hv) as (W & D & _). split; auto. now apply (le_family _ _ HL). }
  split.
  - split; [congruence|]. intros v Hv. rewrite A3 by auto. destruct (ones_table card _ _ (FT v Hv)) as (_ & W & D). split; auto. split; auto.
    apply ones_nonneg.
  - intros v ix Hv Hix. rewrite A3 by auto.
    destruct (ix_assignment card (family m v) ix (fun _ => 0)) as (a & Va & Ea & _); auto.
    { now apply (le_family _ _ HL). } { apply (zero_ok card m HL). }
    rewrite <- Ea. apply (ones_den card (family m v) (param ps v) a (FT v Hv) Va).
Qed.

Lemma family_at_nonneg : forall card m ts t v ix, slices_ok card m -> (0 <= family_at card m ts t v ix)%Qc.
Proof.
  intros card m ts t v ix HM. unfold family_at. cbv zeta. unfold Qcdiv.
  assert (C0 := shape_card card _ (mo_shape _ _ (so_model _ _ HM))).
  assert (U : forall b, valid (fun i => card (i mod length (m_vars m))) b ->
     (0 <= unrolled m ts (length (ts_data ts)) (length (ts_data ts)) b)%Qc).
  { intros b Hb. unfold unrolled. apply qprod_nonneg. intros x Hx. apply in_map_iff in Hx. destruct Hx as (s & <- & _).
    apply given_nonneg.
    assert (V : forall s, valid card (moment (length (m_vars m)) b s)).
    { intros s0 w. unfold moment. destruct (Nat.ltb_spec w (length (m_vars m))) as [K|K]; [|apply C0].
      specialize (Hb (s0 * length (m_vars m) + w)). rewrite Nat.add_comm, Nat.mod_add, Nat.mod_small in Hb by lia.
      rewrite Nat.add_comm. exact Hb. }
    assert (PN : forall l s, incl l (m_indep m) -> (0 <= priors m l (moment (length (m_vars m)) b s))%Qc).
    { intros l s0 Hl. apply qprod_nonneg. intros y Hy. apply in_map_iff in Hy. destruct Hy as (w & <- & Hw).
      destruct (mo_indep _ _ (so_model _ _ HM)) as (_ & IO). destruct (IO w (Hl w Hw)) as (_ & (l0 & -> & VO & _)).
      eapply at_state_nonneg; eauto. }
    assert (ON : forall s, (0 <= original m (moment (length (m_vars m)) b s))%Qc).
    { intros s0. apply qprod_nonneg. intros y Hy. apply in_map_iff in Hy. destruct Hy as (w & <- & Hw). apply in_seq in Hw.
      eapply (den_nonneg card); eauto.
      - destruct (mo_shape _ _ (so_model _ _ HM)) as (_ & X & _). apply X. lia.
      - apply (mo_orig _ _ (so_model _ _ HM)). lia. }
    unfold slice_factor. destruct s as [|s].
    - apply Qc_mul_nonneg; auto. apply PN. intros w Hw; auto.
    - apply given_nonneg. apply Qc_mul_nonneg; auto. apply PN. intros w Hw. apply filter_In in Hw. tauto. }
  assert (Z : valid (fun i => card (i mod length (m_vars m))) (fun _ => 0)) by (intros w; apply C0).
  apply Qc_mul_nonneg.
  - apply sumv_nonneg; auto. intros b Hb. apply given_nonneg. auto.
  - apply Qc_inv_nonneg. apply sumv_nonneg; auto.
Qed.
Lemma total_expected_nonneg : forall card m ts v ix, slices_ok card m -> (0 <= total_expected card m ts v ix)%Qc.
Proof.
  intros card m ts v ix HM. apply qsum_nonneg. intros x Hx. apply in_map_iff in Hx. destruct Hx as (s & <- & _).
  apply qsum_nonneg. intros y Hy. apply in_map_iff in Hy. destruct Hy as (t & <- & _). apply given_nonneg.
  now apply family_at_nonneg.
Qed.

Lemma em_iteration_ok : forall card ts m ps, learnable card m -> params_ok card m ps -> columns_positive card m ps ->
  Forall (series_ok m) ts ->
  exists m' ps' L e, em_iteration ts (m, ps) = Ok ((m', ps'), L, e) /\
    learnable card m' /\ same_structure m m' /\ installed card m ps m' /\ conditional_slices card m' /\
    params_ok card m' ps' /\
    ((e = BAD_LUCK /\ exists s, In s ts /\ likelihood card m' s = 0%Qc) \/
     (e = NO_ERROR /\ (forall s, In s ts -> likelihood card m' s <> 0%Qc) /\
      L = total_likelihood card m' ts /\ columns_positive card m' ps' /\
      forall v ix, v < length (m_vars m) -> valid_ix (map card (family m v)) ix ->
        cell (param ps' v) ix = (1 + total_expected card m' ts v ix)%Qc)).
Proof.
  intros card ts m ps HL HP HC HT. unfold em_iteration.
  destruct (m_step_ok card m HL ps HP) as (m1 & ps1 & E1 & L1 & S1 & P1 & D1 & J1 & F1 & R1 & _).
  { intros v Hv _. apply HC; auto. apply (zero_ok card m HL). }
  rewrite E1. cbn [bind is_err].
  assert (IN : installed card m ps m1) by (split; auto; intros a Ha; now apply J1).
  assert (CS := installed_conditional card m HL ps HP HC m1 S1 IN).
  assert (Ln : length (m_vars m1) = length (m_vars m)) by apply S1.
  assert (P1' : params_ok card m1 ps1).
  { destruct P1 as (A & B). split; [congruence|]. intros v Hv. rewrite (structure_family m m1 v S1). apply B. lia. }
  destruct (ones_params card m1 ps1 L1 P1') as (ps2 & E2 & P2 & O2). rewrite E2. cbn [bind].
  destruct (e_steps_ok card ts m1 ps2 1%Qc L1 CS) as (m3 & ps3 & L3 & e & E3 & M3 & S3 & P3 & H3); auto.
  { eapply Forall_impl; [|exact HT]. intros x (X1 & X2 & X3). split; auto. split; auto. rewrite Ln. auto. }
  rewrite E3. cbn [bind]. exists m3, ps3, L3, e. split; auto.
  assert (L3' : learnable card m3) by (eapply learnable_same; eauto). split; auto.
  split; [eapply same_structure_trans; [exact S1|now apply same_structure_model]|].
  split.
  { destruct IN as (I1 & I2). split.
    - intros a Ha. rewrite (same_original m1 m3 a S3). auto.
    - split; [eapply factored_same; eauto; apply I2|]. destruct I2 as (_ & I2). intros v Hv Hp. destruct (I2 v Hv Hp) as (l & X & Y). exists l. split; auto. rewrite <- X. apply S3. }
  split; [eapply conditional_same; eauto|]. split; [eapply params_same; eauto|].
  destruct H3 as [(-> & s & Hs & Zs)|(-> & K1 & K2 & K3)].
  - left. split; auto. exists s. split; auto. now rewrite (likelihood_same card m1 m3 s S3).
  - right. split; auto. split. { intros s Hs. rewrite (likelihood_same card m1 m3 s S3). auto. }
    split. { rewrite K2. unfold total_likelihood.
      rewrite (qprod_map_ext _ (likelihood card m3) (likelihood card m1)) by (intros; now apply likelihood_same). ring. }
    assert (FIN : forall v ix, v < length (m_vars m) -> valid_ix (map card (family m v)) ix ->
        cell (param ps3 v) ix = (1 + total_expected card m3 ts v ix)%Qc).
    { intros v ix Hv Hix. rewrite K3 by (rewrite ?(structure_family m m1 v S1); auto; lia).
      rewrite O2 by (rewrite ?(structure_family m m1 v S1); auto; lia). f_equal. unfold total_expected. apply qsum_map_ext.
      intros s _. symmetry. now apply expected_same. }
    split; auto.
    intros v a Hv Ha K.
    assert (Ln3 : length (m_vars m3) = length (m_vars m)) by (rewrite <- Ln; apply S3).
    assert (F3 : family m3 v = family m v) by (rewrite (family_same m1 m3 v S3); now apply structure_family).
    assert (Z : den (family m3 v) (param ps3 v) a = 0%Qc).
    { apply (sumv_zero_inv card [v] (den (family m3 v) (param ps3 v)) a); auto.
      - apply (dep_ext (family m3 v)), den_dep.
      - intros b Hb. apply (param_nonneg card m3 L3'); auto. eapply params_same; eauto. }
    unfold den in Z. rewrite F3 in Z. rewrite FIN in Z; [|lia|now apply valid_ix_map].
    assert (T := total_expected_nonneg card m3 ts v (map a (family m v)) (le_slices _ _ L3')).
    assert (X : (1 <= 1 + total_expected card m3 ts v (map a (family m v)))%Qc).
    { rewrite <- (Qcplus_0_r 1) at 1. apply Qcplus_le_compat; auto. apply Qcle_refl. }
    rewrite Z in X. apply (Qcle_not_lt _ _ X). reflexivity.
Qed.
