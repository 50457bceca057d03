(** * Proofs about evidence handling, part 2: resets, priors, posteriors *)
From Coq Require Import Permutation Field String.
From Verif Require Import Base BaseProofs PotentialModel PotentialSpec PotentialProofs
  PotentialProofs2 PotentialProofs3 VariableModel VariableProofs JoinTreeModel
  AssignSpec AssignProofs JoinTreeSpec JoinTreeProofs JoinTreeProofs2 JoinTreeProofs3
  JoinTreeProofs4 JoinTreeProofs5 JoinTreeProofs6 JoinTreeProofs7 NipModel NipSpec NipProofs.
Import ListNotations.
Open Scope nat_scope.
Local Open Scope res_scope.

Add Field Qcfield_nip2 : Qcft.

Lemma represents_ext : forall card m F G, (forall a, valid card a -> F a = G a) ->
  represents card m F -> represents card m G.
Proof. intros card m F G H R a Ha. rewrite R by auto. now rewrite H. Qed.

(** ** reset_model *)
Lemma at_ones : forall card v a, valid card a -> at_state (repeat 1%Qc (card v)) v a = 1%Qc.
Proof. intros. unfold at_state. apply nth_repeat_lt. auto. Qed.
Lemma ones_vector : forall card v, vector_ok card v (repeat 1%Qc (card v)).
Proof.
  intros. split; [apply repeat_length|]. apply Forall_forall. intros x Hx. apply repeat_spec in Hx.
  subst. discriminate.
Qed.

Lemma reset_model_ok : forall card m, model_ok card m ->
  exists m', reset_model m = Ok m' /\ model_ok card m' /\ same_model m m' /\
    (forall v, v < length (m_vars m) -> v_lik (var m' v) = repeat 1%Qc (card v) /\
       v_entered (var m' v) = false) /\
    represents card m' (fun _ => 1%Qc) /\
    (forall a, valid card a -> joint (m_jt m') a = original m a).
Proof.
  intros card m HM. unfold reset_model.
  match goal with |- context [for_up 0 ?n ?b ?s] =>
    destruct (for_up_inv model (fun i m' => model_ok card m' /\ same_model m m' /\
       forall v, v < i -> v_lik (var m' v) = repeat 1%Qc (card v) /\ v_entered (var m' v) = false) b 0 n s)
      as (m1 & E1 & A1 & A2 & A3) end.
  { lia. }
  { split; auto. split; [apply same_model_refl|]. intros; lia. }
  { intros i mi Hi (B1 & B2 & B3).
    assert (Li : length (m_vars mi) = length (m_vars m)) by apply B2.
    rewrite (reset_likelihood_ok card) by (auto; lia). cbn [bind].
    set (x := set_lik (var mi i) (repeat 1%Qc (card i))).
    rewrite rd_var by (rewrite putv_len; lia). cbn [bind].
    rewrite put_var_ok by (rewrite putv_len; lia).
    rewrite var_putv by lia. rewrite Nat.eqb_refl.
    assert (Hi' : i < length (m_vars mi)) by lia.
    assert (VX : var_ok card (m_jt mi) i x).
    { apply var_ok_lik; [now apply (mo_var _ _ B1)|apply ones_vector]. }
    assert (M1 : model_ok card (putv mi i x)).
    { apply model_ok_putv; auto. apply frame_lik. }
    assert (S1 : same_model mi (putv mi i x)) by (apply same_model_putv; auto; apply frame_lik).
    assert (FR : frame (var (putv mi i x) i) (set_entered x false)).
    { rewrite var_putv by lia. rewrite Nat.eqb_refl. repeat split. }
    eexists. split; [reflexivity|]. split.
    { apply model_ok_putv; auto. rewrite putv_len; lia. }
    split. { eapply same_model_trans; [exact B2|]. eapply same_model_trans; [exact S1|].
      apply same_model_putv; auto. rewrite putv_len; lia. }
    intros v Hv. rewrite var_putv by (rewrite putv_len; lia).
    destruct (Nat.eqb_spec v i) as [->|N]; [split; reflexivity|].
    rewrite var_putv by lia. destruct (Nat.eqb_spec v i); [lia|]. apply B3. lia. }
  rewrite E1. cbn [bind].
  destruct (global_retraction_ok card m1 A1) as (m' & E & C1 & C2 & C3 & C4 & C5).
  rewrite E. cbn [bind]. exists m'. split; auto. split; auto.
  assert (SM : same_model m m') by (eapply same_model_trans; eauto). split; auto.
  split. { intros v Hv. rewrite C3, C4. now apply A3. }
  split; auto. intros a Ha. rewrite C5 by auto. rewrite (same_original m m' a SM).
  assert (EV : evidence m' a = 1%Qc).
  { unfold evidence, weight. apply qprod_ones. intros v Hv. apply in_seq in Hv.
    assert (L' : length (m_vars m') = length (m_vars m)) by apply SM.
    rewrite C3. destruct (A3 v) as (-> & _); [lia|]. now apply at_ones. }
  rewrite EV. ring.
Qed.

(** ** Priors *)
Lemma enter_prior_ok : forall card m v l F, model_ok card m -> represents card m F ->
  v < length (m_vars m) -> vector_ok card v l -> (exists y, In y l /\ (0 < y)%Qc) ->
  exists m', enter_prior m v l = Ok (m', NO_ERROR) /\ model_ok card m' /\ same_model m m' /\
    (forall w, v_lik (var m' w) = v_lik (var m w)) /\
    (forall w, v_entered (var m' w) = v_entered (var m w)) /\
    represents card m' (fun a => F a * at_state l v a)%Qc.
Proof.
  intros card m v l F HM HR Hv Hl (y & Hy & Py). unfold enter_prior.
  destruct (find_family_ok card m v HM Hv) as (mf & k & Ef & F1 & F2 & F3 & F4 & F5 & F6 & F7 & _).
  rewrite Ef. cbn [bind].
  assert (Lf : length (m_vars mf) = length (m_vars m)) by apply F2.
  rewrite rd_var by lia. cbn [bind].
  assert (Hvf : v < length (m_vars mf)) by lia.
  destruct (mo_var _ _ F1 v Hvf) as (X1 & _). rewrite X1.
  match goal with |- context [for_up 0 ?n ?b ?s] =>
    destruct (for_up_inv bool (fun i e => e = negb (existsb (fun y => if Qclt_le_dec 0%Qc y then true else false) (firstn i l))) b 0 n s)
      as (e & Ee & He) end.
  { lia. } { reflexivity. }
  { intros i e Hi ->. destruct Hl as (Hl & _). rewrite (rd_ok _ l i 0%Qc) by lia. cbn [bind].
    eexists. split; [reflexivity|]. rewrite (firstn_S_nth _ l i 0%Qc) by lia. rewrite existsb_app. simpl.
    destruct (Qclt_le_dec 0%Qc (nth i l 0%Qc)); now rewrite ?orb_true_r, ?orb_false_r. }
  rewrite Ee. cbn [bind].
  assert (e = false) as ->.
  { rewrite He. apply negb_false_iff. apply existsb_exists. exists y. destruct Hl as (<- & _).
    rewrite firstn_all. split; auto. destruct (Qclt_le_dec 0%Qc y) as [|K]; auto.
    apply Qcle_not_lt in K. tauto. }
  destruct (multiply_vector_ok card mf k v l None) as (jt' & Em & G1 & G2 & G3 & G4); auto.
  { rewrite F3. auto. } { rewrite F3. apply F7. simpl; auto. }
  rewrite Em. cbn [bind]. exists (set_jt mf jt'). split; [reflexivity|].
  split; [now apply model_ok_jt|].
  assert (SM : same_model m (set_jt mf jt')).
  { eapply same_model_trans; [exact F2|]. now apply same_model_jt. }
  split; auto. split; [exact F4|]. split; [exact F5|].
  intros a Ha. cbn [m_jt set_jt]. rewrite G4 by auto. cbn [option_map evid1]. rewrite F3, HR by auto.
  rewrite (same_original m _ a SM).
  assert (EV : evidence (set_jt mf jt') a = evidence m a).
  { unfold evidence. cbn [m_vars set_jt]. rewrite Lf. apply weight_ext. intros w _. apply F4. }
  rewrite EV. ring.
Qed.

Lemma use_priors_ok : forall card m hist F, model_ok card m -> represents card m F ->
  exists m', use_priors m hist = Ok m' /\ model_ok card m' /\ same_model m m' /\
    (forall w, v_lik (var m' w) = v_lik (var m w)) /\
    (forall w, v_entered (var m' w) = true <-> v_entered (var m w) = true \/ In w (pending m hist)) /\
    represents card m' (fun a => F a * priors m (pending m hist) a)%Qc.
Proof.
  intros card m hist F HM HR. unfold use_priors.
  set (sel := fun v => (negb (v_entered (var m v)) && (negb hist || negb (v_old (var m v))))%bool).
  assert (SelP : pending m hist = filter sel (m_indep m)) by reflexivity.
  destruct (mo_indep _ _ HM) as (ND & HI).
  match goal with |- context [for_up 0 ?n ?b ?s] =>
    destruct (for_up_inv model (fun i m' => model_ok card m' /\ same_model m m' /\
      (forall w, v_lik (var m' w) = v_lik (var m w)) /\
      (forall w, v_entered (var m' w) = true <->
         v_entered (var m w) = true \/ In w (filter sel (firstn i (m_indep m)))) /\
      represents card m' (fun a => F a * priors m (filter sel (firstn i (m_indep m))) a)%Qc) b 0 n s)
      as (m1 & E1 & A1 & A2 & A3 & A4 & A5) end.
  { lia. }
  { split; auto. split; [apply same_model_refl|]. split; auto. split; [simpl; tauto|].
    intros a Ha. rewrite HR by auto. unfold priors. simpl. ring. }
  { intros i mi Hi (B1 & B2 & B3 & B4 & B5).
    assert (Ii : m_indep mi = m_indep m) by apply B2. rewrite Ii.
    rewrite (rd_ok _ (m_indep m) i 0) by lia. cbn [bind].
    set (v := nth i (m_indep m) 0) in *.
    assert (Iv : In v (m_indep m)) by (apply nth_In; lia).
    destruct (HI v Iv) as (Hv & (l & El & Vl & Pl)).
    assert (Li : length (m_vars mi) = length (m_vars m)) by apply B2.
    rewrite rd_var by lia. cbn [bind].
    assert (Fr : v_prior (var mi v) = v_prior (var m v) /\ v_old (var mi v) = v_old (var m v)).
    { destruct B2 as (_ & _ & SV & _). destruct (SV v) as (_ & Q2 & _ & Q4 & _). auto. }
    destruct Fr as (Fr1 & Fr2). rewrite Fr1, El.
    assert (NF : ~ In v (firstn i (m_indep m))).
    { intros K. apply (In_nth _ _ 0) in K. destruct K as (j & Hj & K).
      rewrite firstn_length in Hj. rewrite nth_firstn_lt in K by lia.
      assert (j = i); [|lia]. eapply (proj1 (NoDup_nth (m_indep m) 0) ND); try lia. }
    rewrite (firstn_S_nth _ (m_indep m) i 0) by lia. fold v. rewrite filter_app. cbn [filter].
    assert (EnE : v_entered (var mi v) = v_entered (var m v)).
    { apply eq_true_iff_eq. rewrite B4. rewrite filter_In. tauto. }
    assert (Sv : sel v = (negb (v_entered (var m v)) && (negb hist || negb (v_old (var m v))))%bool) by reflexivity.
    rewrite Sv, EnE, Fr2. clearbody sel.
    destruct (v_entered (var m v)) eqn:EN; cbn [negb andb].
    { exists mi. split; [reflexivity|]. rewrite app_nil_r. auto. }
    destruct (negb hist || negb (v_old (var m v)))%bool eqn:HB.
    2: { exists mi. split; [reflexivity|]. rewrite app_nil_r. auto. }
    destruct (enter_prior_ok card mi v l _ B1 B5) as (mp & Ep & P1 & P2 & P3 & P4 & P5); auto; [lia|].
    rewrite Ep. cbn [bind].
    assert (Lp : length (m_vars mp) = length (m_vars m)) by (rewrite <- Li; apply P2).
    rewrite rd_var by lia. cbn [bind]. rewrite put_var_ok by lia.
    assert (FR : frame (var mp v) (set_entered (var mp v) true)) by (repeat split).
    assert (Hvp : v < length (m_vars mp)) by lia.
    eexists. split; [reflexivity|].
    split. { apply model_ok_putv; auto. assert (X := mo_var _ _ P1 v Hvp). exact X. }
    assert (SM : same_model mi (putv mp v (set_entered (var mp v) true))).
    { eapply same_model_trans; [exact P2|]. now apply same_model_putv. }
    split; [eapply same_model_trans; [exact B2|exact SM]|].
    split. { intros w. rewrite var_putv by auto. destruct (Nat.eqb_spec w v) as [->|]; cbn [v_lik set_entered]; now rewrite P3, B3. }
    split. { intros w. rewrite var_putv by auto. rewrite in_app_iff. destruct (Nat.eqb_spec w v) as [->|N].
      - cbn. intuition.
      - rewrite P4, B4. simpl. intuition congruence. }
    intros a Ha.
    change (joint (m_jt (putv mp v (set_entered (var mp v) true))) a) with (joint (m_jt mp) a).
    rewrite P5 by auto. rewrite (same_original mi _ a SM), (same_original mi mp a P2).
    assert (EV : evidence (putv mp v (set_entered (var mp v) true)) a = evidence mp a).
    { unfold evidence. rewrite putv_len. apply weight_ext. intros w _. rewrite var_putv by auto.
      destruct (Nat.eqb_spec w v) as [->|]; auto. }
    rewrite EV. unfold priors. rewrite map_app, qprod_app. cbn [map qprod]. rewrite El. ring. }
  rewrite E1. exists m1. rewrite firstn_all in *. rewrite SelP. auto 10.
Qed.

Lemma joint_nonneg : forall card jt a, shape_ok card jt -> tables_nonneg jt -> valid card a ->
  (0 <= joint jt a)%Qc.
Proof.
  intros card jt a HS HN Ha. unfold joint, Qcdiv. apply Qc_mul_nonneg; [|apply Qc_inv_nonneg];
  apply qprod_nonneg; intros x Hx; apply in_map_iff in Hx; destruct Hx as (i & <- & Hi); apply in_seq in Hi.
  - apply (phi_nonneg card); auto. lia.
  - apply (psi_nonneg card); auto. lia.
Qed.

(** ** make_consistent *)
Lemma make_consistent_model_ok : forall card m, model_ok card m ->
  exists jt', make_consistent_model m = Ok (set_jt m jt') /\ make_consistent (m_jt m) = Ok (jt', NO_ERROR) /\
    model_ok card (set_jt m jt') /\
    same_model m (set_jt m jt') /\ calibrated card jt' /\
    (forall a, valid card a -> joint jt' a = joint (m_jt m) a).
Proof.
  intros card m HM. unfold make_consistent_model.
  destruct (C32_lemma card (m_jt m) (mo_shape _ _ HM) (mo_nonneg _ _ HM) (mo_tree _ _ HM))
    as (jt' & E & S1 & S2 & S3 & S4 & S5).
  rewrite E. cbn [bind]. exists jt'. split; auto. split; auto. split; [now apply model_ok_jt|].
  split; [now apply same_model_jt|]. auto.
Qed.

Lemma represents_jt : forall card m jt F, represents card m F -> same_shape (m_jt m) jt ->
  (forall a, valid card a -> joint jt a = joint (m_jt m) a) -> represents card (set_jt m jt) F.
Proof.
  intros card m jt F HR SH HJ a Ha. cbn [m_jt set_jt]. rewrite HJ, HR by auto.
  rewrite (same_original m (set_jt m jt) a) by (now apply same_model_jt). reflexivity.
Qed.

(** ** Posterior *)
Lemma all_vars_model : forall card m, model_ok card m ->
  Permutation (all_vars (m_jt m)) (seq 0 (length (m_vars m))).
Proof.
  intros card m HM. apply NoDup_Permutation.
  - apply all_vars_nodup.
  - apply seq_NoDup.
  - intros v. rewrite all_vars_in, in_seq. split.
    + intros (i & Hi & Hv). pose proof (mo_scope _ _ HM i v Hi Hv). lia.
    + intros (_ & Hv). destruct (mo_var _ _ HM v) as (_ & _ & (k & K1 & K2) & _); [lia|].
      exists k. split; auto. apply K2. simpl; auto.
Qed.

Lemma zero_valid : forall card m, model_ok card m -> valid card (fun _ => 0).
Proof. intros card m HM v. now apply (shape_card card (m_jt m) (mo_shape _ _ HM)). Qed.

(** The sum of the marginal is the sum of everything. *)
Lemma sum_where_total : forall card m f v, model_ok card m -> v < length (m_vars m) -> ext f ->
  qsum (map (sum_where card m f v) (seq 0 (card v))) = sum_all card m f.
Proof.
  intros card m f v HM Hv HF. unfold sum_all, sum_where.
  rewrite (sumv_perm card (seq 0 (length (m_vars m))) ([v] ++ minus (seq 0 (length (m_vars m))) [v])); auto.
  apply split_perm.
  - apply seq_NoDup.
  - repeat constructor. auto.
  - intros x [<-|[]]. apply in_seq. lia.
Qed.

Lemma get_probability_ok : forall card m v, model_ok card m -> v < length (m_vars m) ->
  forall m1, make_consistent_model m = Ok m1 ->
  exists m2 r, get_probability m1 v = Ok (m2, Some r) /\ same_model m m2 /\ m_jt m2 = m_jt m1 /\
    length r = card v /\
    forall x, x < card v ->
      nth x r 0%Qc = (sum_where card m (joint (m_jt m)) v x / sum_all card m (joint (m_jt m)))%Qc.
Proof.
  intros card m v HM Hv m1 E1.
  destruct (make_consistent_model_ok card m HM) as (jt' & E & Ej & M1 & S1 & C1 & J1).
  rewrite E in E1. inversion E1; subst m1; clear E1. unfold get_probability.
  rewrite rd_var by (cbn; auto). cbn [bind].
  change (var (set_jt m jt') v) with (var m v).
  destruct (mo_var _ _ HM v Hv) as (X1 & _). rewrite X1.
  destruct (find_family_ok card (set_jt m jt') v M1) as (mf & k & Ef & F1 & F2 & F3 & F4 & F5 & F6 & F7 & _);
    [auto|].
  rewrite Ef. cbn [bind]. rewrite F3. cbn [m_jt set_jt] in *.
  assert (Lk : length (cls jt') = length (cls (m_jt m))) by apply S1.
  assert (Cv : c_vars (clq jt' k) = c_vars (clq (m_jt m) k)).
  { destruct S1 as ((_ & _ & SC & _) & _). apply SC. }
  destruct (C33_variable_lemma card (m_jt m) jt' NO_ERROR (mo_shape _ _ HM) (mo_nonneg _ _ HM)
     (mo_tree _ _ HM) (mo_rip _ _ HM) Ej k v (repeat 0%Qc (card v))) as (r & Er & Lr & Hr).
  { lia. } { rewrite <- Cv. apply F7. simpl; auto. } { apply repeat_length. }
  rewrite Er. cbn [bind]. assert (NO := normalise_array_ok r); rewrite Lr in NO; rewrite NO. cbn [bind].
  exists mf, (normalised r). split; [reflexivity|].
  split. { eapply same_model_trans; [exact S1|exact F2]. } split; [auto|].
  assert (Hx : forall x, x < card v -> nth x r 0%Qc = sum_where card m (joint (m_jt m)) v x).
  { intros x Hx. unfold sum_where.
    assert (Va : valid card (upd (fun _ => 0) v x)) by (apply upd_valid; auto; now apply (zero_valid card m)).
    specialize (Hr _ Va). rewrite upd_same in Hr. rewrite Hr.
    apply sumv_perm; [|apply joint_is_ext]. apply minus_perm. now apply (all_vars_model card). }
  assert (Tot : qsum r = sum_all card m (joint (m_jt m))).
  { rewrite <- (sum_where_total card m (joint (m_jt m)) v HM Hv (joint_is_ext _)).
    rewrite <- (map_nth_seq Qc 0%Qc r) at 1. rewrite Lr. apply qsum_map_ext. intros x Hx'. apply in_seq in Hx'.
    apply Hx. lia. }
  split. { unfold normalised. destruct (qzero (qsum r)); [auto|]. now rewrite map_length. }
  intros x Hx'. unfold normalised. rewrite Tot. rewrite <- Hx by auto.
  destruct (qzero (sum_all card m (joint (m_jt m)))) eqn:Z.
  - apply qzero_true in Z. rewrite Z. unfold Qcdiv. rewrite Qcinv_0.
    rewrite Hx by auto.
    assert (Zx : sum_where card m (joint (m_jt m)) v x = 0%Qc).
    { rewrite <- (sum_where_total card m (joint (m_jt m)) v HM Hv (joint_is_ext _)) in Z.
      eapply qsum_zero_inv; [|exact Z|].
      - intros y Hy. apply in_map_iff in Hy. destruct Hy as (z & <- & Hz). apply in_seq in Hz.
        unfold sum_where. apply sumv_nonneg.
        + apply upd_valid; [now apply (zero_valid card m)|lia].
        + intros b Hb. apply (joint_nonneg card); auto; apply HM.
      - apply in_map. apply in_seq. lia. }
    rewrite Zx. ring.
  - rewrite (nth_map _ _ _ _ _ 0%Qc) by (rewrite Lr; auto). reflexivity.
Qed.
