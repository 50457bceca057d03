(** * Rounded arithmetic: evidence, priors, resets, posteriors *)
From Coq Require Import ZArith QArith Qcanon Field Lia Permutation String.
From Verif Require Import Base BaseProofs PotentialModel PotentialSpec PotentialProofs PotentialProofs2
  PotentialProofs3 VariableModel VariableProofs JoinTreeModel AssignSpec AssignProofs JoinTreeSpec
  JoinTreeProofs JoinTreeProofs2 JoinTreeProofs3 JoinTreeProofs4 JoinTreeProofs5 JoinTreeProofs6 JoinTreeProofs7
  NipModel NipSpec NipProofs NipProofs2 NipProofs3 RoundModel RoundSpec RoundProofs RoundProofs3
  RoundProofs4 RoundProofs5 RoundProofs6 RoundProofs7.
Import ListNotations.
Open Scope nat_scope.
Local Open Scope list_scope.
Local Open Scope res_scope.
Add Field QcfieldRound8 : Qcft.

Lemma qprod_change1_nn : forall (f g : nat -> Qc) n k, k < n ->
  (forall i, i <> k -> f i = g i) -> (forall i, i < n -> (0 <= g i)%Qc) ->
  exists r, qprod (map f (seq 0 n)) = (f k * r)%Qc /\ qprod (map g (seq 0 n)) = (g k * r)%Qc /\ (0 <= r)%Qc.
Proof.
  intros f g n k Hk H HP.
  assert (P : Permutation (seq 0 n) ([k] ++ minus (seq 0 n) [k])).
  { apply split_perm.
    - apply seq_NoDup.
    - repeat constructor. auto.
    - intros x [<-|[]]. apply in_seq. lia. }
  exists (qprod (map g (minus (seq 0 n) [k]))). split; [|split].
  - rewrite (qprod_perm _ _ (Permutation_map f P)). simpl. f_equal. apply qprod_map_ext.
    intros x Hx. apply H. intros ->. apply minus_in in Hx. simpl in Hx. tauto.
  - rewrite (qprod_perm _ _ (Permutation_map g P)). reflexivity.
  - apply qprod_nonneg. intros x Hx. apply in_map_iff in Hx. destruct Hx as (i & <- & Hi).
    apply minus_in in Hi. destruct Hi as (Hi & _). apply in_seq in Hi. apply HP. lia.
Qed.

Section Evidence.
Variable u : Qc.
Variable fl : Qc -> Qc.
Hypothesis Hu0 : (0 <= u)%Qc.
Hypothesis Hu1 : (u < 1)%Qc.
Hypothesis Hfl : forall x, (0 <= x)%Qc -> near u 1 x (fl x).
Variable card : nat -> nat.

Lemma evid1_keeps : forall k num den x y, (0 <= num)%Qc -> (forall z, den = Some z -> (0 <= z)%Qc) ->
  near u k x y -> near u k (evid1 num den x) (evid1 num den y).
Proof.
  intros k num den x y Hn Hd H. unfold evid1. assert (K := near_mul_r u Hu0 Hu1 k num x y Hn H).
  destruct den as [z|]; auto. destruct (qzero z); auto. apply near_div_r; auto.
Qed.

(** The tree represents, up to [k] roundings, the original joint times the
    present evidence times a factor [F]. *)
Definition rrep (k : nat) (m : model) (F : (nat -> nat) -> Qc) : Prop :=
  forall a, valid card a -> near u k (original m a * evidence m a * F a)%Qc (joint (m_jt m) a).

Lemma rrep_le : forall j k m F, j <= k -> rrep j m F -> rrep k m F.
Proof. intros j k m F H R a Ha. eapply near_le; eauto. Qed.
Lemma rrep_ext : forall k m F G, (forall a, valid card a -> F a = G a) -> rrep k m F -> rrep k m G.
Proof. intros k m F G H R a Ha. rewrite <- H by auto. now apply R. Qed.

Lemma original_nonneg : forall m a, model_ok card m -> valid card a -> (0 <= original m a)%Qc.
Proof.
  intros m a HM Ha. unfold original. apply qprod_nonneg. intros x Hx. apply in_map_iff in Hx.
  destruct Hx as (i & <- & Hi). apply in_seq in Hi.
  assert (Hi' : i < length (cls (m_jt m))) by lia.
  destruct (mo_shape _ _ HM) as (_ & HC & _). destruct (HC i Hi') as (_ & T & _).
  assert (HN := mo_orig _ _ HM i Hi'). now apply (den_nonneg card).
Qed.
Lemma weight_nonneg : forall m n, model_ok card m -> n <= length (m_vars m) -> forall a, valid card a ->
  (0 <= weight n (fun v => v_lik (var m v)) a)%Qc.
Proof.
  intros m n HM Hn a Ha. unfold weight. apply qprod_nonneg. intros x Hx. apply in_map_iff in Hx.
  destruct Hx as (v & <- & Hv). apply in_seq in Hv. apply (at_state_nonneg card); auto.
  apply (mo_var _ _ HM). lia.
Qed.

Lemma r_multiply_vector_ok : forall m c v num den, model_ok card m ->
  c < length (cls (m_jt m)) -> In v (c_vars (clq (m_jt m) c)) -> vector_ok card v num ->
  (match den with Some d => vector_ok card v d | None => True end) ->
  exists jt', r_multiply_vector (rt fl) m (Some c) v num den = Ok (set_jt m jt') /\
    same_shape (m_jt m) jt' /\ shape_ok card jt' /\ tables_nonneg jt' /\
    forall a, valid card a ->
      near u (1 + (match den with Some _ => 1 | None => 0 end))
        (evid1 (at_state num v a) (option_map (fun d => at_state d v a) den) (joint (m_jt m) a)) (joint jt' a).
Proof.
  intros m c v num den HM Hc Hv HN HD. unfold r_multiply_vector.
  assert (HS := mo_shape _ _ HM). set (jt := m_jt m) in *.
  set (K := 1 + (match den with Some _ => 1 | None => 0 end)).
  rewrite rd_clq by auto. cbn [bind]. assert (HS' := HS). destruct HS' as (HC & HCl & HSp).
  destruct (HCl c Hc) as (T & To & NE & _).
  destruct (clique_var_index_ok card (clq jt c) v T NE) as (ix & Ei & Hi). rewrite Ei. cbn [bind].
  destruct ix as [ix|]; [|contradiction]. destruct Hi as (Hi1 & Hi2).
  assert (T' := T). destruct T' as (TN & TW & TD).
  assert (Dv : nth ix (dims (c_p (clq jt c))) 0 = card v).
  { rewrite TD. rewrite (nth_map _ _ _ _ _ 0 0) by auto. now rewrite Hi2. }
  destruct (r_update_evidence_ok fl num den (c_p (clq jt c)) ix) as (p & Ep & Dp & Wp & Hp); auto.
  { now rewrite (table_dim card _ _ T). }
  { rewrite Dv. destruct HN as (-> & _). auto. }
  { destruct den as [d|]; auto. rewrite Dv. destruct HD as (-> & _). auto. }
  rewrite Ep. cbn [bind]. rewrite put_clique_ok by auto. cbn [bind].
  set (jt' := mkJT (set_nth (cls jt) c (set_p (clq jt c) p)) (sps jt)).
  exists jt'. split; [reflexivity|].
  assert (Q : forall k, clq jt' k = if Nat.eqb k c then set_p (clq jt c) p else clq jt k).
  { intros k. unfold jt'. rewrite clq_set by auto. now rewrite jt_eta. }
  assert (QS : forall k, sep jt' k = sep jt k) by reflexivity.
  assert (SH : same_shape jt jt').
  { split; [cbn; apply set_nth_length|]. split; [reflexivity|]. split; [|intros; auto].
    intros k. rewrite Q. destruct (Nat.eqb_spec k c) as [->|]; auto. }
  assert (Tp : table card (c_vars (clq jt c)) p).
  { split; auto. split; auto. congruence. }
  assert (SO : shape_ok card jt').
  { apply (shape_ok_change card jt); auto.
    - intros k Hk. rewrite Q. destruct (Nat.eqb_spec k c) as [->|]; auto. now apply HCl.
    - intros s Hs. rewrite QS. now apply HSp.
    - intros s Hs. rewrite QS. now apply HSp. }
  assert (PH : forall a, valid card a -> near u K (evid1 (at_state num v a) (option_map (fun d => at_state d v a) den) (phi jt c a)) (phi jt' c a)).
  { intros a Ha. assert (P0 := phi_nonneg card jt c a HS (mo_nonneg _ _ HM) Hc Ha). unfold phi in *. rewrite Q, Nat.eqb_refl. cbn [c_p c_vars set_p]. unfold AssignSpec.den in *.
    rewrite Hp by (rewrite TD; now apply valid_ix_map).
    rewrite (nth_map _ _ _ _ _ 0 0) by auto. rewrite Hi2.
    replace K with (1 + (match option_map (fun d => nth (a v) d 0%Qc) den with Some _ => 1 | None => 0 end)) by (destruct den; reflexivity).
    apply (evid1_near u fl Hu0 Hu1 Hfl); auto; [apply (at_state_nonneg card); auto|].
    intros y Hy. destruct den as [d|]; [|discriminate]. injection Hy as <-. now apply (at_state_nonneg card v d). }
  assert (L1 : length (cls jt') = length (cls jt)) by (apply SH).
  split; auto. split; auto. split.
  - apply (nonneg_intro card); auto.
    + intros i a Hk Ha. rewrite L1 in Hk. destruct (Nat.eq_dec i c) as [->|N].
      * apply (near_nonneg u Hu0 Hu1) with (1 := PH a Ha).
      * replace (phi jt' i a) with (phi jt i a). { apply (phi_nonneg card); auto. apply HM. }
        unfold phi. rewrite Q. destruct (Nat.eqb_spec i c); congruence.
    + intros s a Hs Ha. apply (psi_nonneg card jt s a); auto. apply HM.
  - intros a Ha. unfold joint. rewrite L1.
    destruct (qprod_change1_nn (fun i => phi jt' i a) (fun i => phi jt i a) (length (cls jt)) c Hc)
      as (r & R1 & R2 & R3).
    { intros i N. unfold phi. rewrite Q. destruct (Nat.eqb_spec i c); congruence. }
    { intros i Hi. apply (phi_nonneg card); auto. apply HM. }
    rewrite R1, R2. cbv beta.
    replace (evid1 (at_state num v a) (option_map (fun d : list Qc => at_state d v a) den)
       (phi jt c a * r / qprod (map (fun s => psi jt s a) (seq 0 (length (sps jt))))))%Qc
      with (evid1 (at_state num v a) (option_map (fun d : list Qc => at_state d v a) den) (phi jt c a)
       * r / qprod (map (fun s => psi jt s a) (seq 0 (length (sps jt)))))%Qc
      by (unfold Qcdiv; now rewrite !evid1_mul).
    change (length (sps jt')) with (length (sps jt)). change (psi jt') with (psi jt).
    apply near_div_r; auto; [|apply near_mul_r; auto].
    apply qprod_nonneg. intros x Hx. apply in_map_iff in Hx. destruct Hx as (s & <- & Hs). apply in_seq in Hs.
    apply (psi_nonneg card); auto. apply HM. lia.

Qed.

Lemma r_global_retraction_ok : forall m, model_ok card m ->
  exists m', r_global_retraction (rt fl) m = Ok (m', NO_ERROR) /\ model_ok card m' /\ same_model m m' /\
    (forall w, v_lik (var m' w) = v_lik (var m w)) /\
    (forall w, v_entered (var m' w) = v_entered (var m w)) /\
    rrep (length (m_vars m)) m' (fun _ => 1%Qc).
Proof.
  intros m HM. unfold r_global_retraction.
  destruct (unmark_all_ok (m_jt m)) as (j0 & E0 & MO & M0). rewrite E0. cbn [bind].
  assert (L0 : length (cls j0) = length (cls (m_jt m))) by (destruct MO as (_ & -> & _); auto).
  rewrite L0.
  destruct (retract_tree_ok card (m_jt m) (mo_shape _ _ HM) j0 (mo_tree _ _ HM) MO) as (j1 & E1 & R).
  { intros i Hi. apply M0; lia. }
  rewrite E1. cbn [bind].
  destruct R as [R1 R2 R3 R4 R5].
  assert (RN : tables_nonneg j1).
  { destruct (shape_len _ _ R1) as (L1 & L2). split.
    - intros i Hi. rewrite R3 by lia. apply HM. lia.
    - intros s Hs. apply R5. lia. }
  assert (M1 : model_ok card (set_jt m j1)) by (now apply model_ok_jt).
  assert (J1 : forall a, valid card a -> joint j1 a = original m a).
  { intros a Ha. unfold joint, original. destruct (shape_len _ _ R1) as (L1 & L2). rewrite L1, L2.
    rewrite (qprod_ones _ (seq 0 (length (sps (m_jt m))))).
    - replace (qprod (map (fun i => phi j1 i a) (seq 0 (length (cls (m_jt m)))))) with (original m a).
      + change (original m a / 1 = original m a)%Qc. field. discriminate.
      + apply qprod_map_ext. intros i Hi. apply in_seq in Hi. unfold phi. rewrite R3 by lia.
        destruct R1 as (_ & _ & SC & _). destruct (SC i) as (-> & _). reflexivity.
    - intros s Hs. apply in_seq in Hs. apply R4; auto. lia. }
  match goal with |- context [for_up 0 ?n ?b ?s] =>
    destruct (for_up_inv model (fun i m' => model_ok card m' /\ same_model m m' /\
       (forall w, v_lik (var m' w) = v_lik (var m w)) /\
       (forall w, v_entered (var m' w) = v_entered (var m w)) /\
       forall a, valid card a ->
         near u i (original m a * weight i (fun v => v_lik (var m v)) a)%Qc (joint (m_jt m') a)) b 0 n s)
      as (m2 & E2 & A1 & A2 & A3 & A4 & A5) end.
  { lia. }
  { split; auto. split; [now apply same_model_jt|]. split; auto. split; auto.
    intros a Ha. cbn [m_jt set_jt]. rewrite J1 by auto. unfold weight. simpl.
    replace (original m a * 1)%Qc with (original m a) by ring. apply near_refl; auto. now apply original_nonneg. }
  { intros i mi Hi (B1 & B2 & B3 & B4 & B5).
    assert (Li : length (m_vars mi) = length (m_vars m)) by apply B2.
    destruct (find_family_ok card mi i B1) as (mf & k & Ef & F1 & F2 & F3 & F4 & F5 & F6 & F7 & _); [lia|].
    rewrite Ef. cbn [bind].
    assert (Lf : length (m_vars mf) = length (m_vars m)) by (rewrite <- Li; apply F2).
    rewrite rd_var by lia. cbn [bind].
    destruct (r_multiply_vector_ok mf k i (v_lik (var mf i)) None) as (jt' & Em & G1 & G2 & G3 & G4); auto.
    { rewrite F3. auto. } { rewrite F3. apply F7. simpl; auto. }
    { apply (mo_var _ _ F1). lia. }
    rewrite Em. eexists. split; [reflexivity|].
    split; [now apply model_ok_jt|].
    split. { eapply same_model_trans; [exact B2|]. eapply same_model_trans; [exact F2|].
      now apply same_model_jt. }
    split. { intros w. change (var (set_jt mf jt') w) with (var mf w). now rewrite F4, B3. }
    split. { intros w. change (var (set_jt mf jt') w) with (var mf w). now rewrite F5, B4. }
    intros a Ha. cbn [m_jt set_jt]. specialize (G4 a Ha). cbn [option_map evid1] in G4.
    rewrite F3 in G4. rewrite F4, B3 in G4. rewrite weight_S. replace (S i) with (i + 1) by lia.
    eapply (near_trans u Hu0 Hu1); [|exact G4].
    replace (original m a * (weight i (fun v => v_lik (var m v)) a * at_state (v_lik (var m i)) i a))%Qc
      with (original m a * weight i (fun v => v_lik (var m v)) a * at_state (v_lik (var m i)) i a)%Qc by ring.
    apply near_mul_r; auto. apply (at_state_nonneg card); auto. apply (mo_var _ _ HM). lia. }
  cbn [m_vars set_jt] in E2. rewrite E2. cbn [bind].
  exists m2. split; [reflexivity|]. split; auto. split; auto. split; auto. split; auto.
  intros a Ha. rewrite (same_original m m2 a A2). unfold evidence.
  assert (L2 : length (m_vars m2) = length (m_vars m)) by apply A2. rewrite L2.
  rewrite (weight_ext _ (fun v => v_lik (var m2 v)) (fun v => v_lik (var m v))) by auto.
  rewrite Qcmult_1_r. now apply A5.
Qed.

Lemma r_enter_evidence_ok : forall k0 m v e F, model_ok card m -> rrep k0 m F ->
  v < length (m_vars m) -> vector_ok card v e ->
  exists m', r_enter_evidence (rt fl) m v (Some e) = Ok (m', NO_ERROR) /\ model_ok card m' /\ same_model m m' /\
    (forall w, v_lik (var m' w) = if Nat.eqb w v then e else v_lik (var m w)) /\
    (forall w, v_entered (var m' w) = v_entered (var m w)) /\
    (revives (v_lik (var m v)) e -> rrep (length (m_vars m)) m' (fun _ => 1%Qc)) /\
    (~ revives (v_lik (var m v)) e -> rrep (k0 + 2) m' F).
Proof.
  intros k0 m v e F HM HR Hv He. unfold r_enter_evidence.
  destruct (find_family_ok card m v HM Hv) as (mf & k & Ef & F1 & F2 & F3 & F4 & F5 & F6 & F7 & _).
  rewrite Ef. cbn [bind].
  assert (Lf : length (m_vars mf) = length (m_vars m)) by apply F2.
  rewrite rd_var by lia. cbn [bind].
  assert (Hvf : v < length (m_vars mf)) by lia.
  assert (XV := mo_var _ _ F1 v Hvf). assert (XV' := XV).
  destruct XV' as (X1 & (X2 & X2') & _). rewrite X1.
  set (l := v_lik (var mf v)) in *.
  match goal with |- context [for_up 0 ?n ?b ?s] =>
    destruct (for_up_inv bool (fun i r => r = reviveb l e i) b 0 n s) as (r & Er & Hr) end.
  { lia. } { reflexivity. }
  { intros i r Hi ->. destruct He as (He & _).
    rewrite (rd_ok _ l i 0%Qc) by lia. cbn [bind]. rewrite (rd_ok _ e i 0%Qc) by lia. cbn [bind].
    eexists. split; [reflexivity|]. unfold reviveb. rewrite seq_S, existsb_app. simpl.
    destruct (qzero (nth i l 0%Qc) && negb (qzero (nth i e 0%Qc)))%bool; now rewrite ?orb_true_r, ?orb_false_r. }
  rewrite Er. cbn [bind].
  assert (Rs : r = true <-> revives (v_lik (var m v)) e).
  { rewrite <- F4. fold l. rewrite Hr, <- X2. apply reviveb_spec. }
  assert (FR := frame_lik (var mf v) e).
  destruct r.
  - assert (RV : revives (v_lik (var m v)) e) by (now apply Rs).
    cbn [bind]. rewrite (update_likelihood_ok card) by (auto; apply He). cbn [bind].
    set (mu := putv mf v (set_lik (var mf v) e)).
    assert (MU : model_ok card mu).
    { apply model_ok_putv; auto. now apply var_ok_lik. }
    destruct (r_global_retraction_ok mu MU) as (m' & E & A1 & A2 & A3 & A4 & A5).
    exists m'. split; [exact E|]. split; auto.
    split. { eapply same_model_trans; [exact F2|]. eapply same_model_trans; [|exact A2].
      now apply same_model_putv. }
    split. { intros w. rewrite A3. unfold mu. rewrite var_putv by auto.
      destruct (Nat.eqb_spec w v); auto. }
    split. { intros w. rewrite A4. unfold mu. rewrite var_putv by auto.
      destruct (Nat.eqb_spec w v) as [->|]; cbn; auto. }
    split; [|tauto]. intros _. replace (length (m_vars m)) with (length (m_vars mu)); [exact A5|].
    unfold mu. now rewrite putv_len.
  - assert (RV : ~ revives (v_lik (var m v)) e) by (intros K; apply Rs in K; discriminate).
    destruct (r_multiply_vector_ok mf k v e (Some l)) as (jt' & Em & G1 & G2 & G3 & G4); auto.
    { rewrite F3. auto. } { rewrite F3. apply F7. simpl; auto. } { split; auto. }
    rewrite Em. cbn [bind].
    assert (M1 : model_ok card (set_jt mf jt')) by (now apply model_ok_jt).
    rewrite (update_likelihood_ok card) by (auto; apply He). cbn [bind].
    change (var (set_jt mf jt') v) with (var mf v).
    set (mu := putv (set_jt mf jt') v (set_lik (var mf v) e)).
    assert (LK : forall w, v_lik (var mu w) = if Nat.eqb w v then e else v_lik (var m w)).
    { intros w. unfold mu. rewrite var_putv by auto.
      destruct (Nat.eqb_spec w v); auto. apply F4. }
    assert (SM : same_model m mu).
    { eapply same_model_trans; [exact F2|]. eapply same_model_trans; [apply same_model_jt; exact G1|].
      apply same_model_putv; auto. }
    exists mu. split; [reflexivity|].
    split. { apply model_ok_putv; auto. apply var_ok_lik; auto. apply (mo_var _ _ M1 v). auto. }
    split; auto. split; auto.
    split. { intros w. unfold mu. rewrite var_putv by auto.
      destruct (Nat.eqb_spec w v) as [->|]; [cbn|]; apply F5. }
    split; [tauto|]. intros _ a Ha.
    change (joint (m_jt mu) a) with (joint jt' a). specialize (G4 a Ha). rewrite F3 in G4. cbn [Nat.add option_map] in G4.
    eapply (near_trans u Hu0 Hu1); [|exact G4].
    replace (original mu a * evidence mu a * F a)%Qc with
      (evid1 (at_state e v a) (Some (at_state l v a)) (original m a * evidence m a * F a)%Qc).
    { apply evid1_keeps; [apply (at_state_nonneg card); auto| |now apply HR].
      intros z Hz. inversion Hz; subst z. apply (at_state_nonneg card); auto. split; auto. }
    rewrite (same_original m mu a SM). unfold evidence.
    assert (Lu : length (m_vars mu) = length (m_vars m)) by apply SM. rewrite Lu.
    rewrite (weight_ext _ (fun w => v_lik (var mu w)) (fun w => if Nat.eqb w v then e else v_lik (var m w))) by auto.
    destruct (weight_change (length (m_vars m)) (fun w => v_lik (var m w)) v e a Hv) as (r & R1 & R2).
    rewrite R1, R2. rewrite <- (F4 v). fold l. cbn [evid1].
    destruct (qzero (at_state l v a)) eqn:Z.
    + apply qzero_true in Z. rewrite Z.
      assert (Ze : at_state e v a = 0%Qc).
      { destruct (Qc_eq_dec (at_state e v a) 0%Qc) as [|N]; auto. exfalso. apply RV.
        exists (a v). rewrite <- F4. fold l. split; [rewrite X2; apply Ha|]. auto. }
      rewrite Ze. ring.
    + apply qzero_false in Z. field. auto.
Qed.

Lemma r_enter_index_ok : forall m v k, model_ok card m -> v < length (m_vars m) -> (0 <= k)%Z ->
  r_enter_index_observation (rt fl) m v k = r_enter_evidence (rt fl) m v (Some (indicator (card v) k)).
Proof.
  intros m v k HM Hv Hk. unfold r_enter_index_observation.
  destruct (Z.ltb_spec k 0); [lia|]. rewrite rd_var by auto. cbn [bind].
  destruct (mo_var _ _ HM v Hv) as (X1 & _). rewrite X1.
  rewrite (fill_list (fun i => if (Z.of_nat i =? k)%Z then 1%Qc else 0%Qc)).
  - reflexivity.
  - now rewrite repeat_length.
  - intros i l' Hi HL. apply wr_ok. lia.
Qed.

Lemma r_reset_model_ok : forall m, model_ok card m ->
  exists m', r_reset_model (rt fl) m = Ok m' /\ model_ok card m' /\ same_model m m' /\
    (forall v, v < length (m_vars m) -> v_lik (var m' v) = repeat 1%Qc (card v) /\
       v_entered (var m' v) = false) /\
    rrep (length (m_vars m)) m' (fun _ => 1%Qc).
Proof.
  intros m HM. unfold r_reset_model.
  match goal with |- context [for_up 0 ?n ?b ?s] =>
    destruct (for_up_inv model (fun i m' => model_ok card m' /\ same_model m m' /\
       forall v, v < i -> v_lik (var m' v) = repeat 1%Qc (card v) /\ v_entered (var m' v) = false) b 0 n s)
      as (m1 & E1 & A1 & A2 & A3) end.
  { lia. }
  { split; auto. split; [apply same_model_refl|]. intros; lia. }
  { intros i mi Hi (B1 & B2 & B3).
    assert (Li : length (m_vars mi) = length (m_vars m)) by apply B2.
    rewrite (reset_likelihood_ok card) by (auto; lia). cbn [bind].
    set (x := set_lik (var mi i) (repeat 1%Qc (card i))).
    rewrite rd_var by (rewrite putv_len; lia). cbn [bind].
    rewrite put_var_ok by (rewrite putv_len; lia).
    rewrite var_putv by lia. rewrite Nat.eqb_refl.
    assert (Hi' : i < length (m_vars mi)) by lia.
    assert (VX : var_ok card (m_jt mi) i x).
    { apply var_ok_lik; [now apply (mo_var _ _ B1)|apply ones_vector]. }
    assert (M1 : model_ok card (putv mi i x)).
    { apply model_ok_putv; auto. apply frame_lik. }
    assert (S1 : same_model mi (putv mi i x)) by (apply same_model_putv; auto; apply frame_lik).
    assert (FR : frame (var (putv mi i x) i) (set_entered x false)).
    { rewrite var_putv by lia. rewrite Nat.eqb_refl. repeat split. }
    eexists. split; [reflexivity|]. split.
    { apply model_ok_putv; auto. rewrite putv_len; lia. }
    split. { eapply same_model_trans; [exact B2|]. eapply same_model_trans; [exact S1|].
      apply same_model_putv; auto. rewrite putv_len; lia. }
    intros v Hv. rewrite var_putv by (rewrite putv_len; lia).
    destruct (Nat.eqb_spec v i) as [->|N]; [split; reflexivity|].
    rewrite var_putv by lia. destruct (Nat.eqb_spec v i); [lia|]. apply B3. lia. }
  rewrite E1. cbn [bind].
  destruct (r_global_retraction_ok m1 A1) as (m' & E & C1 & C2 & C3 & C4 & C5).
  rewrite E. cbn [bind]. exists m'. split; auto. split; auto.
  assert (SM : same_model m m') by (eapply same_model_trans; eauto). split; auto.
  split. { intros v Hv. rewrite C3, C4. now apply A3. }
  replace (length (m_vars m)) with (length (m_vars m1)); [exact C5|apply A2].
Qed.

Lemma r_enter_prior_ok : forall k0 m v l F, model_ok card m -> rrep k0 m F ->
  v < length (m_vars m) -> vector_ok card v l -> (exists y, In y l /\ (0 < y)%Qc) ->
  exists m', r_enter_prior (rt fl) m v l = Ok (m', NO_ERROR) /\ model_ok card m' /\ same_model m m' /\
    (forall w, v_lik (var m' w) = v_lik (var m w)) /\
    (forall w, v_entered (var m' w) = v_entered (var m w)) /\
    rrep (k0 + 1) m' (fun a => F a * at_state l v a)%Qc.
Proof.
  intros k0 m v l F HM HR Hv Hl (y & Hy & Py). unfold r_enter_prior.
  destruct (find_family_ok card m v HM Hv) as (mf & k & Ef & F1 & F2 & F3 & F4 & F5 & F6 & F7 & _).
  rewrite Ef. cbn [bind].
  assert (Lf : length (m_vars mf) = length (m_vars m)) by apply F2.
  rewrite rd_var by lia. cbn [bind].
  assert (Hvf : v < length (m_vars mf)) by lia.
  destruct (mo_var _ _ F1 v Hvf) as (X1 & _). rewrite X1.
  match goal with |- context [for_up 0 ?n ?b ?s] =>
    destruct (for_up_inv bool (fun i e => e = negb (existsb (fun y => if Qclt_le_dec 0%Qc y then true else false) (firstn i l))) b 0 n s)
      as (e & Ee & He) end.
  { lia. } { reflexivity. }
  { intros i e Hi ->. destruct Hl as (Hl & _). rewrite (rd_ok _ l i 0%Qc) by lia. cbn [bind].
    eexists. split; [reflexivity|]. rewrite (firstn_S_nth _ l i 0%Qc) by lia. rewrite existsb_app. simpl.
    destruct (Qclt_le_dec 0%Qc (nth i l 0%Qc)); now rewrite ?orb_true_r, ?orb_false_r. }
  rewrite Ee. cbn [bind].
  assert (e = false) as ->.
  { rewrite He. apply negb_false_iff. apply existsb_exists. exists y. destruct Hl as (<- & _).
    rewrite firstn_all. split; auto. destruct (Qclt_le_dec 0%Qc y) as [|K]; auto.
    apply Qcle_not_lt in K. tauto. }
  destruct (r_multiply_vector_ok mf k v l None) as (jt' & Em & G1 & G2 & G3 & G4); auto.
  { rewrite F3. auto. } { rewrite F3. apply F7. simpl; auto. }
  rewrite Em. cbn [bind]. exists (set_jt mf jt'). split; [reflexivity|].
  split; [now apply model_ok_jt|].
  assert (SM : same_model m (set_jt mf jt')).
  { eapply same_model_trans; [exact F2|]. now apply same_model_jt. }
  split; auto. split; [exact F4|]. split; [exact F5|].
  intros a Ha. cbn [m_jt set_jt]. specialize (G4 a Ha). cbn [option_map evid1 Nat.add] in G4. rewrite F3 in G4.
  rewrite (same_original m _ a SM).
  assert (EV : evidence (set_jt mf jt') a = evidence m a).
  { unfold evidence. cbn [m_vars set_jt]. rewrite Lf. apply weight_ext. intros w _. apply F4. }
  rewrite EV. eapply (near_trans u Hu0 Hu1); [|exact G4].
  replace (original m a * evidence m a * (F a * at_state l v a))%Qc with (original m a * evidence m a * F a * at_state l v a)%Qc by ring.
  apply near_mul_r; auto. now apply (at_state_nonneg card).
Qed.

Lemma r_use_priors_ok : forall k0 m hist F, model_ok card m -> rrep k0 m F ->
  exists m', r_use_priors (rt fl) m hist = Ok m' /\ model_ok card m' /\ same_model m m' /\
    (forall w, v_lik (var m' w) = v_lik (var m w)) /\
    (forall w, v_entered (var m' w) = true <-> v_entered (var m w) = true \/ In w (pending m hist)) /\
    rrep (k0 + length (m_indep m)) m' (fun a => F a * priors m (pending m hist) a)%Qc.
Proof.
  intros k0 m hist F HM HR. unfold r_use_priors.
  set (sel := fun v => (negb (v_entered (var m v)) && (negb hist || negb (v_old (var m v))))%bool).
  assert (SelP : pending m hist = filter sel (m_indep m)) by reflexivity.
  destruct (mo_indep _ _ HM) as (ND & HI).
  match goal with |- context [for_up 0 ?n ?b ?s] =>
    destruct (for_up_inv model (fun i m' => model_ok card m' /\ same_model m m' /\
      (forall w, v_lik (var m' w) = v_lik (var m w)) /\
      (forall w, v_entered (var m' w) = true <->
         v_entered (var m w) = true \/ In w (filter sel (firstn i (m_indep m)))) /\
      rrep (k0 + i) m' (fun a => F a * priors m (filter sel (firstn i (m_indep m))) a)%Qc) b 0 n s)
      as (m1 & E1 & A1 & A2 & A3 & A4 & A5) end.
  { lia. }
  { split; auto. split; [apply same_model_refl|]. split; auto. split; [simpl; tauto|].
    apply (rrep_le k0); [lia|]. eapply rrep_ext; [|exact HR]. intros a Ha. unfold priors. simpl. ring. }
  { intros i mi Hi (B1 & B2 & B3 & B4 & B5).
    assert (Ii : m_indep mi = m_indep m) by apply B2. rewrite Ii.
    rewrite (rd_ok _ (m_indep m) i 0) by lia. cbn [bind].
    set (v := nth i (m_indep m) 0) in *.
    assert (Iv : In v (m_indep m)) by (apply nth_In; lia).
    destruct (HI v Iv) as (Hv & (l & El & Vl & Pl)).
    assert (Li : length (m_vars mi) = length (m_vars m)) by apply B2.
    rewrite rd_var by lia. cbn [bind].
    assert (Fr : v_prior (var mi v) = v_prior (var m v) /\ v_old (var mi v) = v_old (var m v)).
    { destruct B2 as (_ & _ & SV & _). destruct (SV v) as (_ & Q2 & _ & Q4 & _). auto. }
    destruct Fr as (Fr1 & Fr2). rewrite Fr1, El.
    assert (NF : ~ In v (firstn i (m_indep m))).
    { intros K. apply (In_nth _ _ 0) in K. destruct K as (j & Hj & K).
      rewrite firstn_length in Hj. rewrite nth_firstn_lt in K by lia.
      assert (j = i); [|lia]. eapply (proj1 (NoDup_nth (m_indep m) 0) ND); try lia. }
    rewrite (firstn_S_nth _ (m_indep m) i 0) by lia. fold v. rewrite filter_app. cbn [filter].
    assert (EnE : v_entered (var mi v) = v_entered (var m v)).
    { apply eq_true_iff_eq. rewrite B4. rewrite filter_In. tauto. }
    assert (Sv : sel v = (negb (v_entered (var m v)) && (negb hist || negb (v_old (var m v))))%bool) by reflexivity.
    rewrite Sv, EnE, Fr2. clearbody sel.
    destruct (v_entered (var m v)) eqn:EN; cbn [negb andb].
    { exists mi. split; [reflexivity|]. rewrite app_nil_r. split; auto. split; auto. split; auto. split; auto. apply (rrep_le (k0 + i)); [lia|auto]. }
    destruct (negb hist || negb (v_old (var m v)))%bool eqn:HB.
    2: { exists mi. split; [reflexivity|]. rewrite app_nil_r. split; auto. split; auto. split; auto. split; auto. apply (rrep_le (k0 + i)); [lia|auto]. }
    destruct (r_enter_prior_ok (k0 + i) mi v l _ B1 B5) as (mp & Ep & P1 & P2 & P3 & P4 & P5); auto; [lia|].
    rewrite Ep. cbn [bind].
    assert (Lp : length (m_vars mp) = length (m_vars m)) by (rewrite <- Li; apply P2).
    rewrite rd_var by lia. cbn [bind]. rewrite put_var_ok by lia.
    assert (FR : frame (var mp v) (set_entered (var mp v) true)) by (repeat split).
    assert (Hvp : v < length (m_vars mp)) by lia.
    eexists. split; [reflexivity|].
    split. { apply model_ok_putv; auto. assert (X := mo_var _ _ P1 v Hvp). exact X. }
    assert (SM : same_model mi (putv mp v (set_entered (var mp v) true))).
    { eapply same_model_trans; [exact P2|]. now apply same_model_putv. }
    split; [eapply same_model_trans; [exact B2|exact SM]|].
    split. { intros w. rewrite var_putv by auto. destruct (Nat.eqb_spec w v) as [->|]; cbn [v_lik set_entered]; now rewrite P3, B3. }
    split. { intros w. rewrite var_putv by auto. rewrite in_app_iff. destruct (Nat.eqb_spec w v) as [->|N].
      - cbn. intuition.
      - rewrite P4, B4. simpl. intuition congruence. }
    replace (k0 + S i) with (k0 + i + 1) by lia. intros a Ha.
    change (joint (m_jt (putv mp v (set_entered (var mp v) true))) a) with (joint (m_jt mp) a).
    specialize (P5 a Ha). rewrite (same_original mi mp a P2) in P5. rewrite (same_original mi _ a SM).
    assert (EV : evidence (putv mp v (set_entered (var mp v) true)) a = evidence mp a).
    { unfold evidence. rewrite putv_len. apply weight_ext. intros w _. rewrite var_putv by auto.
      destruct (Nat.eqb_spec w v) as [->|]; auto. }
    rewrite EV. unfold priors in *. rewrite map_app, qprod_app. cbn [map qprod]. rewrite El.
    rewrite Qcmult_1_r, (Qcmult_assoc (F a)). exact P5. }
  rewrite E1. exists m1. rewrite firstn_all in *. rewrite SelP. auto 10.
Qed.
End Evidence.
