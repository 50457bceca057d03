(** * Proofs about evidence handling *)
From Coq Require Import Permutation Field.
From Verif Require Import Base BaseProofs PotentialModel PotentialSpec PotentialProofs
  PotentialProofs2 PotentialProofs3 VariableModel VariableProofs JoinTreeModel
  AssignSpec AssignProofs JoinTreeSpec JoinTreeProofs JoinTreeProofs2 JoinTreeProofs3
  JoinTreeProofs4 JoinTreeProofs5 JoinTreeProofs6 JoinTreeProofs7 NipModel NipSpec.
Import ListNotations.
Open Scope nat_scope.
Local Open Scope res_scope.

Add Field Qcfield_nip : Qcft.

Lemma nth_firstn_lt : forall A (l : list A) n i d, i < n -> nth i (firstn n l) d = nth i l d.
Proof.
  intros A. induction l as [|x l IH]; intros n i d H.
  - rewrite firstn_nil. now destruct i.
  - destruct n; [lia|]. destruct i; simpl; auto. apply IH. lia.
Qed.

(** ** Field updates *)
Lemma rd_var : forall m v, v < length (m_vars m) -> rd (m_vars m) v = Ok (var m v).
Proof. intros. now apply rd_ok. Qed.

Definition putv (m : model) (v : nat) (x : vrec) : model :=
  mkModel (set_nth (m_vars m) v x) (m_jt m) (m_indep m) (m_children m) (m_out m) (m_prev m)
    (m_in_clique m) (m_out_clique m).
Lemma put_var_ok : forall m v x, v < length (m_vars m) -> put_var m v x = Ok (putv m v x).
Proof. intros. unfold put_var. now rewrite wr_ok. Qed.
Lemma var_putv : forall m v x w, v < length (m_vars m) ->
  var (putv m v x) w = if Nat.eqb w v then x else var m w.
Proof. intros. unfold var, putv. cbn [m_vars]. now rewrite nth_set_nth. Qed.
Lemma putv_len : forall m v x, length (m_vars (putv m v x)) = length (m_vars m).
Proof. intros. unfold putv. cbn [m_vars]. apply set_nth_length. Qed.

Lemma same_model_refl : forall m, same_model m m.
Proof. intros m. split; [apply same_shape_refl|]. split; auto 10. Qed.
Lemma same_model_trans : forall a b c, same_model a b -> same_model b c -> same_model a c.
Proof.
  intros a b c (A1 & A2 & A3 & A4) (B1 & B2 & B3 & B4).
  split; [eapply same_shape_trans; eauto|]. split; [congruence|]. split.
  - intros v. destruct (A3 v) as (P1 & P2 & P3 & P4 & P5), (B3 v) as (Q1 & Q2 & Q3 & Q4 & Q5).
    repeat split; congruence.
  - destruct A4 as (P1 & P2 & P3 & P4 & P5 & P6), B4 as (Q1 & Q2 & Q3 & Q4 & Q5 & Q6).
    repeat split; congruence.
Qed.

(** The fields that stay. *)
Definition frame (x y : vrec) : Prop :=
  v_card y = v_card x /\ v_prior y = v_prior x /\ v_parents y = v_parents x /\
  v_old y = v_old x /\ v_mark y = v_mark x.
Lemma same_model_putv : forall m v x, v < length (m_vars m) -> frame (var m v) x ->
  same_model m (putv m v x).
Proof.
  intros m v x Hv HF. split; [apply same_shape_refl|]. split; [apply putv_len|]. split; [|auto 10].
  intros w. rewrite var_putv by auto. destruct (Nat.eqb_spec w v) as [->|]; auto 10.
Qed.
Lemma same_model_jt : forall m jt, same_shape (m_jt m) jt -> same_model m (set_jt m jt).
Proof. intros m jt H. split; auto. split; auto 10. Qed.

Lemma same_original : forall m m' a, same_model m m' -> original m' a = original m a.
Proof.
  intros m m' a ((L & _ & SC & _) & _). unfold original. rewrite L. apply qprod_map_ext.
  intros i _. destruct (SC i) as (-> & _ & ->). reflexivity.
Qed.
Lemma same_priors : forall m m' vs a, same_model m m' -> priors m' vs a = priors m vs a.
Proof.
  intros m m' vs a (_ & _ & SV & _). unfold priors. apply qprod_map_ext.
  intros v _. destruct (SV v) as (_ & -> & _). reflexivity.
Qed.

(** ** model_ok is kept *)
Lemma var_ok_shape : forall card jt jt' v x, same_shape jt jt' -> var_ok card jt v x -> var_ok card jt' v x.
Proof.
  intros card jt jt' v x (L & _ & SC & _) (H1 & H2 & (k & H3 & H3') & H4 & H5).
  split; auto. split; auto. split.
  - exists k. rewrite L. destruct (SC k) as (-> & _). auto.
  - split.
    + intros j Hj. destruct (H4 j Hj) as (A & B & C). split; [now rewrite L|].
      split; [now destruct (SC j) as (-> & _)|]. intros i Hi. destruct (SC i) as (-> & _). now apply C.
    + intros r Hr. destruct (H5 r Hr) as (j & Ej & A & B). exists j. destruct (SC j) as (-> & _). auto.
Qed.

Lemma model_ok_jt : forall card m jt, model_ok card m -> same_shape (m_jt m) jt ->
  shape_ok card jt -> tables_nonneg jt -> model_ok card (set_jt m jt).
Proof.
  intros card m jt [H1 H2 H3 H4 H5 H6 H7 H8] SH HS HN. assert (SH' := SH).
  destruct SH' as (L1 & L2 & SC & SS). split; auto; cbn [m_jt m_vars m_indep set_jt].
  - eapply is_tree_shape; eauto.
  - eapply rip_shape; eauto.
  - intros i Hi. destruct (SC i) as (_ & _ & ->). apply H5. lia.
  - intros i v Hi. destruct (SC i) as (-> & _). apply H6. lia.
  - intros v Hv. eapply var_ok_shape; [exact SH|]. now apply H7.
Qed.

Lemma model_ok_putv : forall card m v x, model_ok card m -> v < length (m_vars m) ->
  frame (var m v) x -> var_ok card (m_jt m) v x -> model_ok card (putv m v x).
Proof.
  intros card m v x [H1 H2 H3 H4 H5 H6 H7 H8] Hv HF HX. split; auto; rewrite ?putv_len; auto.
  - intros w Hw. rewrite var_putv by auto. destruct (Nat.eqb_spec w v) as [->|]; [exact HX|now apply H7].
  - destruct H8 as (N & H8). split; auto. intros w Hw. destruct (H8 w Hw) as (A & B). split; auto.
    rewrite var_putv by auto. destruct (Nat.eqb_spec w v) as [->|]; auto.
    destruct B as (l & B). exists l. destruct HF as (_ & -> & _). auto.
Qed.

(** ** The family of a variable *)
Lemma find_family_ok : forall card m v, model_ok card m -> v < length (m_vars m) ->
  exists m' k, find_family m v = Ok (m', Some k) /\ model_ok card m' /\ same_model m m' /\
    m_jt m' = m_jt m /\ (forall w, v_lik (var m' w) = v_lik (var m w)) /\
    (forall w, v_entered (var m' w) = v_entered (var m w)) /\
    k < length (cls (m_jt m)) /\ incl (v :: v_parents (var m v)) (c_vars (clq (m_jt m) k)) /\
    v_family (var m' v) = Some k.
Proof.
  intros card m v HM Hv. unfold find_family. rewrite rd_var by auto. cbn [bind].
  assert (HX := mo_var _ _ HM v Hv). destruct HX as (X1 & X2 & X3 & X4 & X5).
  destruct (v_family (var m v)) as [k|] eqn:EF.
  - exists m, k. destruct (X4 k eq_refl) as (A & B & _). repeat (split; auto using same_model_refl).
  - set (ps := v_parents (var m v)) in *.
    match goal with |- context [for_up 0 ?n ?b ?s] =>
      destruct (for_up_inv (list nat) (fun k l => length l = n + 1 /\ firstn k l = firstn k ps) b 0 n s)
        as (l & E & HL & HE) end.
    { lia. }
    { split; auto. apply repeat_length. }
    { intros i l Hi (HL & HE). rewrite (rd_ok _ ps i 0) by lia. cbn [bind]. rewrite wr_ok by lia.
      eexists. split; [reflexivity|]. split; [now rewrite set_nth_length|].
      rewrite (firstn_S_nth _ _ i 0) by (rewrite set_nth_length; lia).
      rewrite (firstn_S_nth _ ps i 0) by lia. rewrite nth_set_nth_eq by lia. f_equal.
      rewrite <- HE. apply (list_ext_nth _ 0).
      - rewrite !firstn_length, set_nth_length. lia.
      - intros j Hj. rewrite firstn_length, set_nth_length in Hj.
        rewrite !nth_firstn_lt by lia. rewrite nth_set_nth by lia. destruct (Nat.eqb_spec j i); auto; lia. }
    rewrite E. cbn [bind]. rewrite wr_ok by lia. cbn [bind].
    assert (Efam : set_nth l (length ps) v = ps ++ [v]).
    { apply (list_ext_nth _ 0).
      - rewrite set_nth_length, app_length. simpl. lia.
      - intros j Hj. rewrite set_nth_length in Hj. rewrite nth_set_nth by lia.
        destruct (Nat.eqb_spec j (length ps)) as [->|].
        + rewrite app_nth2 by lia. now rewrite Nat.sub_diag.
        + rewrite app_nth1 by lia. rewrite <- (nth_firstn_lt _ l (length ps)) by lia.
          rewrite HE. now rewrite nth_firstn_lt by lia. }
    rewrite Efam.
    destruct (find_clique_ok card (m_jt m) (ps ++ [v]) (mo_shape _ _ HM)) as (r & Er & Hr).
    rewrite app_length in Er. simpl in Er. rewrite Er. cbn [bind].
    rewrite put_var_ok by auto. cbn [bind].
    destruct r as [k|].
    + destruct Hr as (R1 & R2 & R3).
      assert (RI : incl (v :: ps) (c_vars (clq (m_jt m) k))).
      { intros y [<-|Hy]; apply R2; apply in_or_app; simpl; auto. }
      assert (FR : frame (var m v) (set_family (var m v) (Some k))) by (repeat split).
      exists (putv m v (set_family (var m v) (Some k))), k. split; [reflexivity|].
      split. { apply model_ok_putv; auto. split; auto. split; auto. split; auto. split.
        - intros j Ej. cbn in Ej. inversion Ej; subst. split; auto. split; auto. intros i Hi K.
          apply (R3 i Hi). intros y Hy. apply K. apply in_app_or in Hy. simpl in *. tauto.
        - intros q Hq. cbn in Hq. destruct (X5 q Hq) as (j & Ej & _). congruence. }
      split; [now apply same_model_putv|]. split; auto.
      split. { intros w. rewrite var_putv by auto. destruct (Nat.eqb_spec w v) as [->|]; auto. }
      split. { intros w. rewrite var_putv by auto. destruct (Nat.eqb_spec w v) as [->|]; auto. }
      split; auto. split; auto. rewrite var_putv by auto. now rewrite Nat.eqb_refl.
    + destruct X3 as (k & K1 & K2). exfalso. apply (Hr k K1). intros y Hy. apply K2.
      apply in_app_or in Hy. simpl in *. tauto.
Qed.

(** ** Multiplying a vector into a clique *)
Lemma evid1_mul : forall n d x y, (evid1 n d x * y = evid1 n d (x * y))%Qc.
Proof.
  intros n d x y. destruct d as [z|]; simpl; [|ring]. destruct (qzero z); [ring|]. unfold Qcdiv. ring.
Qed.
Lemma evid1_nonneg : forall n d x, (0 <= n)%Qc -> (match d with Some z => (0 <= z)%Qc | None => True end) ->
  (0 <= x)%Qc -> (0 <= evid1 n d x)%Qc.
Proof.
  intros n d x Hn Hd Hx. destruct d as [z|]; simpl; [|now apply Qc_mul_nonneg].
  destruct (qzero z) eqn:Z; [now apply Qc_mul_nonneg|]. apply qzero_false in Z.
  apply Qc_mul_nonneg; [now apply Qc_mul_nonneg|]. now apply Qc_inv_nonneg.
Qed.

Lemma at_state_nonneg : forall card v l a, vector_ok card v l -> valid card a -> (0 <= at_state l v a)%Qc.
Proof.
  intros card v l a (L & H) Ha. unfold at_state. rewrite Forall_forall in H. apply H. apply nth_In.
  rewrite L. apply Ha.
Qed.

Lemma multiply_vector_ok : forall card m c v num den, model_ok card m ->
  c < length (cls (m_jt m)) -> In v (c_vars (clq (m_jt m) c)) -> vector_ok card v num ->
  (match den with Some d => vector_ok card v d | None => True end) ->
  exists jt', multiply_vector m (Some c) v num den = Ok (set_jt m jt') /\
    same_shape (m_jt m) jt' /\ shape_ok card jt' /\ tables_nonneg jt' /\
    forall a, valid card a ->
      joint jt' a = evid1 (at_state num v a) (option_map (fun d => at_state d v a) den) (joint (m_jt m) a).
Proof.
  intros card m c v num den HM Hc Hv HN HD. unfold multiply_vector.
  assert (HS := mo_shape _ _ HM). set (jt := m_jt m) in *.
  rewrite rd_clq by auto. cbn [bind]. assert (HS' := HS). destruct HS' as (HC & HCl & HSp).
  destruct (HCl c Hc) as (T & To & NE & _).
  destruct (clique_var_index_ok card (clq jt c) v T NE) as (ix & Ei & Hi). rewrite Ei. cbn [bind].
  destruct ix as [ix|]; [|contradiction]. destruct Hi as (Hi1 & Hi2).
  assert (T' := T). destruct T' as (TN & TW & TD).
  assert (Dv : nth ix (dims (c_p (clq jt c))) 0 = card v).
  { rewrite TD. rewrite (nth_map _ _ _ _ _ 0 0) by auto. now rewrite Hi2. }
  destruct (update_evidence_ok num den (c_p (clq jt c)) ix) as (p & Ep & Dp & Wp & Hp); auto.
  { now rewrite (table_dim card _ _ T). }
  { rewrite Dv. destruct HN as (-> & _). auto. }
  { destruct den as [d|]; auto. rewrite Dv. destruct HD as (-> & _). auto. }
  rewrite Ep. cbn [bind]. rewrite put_clique_ok by auto. cbn [bind].
  set (jt' := mkJT (set_nth (cls jt) c (set_p (clq jt c) p)) (sps jt)).
  exists jt'. split; [reflexivity|].
  assert (Q : forall k, clq jt' k = if Nat.eqb k c then set_p (clq jt c) p else clq jt k).
  { intros k. unfold jt'. rewrite clq_set by auto. now rewrite jt_eta. }
  assert (QS : forall k, sep jt' k = sep jt k) by reflexivity.
  assert (SH : same_shape jt jt').
  { split; [cbn; apply set_nth_length|]. split; [reflexivity|]. split; [|intros; auto].
    intros k. rewrite Q. destruct (Nat.eqb_spec k c) as [->|]; auto. }
  assert (Tp : table card (c_vars (clq jt c)) p).
  { split; auto. split; auto. congruence. }
  assert (SO : shape_ok card jt').
  { apply (shape_ok_change card jt); auto.
    - intros k Hk. rewrite Q. destruct (Nat.eqb_spec k c) as [->|]; auto. now apply HCl.
    - intros s Hs. rewrite QS. now apply HSp.
    - intros s Hs. rewrite QS. now apply HSp. }
  assert (PH : forall a, valid card a -> phi jt' c a =
     evid1 (at_state num v a) (option_map (fun d => at_state d v a) den) (phi jt c a)).
  { intros a Ha. unfold phi. rewrite Q, Nat.eqb_refl. cbn [c_p c_vars set_p]. unfold AssignSpec.den.
    rewrite Hp by (rewrite TD; now apply valid_ix_map).
    rewrite (nth_map _ _ _ _ _ 0 0) by auto. rewrite Hi2. reflexivity. }
  assert (L1 : length (cls jt') = length (cls jt)) by (apply SH).
  split; auto. split; auto. split.
  - apply (nonneg_intro card); auto.
    + intros i a Hk Ha. rewrite L1 in Hk. destruct (Nat.eq_dec i c) as [->|N].
      * rewrite PH by auto. apply evid1_nonneg.
        -- eapply at_state_nonneg; eauto.
        -- destruct den; cbn; auto. eapply at_state_nonneg; eauto.
        -- apply (phi_nonneg card); auto. apply HM.
      * replace (phi jt' i a) with (phi jt i a). { apply (phi_nonneg card); auto. apply HM. }
        unfold phi. rewrite Q. destruct (Nat.eqb_spec i c); congruence.
    + intros s a Hs Ha. apply (psi_nonneg card jt s a); auto. apply HM.
  - intros a Ha. unfold joint. rewrite L1.
    destruct (qprod_change1 card (fun i => phi jt' i a) (fun i => phi jt i a) (length (cls jt)) c Hc)
      as (r & R1 & R2).
    { intros i N. unfold phi. rewrite Q. destruct (Nat.eqb_spec i c); congruence. }
    rewrite R1, R2. cbv beta. rewrite PH by auto. unfold Qcdiv. rewrite !evid1_mul. f_equal. 
Qed.

(** ** Retraction *)
Lemma weight_S : forall n lik a, weight (S n) lik a = (weight n lik a * at_state (lik n) n a)%Qc.
Proof.
  intros. unfold weight. rewrite seq_S, map_app, qprod_app. simpl. ring.
Qed.
Lemma weight_ext : forall n l l' a, (forall v, v < n -> l v = l' v) -> weight n l a = weight n l' a.
Proof. intros n l l' a H. apply qprod_map_ext. intros v Hv. apply in_seq in Hv. rewrite H; auto. lia. Qed.
Lemma qprod_ones : forall A (l : list A) (f : A -> Qc), (forall x, In x l -> f x = 1%Qc) -> qprod (map f l) = 1%Qc.
Proof.
  intros A l f H. induction l as [|x l IH]; simpl; auto. rewrite IH by (intros; apply H; simpl; auto).
  rewrite H by (simpl; auto). ring.
Qed.

Lemma global_retraction_ok : forall card m, model_ok card m ->
  exists m', global_retraction m = Ok (m', NO_ERROR) /\ model_ok card m' /\ same_model m m' /\
    (forall w, v_lik (var m' w) = v_lik (var m w)) /\
    (forall w, v_entered (var m' w) = v_entered (var m w)) /\
    represents card m' (fun _ => 1%Qc).
Proof.
  intros card m HM. unfold global_retraction.
  destruct (unmark_all_ok (m_jt m)) as (j0 & E0 & MO & M0). rewrite E0. cbn [bind].
  assert (L0 : length (cls j0) = length (cls (m_jt m))) by (destruct MO as (_ & -> & _); auto).
  rewrite L0.
  destruct (retract_tree_ok card (m_jt m) (mo_shape _ _ HM) j0 (mo_tree _ _ HM) MO) as (j1 & E1 & R).
  { intros i Hi. apply M0; lia. }
  rewrite E1. cbn [bind].
  destruct R as [R1 R2 R3 R4 R5].
  assert (RN : tables_nonneg j1).
  { destruct (shape_len _ _ R1) as (L1 & L2). split.
    - intros i Hi. rewrite R3 by lia. apply HM. lia.
    - intros s Hs. apply R5. lia. }
  assert (M1 : model_ok card (set_jt m j1)) by (now apply model_ok_jt).
  assert (J1 : forall a, valid card a -> joint j1 a = original m a).
  { intros a Ha. unfold joint, original. destruct (shape_len _ _ R1) as (L1 & L2). rewrite L1, L2.
    rewrite (qprod_ones _ (seq 0 (length (sps (m_jt m))))).
    - replace (qprod (map (fun i => phi j1 i a) (seq 0 (length (cls (m_jt m)))))) with (original m a).
      + change (original m a / 1 = original m a)%Qc. field. discriminate.
      + apply qprod_map_ext. intros i Hi. apply in_seq in Hi. unfold phi. rewrite R3 by lia.
        destruct R1 as (_ & _ & SC & _). destruct (SC i) as (-> & _). reflexivity.
    - intros s Hs. apply in_seq in Hs. apply R4; auto. lia. }
  match goal with |- context [for_up 0 ?n ?b ?s] =>
    destruct (for_up_inv model (fun i m' => model_ok card m' /\ same_model m m' /\
       (forall w, v_lik (var m' w) = v_lik (var m w)) /\
       (forall w, v_entered (var m' w) = v_entered (var m w)) /\
       forall a, valid card a ->
         joint (m_jt m') a = (original m a * weight i (fun v => v_lik (var m v)) a)%Qc) b 0 n s)
      as (m2 & E2 & A1 & A2 & A3 & A4 & A5) end.
  { lia. }
  { split; auto. split; [now apply same_model_jt|]. split; auto. split; auto.
    intros a Ha. cbn [m_jt set_jt]. rewrite J1 by auto. unfold weight. simpl. ring. }
  { intros i mi Hi (B1 & B2 & B3 & B4 & B5).
    assert (Li : length (m_vars mi) = length (m_vars m)) by apply B2.
    destruct (find_family_ok card mi i B1) as (mf & k & Ef & F1 & F2 & F3 & F4 & F5 & F6 & F7 & _); [lia|].
    rewrite Ef. cbn [bind].
    assert (Lf : length (m_vars mf) = length (m_vars m)) by (rewrite <- Li; apply F2).
    rewrite rd_var by lia. cbn [bind].
    destruct (multiply_vector_ok card mf k i (v_lik (var mf i)) None) as (jt' & Em & G1 & G2 & G3 & G4); auto.
    { rewrite F3. auto. } { rewrite F3. apply F7. simpl; auto. }
    { apply (mo_var _ _ F1). lia. }
    rewrite Em. eexists. split; [reflexivity|].
    split; [now apply model_ok_jt|].
    split. { eapply same_model_trans; [exact B2|]. eapply same_model_trans; [exact F2|].
      now apply same_model_jt. }
    split. { intros w. change (var (set_jt mf jt') w) with (var mf w). now rewrite F4, B3. }
    split. { intros w. change (var (set_jt mf jt') w) with (var mf w). now rewrite F5, B4. }
    intros a Ha. cbn [m_jt set_jt]. rewrite G4 by auto. cbn [option_map evid1].
    rewrite F3, B5 by auto. rewrite weight_S, F4, B3. ring. }
  cbn [m_vars set_jt] in E2. rewrite E2. cbn [bind].
  exists m2. split; [reflexivity|]. split; auto. split; auto. split; auto. split; auto.
  intros a Ha. rewrite A5 by auto. rewrite (same_original m m2 a A2). unfold evidence.
  assert (L2 : length (m_vars m2) = length (m_vars m)) by apply A2. rewrite L2.
  rewrite (weight_ext _ (fun v => v_lik (var m2 v)) (fun v => v_lik (var m v))) by auto. ring.
Qed.

(** ** Likelihoods *)
Lemma fill_list : forall (f : nat -> Qc) body l n, n = length l ->
  (forall i l', i < n -> length l' = n -> body i l' = Ok (set_nth l' i (f i))) ->
  for_up 0 n body l = Ok (map f (seq 0 n)).
Proof.
  intros f body l n Hn Hb. destruct (for_up_fill Qc 0%Qc f body l n Hn Hb) as (l' & E & HL & H).
  rewrite E. f_equal. apply (list_ext_nth _ 0%Qc).
  - now rewrite map_length, seq_length.
  - intros i Hi. rewrite (nth_map _ _ _ _ _ 0) by (rewrite seq_length; lia).
    rewrite seq_nth by lia. apply H. lia.
Qed.

Lemma update_likelihood_ok : forall card m v e, model_ok card m -> v < length (m_vars m) ->
  length e = card v -> update_likelihood m v e = Ok (putv m v (set_lik (var m v) e)).
Proof.
  intros card m v e HM Hv He. unfold update_likelihood. rewrite rd_var by auto. cbn [bind].
  destruct (mo_var _ _ HM v Hv) as (X1 & (X2 & _) & _). rewrite X1.
  rewrite (fill_list (fun i => nth i e 0%Qc)).
  - cbn [bind]. rewrite put_var_ok by auto. do 3 f_equal. rewrite <- He. apply map_nth_seq.
  - auto.
  - intros i l' Hi HL. rewrite (rd_ok _ e i 0%Qc) by lia. cbn [bind]. apply wr_ok. lia.
Qed.

Lemma reset_likelihood_ok : forall card m v, model_ok card m -> v < length (m_vars m) ->
  reset_likelihood m v = Ok (putv m v (set_lik (var m v) (repeat 1%Qc (card v)))).
Proof.
  intros card m v HM Hv. unfold reset_likelihood. rewrite rd_var by auto. cbn [bind].
  destruct (mo_var _ _ HM v Hv) as (X1 & (X2 & _) & _). rewrite X1.
  rewrite (fill_list (fun i => 1%Qc)).
  - cbn [bind]. rewrite put_var_ok by auto. do 3 f_equal. apply (list_ext_nth _ 0%Qc).
    + now rewrite map_length, seq_length, repeat_length.
    + intros i Hi. rewrite map_length, seq_length in Hi.
      rewrite (nth_map _ _ _ _ _ 0) by (now rewrite seq_length). now rewrite nth_repeat_lt.
  - auto.
  - intros i l' Hi HL. apply wr_ok. lia.
Qed.

Lemma var_ok_lik : forall card jt v x e, var_ok card jt v x -> vector_ok card v e ->
  var_ok card jt v (set_lik x e).
Proof. intros card jt v x e (H1 & H2 & H3) He. split; auto. Qed.
Lemma frame_lik : forall x e, frame x (set_lik x e).
Proof. repeat split. Qed.

(** ** Evidence *)
Definition reviveb (l e : list Qc) (n : nat) : bool :=
  existsb (fun i => qzero (nth i l 0%Qc) && negb (qzero (nth i e 0%Qc))) (seq 0 n).
Lemma reviveb_spec : forall l e, reviveb l e (length l) = true <-> revives l e.
Proof.
  intros l e. unfold reviveb, revives. rewrite existsb_exists. split.
  - intros (i & Hi & H). apply in_seq in Hi. apply andb_prop in H. destruct H as (A & B).
    exists i. split; [lia|]. apply qzero_true in A. split; auto.
    apply negb_true_iff, qzero_false in B. auto.
  - intros (i & Hi & A & B). exists i. split; [apply in_seq; lia|].
    apply andb_true_intro. split; [now apply qzero_true|]. apply negb_true_iff. now apply qzero_false.
Qed.

Lemma weight_change : forall n lik v e a, v < n ->
  exists r, weight n lik a = (at_state (lik v) v a * r)%Qc /\
    weight n (fun w => if Nat.eqb w v then e else lik w) a = (at_state e v a * r)%Qc.
Proof.
  intros n lik v e a Hv. unfold weight.
  destruct (qprod_change1 (fun _ => 1) (fun w => at_state (lik w) w a)
    (fun w => at_state (if Nat.eqb w v then e else lik w) w a) n v Hv) as (r & R1 & R2).
  - intros i N. destruct (Nat.eqb_spec i v); congruence.
  - exists r. rewrite R1, R2. now rewrite Nat.eqb_refl.
Qed.

Lemma enter_evidence_ok : forall card m v e F, model_ok card m -> represents card m F ->
  v < length (m_vars m) -> vector_ok card v e ->
  exists m', enter_evidence m v (Some e) = Ok (m', NO_ERROR) /\ model_ok card m' /\ same_model m m' /\
    (forall w, v_lik (var m' w) = if Nat.eqb w v then e else v_lik (var m w)) /\
    (forall w, v_entered (var m' w) = v_entered (var m w)) /\
    (revives (v_lik (var m v)) e -> represents card m' (fun _ => 1%Qc)) /\
    (~ revives (v_lik (var m v)) e -> represents card m' F).
Proof.
  intros card m v e F HM HR Hv He. unfold enter_evidence.
  destruct (find_family_ok card m v HM Hv) as (mf & k & Ef & F1 & F2 & F3 & F4 & F5 & F6 & F7 & _).
  rewrite Ef. cbn [bind].
  assert (Lf : length (m_vars mf) = length (m_vars m)) by apply F2.
  rewrite rd_var by lia. cbn [bind].
  assert (Hvf : v < length (m_vars mf)) by lia.
  assert (XV := mo_var _ _ F1 v Hvf). assert (XV' := XV).
  destruct XV' as (X1 & (X2 & X2') & _). rewrite X1.
  set (l := v_lik (var mf v)) in *.
  match goal with |- context [for_up 0 ?n ?b ?s] =>
    destruct (for_up_inv bool (fun i r => r = reviveb l e i) b 0 n s) as (r & Er & Hr) end.
  { lia. } { reflexivity. }
  { intros i r Hi ->. destruct He as (He & _).
    rewrite (rd_ok _ l i 0%Qc) by lia. cbn [bind]. rewrite (rd_ok _ e i 0%Qc) by lia. cbn [bind].
    eexists. split; [reflexivity|]. unfold reviveb. rewrite seq_S, existsb_app. simpl.
    destruct (qzero (nth i l 0%Qc) && negb (qzero (nth i e 0%Qc)))%bool; now rewrite ?orb_true_r, ?orb_false_r. }
  rewrite Er. cbn [bind].
  assert (Rs : r = true <-> revives (v_lik (var m v)) e).
  { rewrite <- F4. fold l. rewrite Hr, <- X2. apply reviveb_spec. }
  assert (FR := frame_lik (var mf v) e).
  destruct r.
  - assert (RV : revives (v_lik (var m v)) e) by (now apply Rs).
    cbn [bind]. rewrite (update_likelihood_ok card) by (auto; apply He). cbn [bind].
    set (mu := putv mf v (set_lik (var mf v) e)).
    assert (MU : model_ok card mu).
    { apply model_ok_putv; auto. now apply var_ok_lik. }
    destruct (global_retraction_ok card mu MU) as (m' & E & A1 & A2 & A3 & A4 & A5).
    exists m'. split; [exact E|]. split; auto.
    split. { eapply same_model_trans; [exact F2|]. eapply same_model_trans; [|exact A2].
      now apply same_model_putv. }
    split. { intros w. rewrite A3. unfold mu. rewrite var_putv by auto.
      destruct (Nat.eqb_spec w v); auto. }
    split. { intros w. rewrite A4. unfold mu. rewrite var_putv by auto.
      destruct (Nat.eqb_spec w v) as [->|]; cbn; auto. }
    split; [auto|tauto].
  - assert (RV : ~ revives (v_lik (var m v)) e) by (intros K; apply Rs in K; discriminate).
    destruct (multiply_vector_ok card mf k v e (Some l)) as (jt' & Em & G1 & G2 & G3 & G4); auto.
    { rewrite F3. auto. } { rewrite F3. apply F7. simpl; auto. } { split; auto. }
    rewrite Em. cbn [bind].
    assert (M1 : model_ok card (set_jt mf jt')) by (now apply model_ok_jt).
    rewrite (update_likelihood_ok card) by (auto; apply He). cbn [bind].
    change (var (set_jt mf jt') v) with (var mf v).
    set (mu := putv (set_jt mf jt') v (set_lik (var mf v) e)).
    assert (LK : forall w, v_lik (var mu w) = if Nat.eqb w v then e else v_lik (var m w)).
    { intros w. unfold mu. rewrite var_putv by auto.
      destruct (Nat.eqb_spec w v); auto. apply F4. }
    assert (SM : same_model m mu).
    { eapply same_model_trans; [exact F2|]. eapply same_model_trans; [apply same_model_jt; exact G1|].
      apply same_model_putv; auto. }
    exists mu. split; [reflexivity|].
    split. { apply model_ok_putv; auto. apply var_ok_lik; auto. apply (mo_var _ _ M1 v). auto. }
    split; auto. split; auto.
    split. { intros w. unfold mu. rewrite var_putv by auto.
      destruct (Nat.eqb_spec w v) as [->|]; [cbn|]; apply F5. }
    split; [tauto|]. intros _ a Ha.
    change (joint (m_jt mu) a) with (joint jt' a). rewrite G4 by auto. rewrite F3, HR by auto.
    rewrite (same_original m mu a SM). unfold evidence.
    assert (Lu : length (m_vars mu) = length (m_vars m)) by apply SM. rewrite Lu.
    rewrite (weight_ext _ (fun w => v_lik (var mu w)) (fun w => if Nat.eqb w v then e else v_lik (var m w))) by auto.
    destruct (weight_change (length (m_vars m)) (fun w => v_lik (var m w)) v e a Hv) as (r & R1 & R2).
    rewrite R1, R2. rewrite <- (F4 v). fold l. cbn [option_map evid1].
    destruct (qzero (at_state l v a)) eqn:Z.
    + apply qzero_true in Z. rewrite Z.
      assert (Ze : at_state e v a = 0%Qc).
      { destruct (Qc_eq_dec (at_state e v a) 0%Qc) as [|N]; auto. exfalso. apply RV.
        exists (a v). rewrite <- F4. fold l. split; [rewrite X2; apply Ha|]. auto. }
      rewrite Ze. ring.
    + apply qzero_false in Z. field. auto.
Qed.

(** Hard evidence: the indicator of a state (all zero when out of range). *)
Definition indicator (n : nat) (k : Z) : list Qc :=
  map (fun i => if (Z.of_nat i =? k)%Z then 1%Qc else 0%Qc) (seq 0 n).
Lemma indicator_ok : forall card v k, vector_ok card v (indicator (card v) k).
Proof.
  intros. split; [unfold indicator; now rewrite map_length, seq_length|].
  apply Forall_forall. intros x Hx. apply in_map_iff in Hx. destruct Hx as (i & <- & _).
  destruct (_ =? _)%Z; discriminate.
Qed.

Lemma enter_index_ok : forall card m v k, model_ok card m -> v < length (m_vars m) -> (0 <= k)%Z ->
  enter_index_observation m v k = enter_evidence m v (Some (indicator (card v) k)).
Proof.
  intros card m v k HM Hv Hk. unfold enter_index_observation.
  destruct (Z.ltb_spec k 0); [lia|]. rewrite rd_var by auto. cbn [bind].
  destruct (mo_var _ _ HM v Hv) as (X1 & _). rewrite X1.
  rewrite (fill_list (fun i => if (Z.of_nat i =? k)%Z then 1%Qc else 0%Qc)).
  - reflexivity.
  - now rewrite repeat_length.
  - intros i l' Hi HL. apply wr_ok. lia.
Qed.
