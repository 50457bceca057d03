(** * Proofs: the loops over the time steps *)
From Coq Require Import Permutation Field.
From Verif Require Import Base BaseProofs PotentialModel PotentialSpec PotentialProofs
  PotentialProofs2 PotentialProofs3 VariableModel VariableProofs JoinTreeModel
  AssignSpec AssignProofs JoinTreeSpec JoinTreeProofs JoinTreeProofs2 JoinTreeProofs3
  JoinTreeProofs4 JoinTreeProofs5 JoinTreeProofs6 JoinTreeProofs7 NipModel NipSpec NipProofs
  NipProofs2 NipProofs3 GatherProofs2 SliceModel SliceSpec SliceProofs SliceProofs2 SliceProofs3.
Import ListNotations.
Open Scope nat_scope.
Local Open Scope res_scope.

Add Field Qcfield_slice4 : Qcft.

Lemma Qc_mul_pos : forall a b, (0 < a)%Qc -> (0 < b)%Qc -> (0 < a * b)%Qc.
Proof.
  intros a b Ha Hb. assert (H : (0 * b < a * b)%Qc) by (now apply Qcmult_lt_compat_r).
  replace (0 * b)%Qc with 0%Qc in H by ring. auto.
Qed.
Lemma Qc_pos_neq : forall a, (0 < a)%Qc -> a <> 0%Qc.
Proof. intros a H E. subst. now apply (Qclt_not_eq _ _ H). Qed.
Lemma Qc_inv_pos : forall x, (0 < x)%Qc -> (0 < / x)%Qc.
Proof.
  intros x H. assert (H1 := Qclt_le_weak _ _ H). assert (H3 := Qc_inv_nonneg x H1).
  apply Qcle_lt_or_eq in H3. destruct H3 as [|K]; auto.
  exfalso. assert (E : (x * / x = 1)%Qc) by (apply Qcmult_inv_r; now apply Qc_pos_neq).
  rewrite <- K in E. ring_simplify in E. discriminate.
Qed.

Lemma model_nonempty : forall card m, model_ok card m -> 0 < length (m_vars m).
Proof.
  intros card m HM. destruct (mo_tree _ _ HM) as (ns & es & HT & HP & _).
  assert (L : 0 < length (cls (m_jt m))).
  { apply Permutation_length in HP. rewrite seq_length in HP. rewrite <- HP. destruct HT; simpl; lia. }
  destruct (mo_shape _ _ HM) as (_ & HCl & _). destruct (HCl 0 L) as (_ & _ & NE & _).
  destruct (c_vars (clq (m_jt m) 0)) as [|v l] eqn:E; [congruence|].
  assert (v < length (m_vars m)); [|lia]. apply (mo_scope _ _ HM 0); auto. rewrite E. simpl; auto.
Qed.

Section Loops.
Variable card : nat -> nat.
Variable m0 : model.
Variable ts : time_series.
Hypothesis HM : slices_ok card m0.
Hypothesis HTS : series_ok m0 ts.
Local Notation n := (length (m_vars m0)).
Local Notation T := (length (ts_data ts)).
Local Notation sums := (fun g => sumv card (seq 0 n) g (fun _ => 0)).
Lemma MO : model_ok card m0.
Proof. exact (so_model _ _ HM). Qed.
Lemma Hn : 0 < n.
Proof. exact (model_nonempty card m0 MO). Qed.
Lemma HC : forall v, 0 < card v.
Proof. exact (shape_card card (m_jt m0) (mo_shape _ _ MO)). Qed.

Lemma ZV : valid card (fun _ => 0).
Proof. apply valid_zero. exact HC. Qed.

(** ** The recursion *)
Definition sl (t : nat) (b : nat -> nat) : Qc := (original m0 b * slice_priors m0 (Nat.ltb 0 t) b)%Qc.
Fixpoint G (t : nat) (b : nat -> nat) : Qc :=
  given (agrees m0 ts t b)
    (sl t b * match t with 0 => 1 | S t' => sums (fun b' => given (linked m0 b' b) (G t' b')) end)%Qc.
Definition inflow (t : nat) (b : nat -> nat) : Qc :=
  match t with 0 => 1%Qc | S t' => sums (fun b' => given (linked m0 b' b) (G t' b')) end.
Lemma G_eq : forall t b, G t b = given (agrees m0 ts t b) (sl t b * inflow t b)%Qc.
Proof. destruct t; reflexivity. Qed.

Definition cond (E t : nat) (b : nat -> nat) : bool := (negb (Nat.ltb t E) || agrees m0 ts t b)%bool.
Definition f0 (E : nat) (b : nat -> nat) : Qc := given (cond E 0 b) (sl 0 b).
Definition f (E t : nat) (b' b : nat -> nat) : Qc := given (cond E t b) (given (linked m0 b' b) (sl (S t) b)).

Lemma original_ext : ext (original m0).
Proof.
  intros a b E. unfold original. apply qprod_map_ext. intros i _. unfold den. now rewrite (map_ext a b E).
Qed.
Lemma priors_ext : forall vs, ext (priors m0 vs).
Proof. intros vs a b E. unfold priors. apply qprod_map_ext. intros v _. unfold at_state. now rewrite E. Qed.
Lemma sl_ext : forall t, ext (sl t).
Proof. intros t a b E. unfold sl, slice_priors. now rewrite (original_ext a b E), (priors_ext _ a b E). Qed.
Lemma forallb_ext_in : forall A (p q : A -> bool) l, (forall x, In x l -> p x = q x) -> forallb p l = forallb q l.
Proof. intros A p q l H. induction l; simpl; auto. rewrite H by (simpl; auto). rewrite IHl; auto. intros; apply H; simpl; auto. Qed.
Lemma agrees_ext : forall t a b, (forall v, a v = b v) -> agrees m0 ts t a = agrees m0 ts t b.
Proof. intros t a b E. unfold agrees. apply forallb_ext_in. intros j _. now rewrite E. Qed.
Lemma linked_ext : forall a a' b b', (forall v, a v = a' v) -> (forall v, b v = b' v) ->
  linked m0 a b = linked m0 a' b'.
Proof. intros. unfold linked. now rewrite (map_ext a a'), (map_ext b b'). Qed.
Lemma f0_ext : forall E, ext (f0 E).
Proof. intros E a b H. unfold f0, cond. now rewrite (agrees_ext 0 a b H), (sl_ext 0 a b H). Qed.
Lemma f_ext : forall E t a a' b b', (forall v, a v = a' v) -> (forall v, b v = b' v) -> f E t a b = f E t a' b'.
Proof.
  intros. unfold f, cond. now rewrite (agrees_ext t b b'), (linked_ext a a' b b'), (sl_ext _ b b').
Qed.

Lemma inflow_ext : forall t, ext (inflow t).
Proof.
  destruct t as [|t]; intros a b E; auto. cbn [inflow]. apply sumv_ext_free. intros d _.
  now rewrite (linked_ext d d a b).
Qed.
Lemma G_ext : forall t, ext (G t).
Proof. intros t a b E. rewrite !G_eq. now rewrite (agrees_ext t a b E), (sl_ext t a b E), (inflow_ext t a b E). Qed.

Lemma sl_hist : forall t b, sl (S t) b = sl 1 b.
Proof. reflexivity. Qed.

Lemma fwd_G : forall t E b, t < E -> fwd card n (f0 E) (f E) t b = G t b.
Proof.
  induction t as [|t IH]; intros E b Ht; rewrite G_eq; cbn [fwd inflow].
  - unfold f0, cond. rewrite (proj2 (Nat.ltb_lt _ _) Ht). cbn [negb orb]. f_equal. ring.
  - rewrite (sumv_ext_free card (seq 0 n) _ (fun b' => given (agrees m0 ts (S t) b) 1 * sl (S t) b * given (linked m0 b' b) (G t b'))%Qc).
    + rewrite (sumv_const_out card (seq 0 n) (fun b' => given (linked m0 b' b) (G t b')) (given (agrees m0 ts (S t) b) 1 * sl (S t) b)%Qc).
      destruct (agrees m0 ts (S t) b); cbn [given]; ring.
    + intros d _. rewrite IH by lia. unfold f, cond. rewrite (proj2 (Nat.ltb_lt _ _) Ht). cbn [negb orb].
      rewrite sl_hist, <- (sl_hist t). destruct (agrees m0 ts (S t) b), (linked m0 d b); cbn [given]; ring.
Qed.
Lemma fwd_H : forall t b, fwd card n (f0 t) (f t) t b = (sl t b * inflow t b)%Qc.
Proof.
  destruct t as [|t]; intros b; cbn [fwd inflow].
  - unfold f0, cond. cbn. ring.
  - rewrite (sumv_ext_free card (seq 0 n) _ (fun b' => sl (S t) b * given (linked m0 b' b) (G t b'))%Qc).
    + now rewrite (sumv_const_out card (seq 0 n) (fun b' => given (linked m0 b' b) (G t b')) (sl (S t) b)).
    + intros d _. rewrite fwd_G by lia. unfold f, cond. rewrite Nat.ltb_irrefl. cbn [negb orb given].
      rewrite sl_hist, <- (sl_hist t). destruct (linked m0 d b); cbn [given]; ring.
Qed.

Lemma unrolled_chain : forall N E a, unrolled m0 ts N E a = chain n (f0 E) (f E) N a.
Proof.
  intros N E a. unfold unrolled, chain. apply qprod_map_ext. intros t _. destruct t as [|t]; reflexivity.
Qed.

(** ** Signs *)
Lemma sl_nonneg : forall t b, valid card b -> (0 <= sl t b)%Qc.
Proof.
  intros t b Hb. unfold sl. apply Qc_mul_nonneg.
  - unfold original. apply qprod_nonneg. intros x Hx. apply in_map_iff in Hx. destruct Hx as (i & <- & Hi).
    apply in_seq in Hi. destruct (mo_shape _ _ MO) as (_ & HCl & _). destruct (HCl i) as (_ & To & _); [lia|].
    apply (den_nonneg card); auto. apply MO. lia.
  - unfold slice_priors, priors. apply qprod_nonneg. intros x Hx. apply in_map_iff in Hx. destruct Hx as (v & <- & Hv).
    assert (Iv : In v (m_indep m0)). { destruct (Nat.ltb 0 t); auto. apply filter_In in Hv. tauto. }
    destruct (mo_indep _ _ MO) as (_ & HI). destruct (HI v Iv) as (_ & (l & -> & Vl & _)).
    eapply at_state_nonneg; eauto.
Qed.
Lemma G_nonneg : forall t b, valid card b -> (0 <= G t b)%Qc.
Proof.
  induction t as [|t IH]; intros b Hb; rewrite G_eq; apply given_nonneg; apply Qc_mul_nonneg;
    try (now apply sl_nonneg); cbn [inflow]; [discriminate|].
  apply sumv_nonneg; [exact ZV|]. intros c Hc. apply given_nonneg. auto.
Qed.
Lemma G_zero : forall t, sums (G t) = 0%Qc -> sums (G (S t)) = 0%Qc.
Proof.
  intros t H. apply sumv_zero; [exact ZV|]. intros b Hb _. rewrite G_eq. cbn [inflow].
  rewrite (sumv_zero card); [destruct (agrees _ _ _ _); cbn [given]; ring|exact ZV|].
  intros c Hc Hco.
  assert (Z : G t c = 0%Qc).
  { apply (sumv_zero_inv card (seq 0 n) (G t) c); auto.
    - apply G_ext.
    - intros d Hd. now apply G_nonneg.
    - rewrite <- H. apply sumv_base; [apply G_ext|auto]. }
  rewrite Z. destruct (linked _ _ _); reflexivity.
Qed.
Lemma G_later : forall t k, sums (G (t + k)) <> 0%Qc -> sums (G t) <> 0%Qc.
Proof.
  intros t k. induction k as [|k IH]; [now rewrite Nat.add_0_r|]. rewrite Nat.add_succ_r.
  intros H K. apply H. apply G_zero. destruct (Qc_eq_dec (sums (G (t + k))) 0%Qc) as [|N]; auto.
  exfalso. now apply IH.
Qed.

(** ** Tables over the interface *)
Definition table_of (V : list nat) (g : (nat -> nat) -> Qc) (p : potential) : Prop :=
  exists c, (0 < c)%Qc /\ forall ix, valid_ix (map card (m_out m0)) ix ->
    cell p ix = (c * sums (fun b => given (ix_eqb (map b V) ix) (g b)))%Qc.
Definition alpha_ok (t : nat) (p : potential) : Prop :=
  interface_table card m0 p /\ table_of (m_out m0) (G t) p.

(** A model in the state for the next slice. *)
Definition fresh (hist : bool) (m : model) : Prop :=
  model_ok card m /\ same_model m0 m /\ no_evidence card m /\ represents card m (slice_priors m0 hist).

Lemma same_sum : forall m g, same_model m0 m -> sum_all card m g = sums g.
Proof. intros m g (_ & L & _). unfold sum_all. now rewrite L. Qed.

Lemma slices_same : forall m, model_ok card m -> same_model m0 m -> slices_ok card m.
Proof. intros m H1 H2. eapply slices_ok_same; eauto. Qed.

Lemma agrees_same : forall m t a, same_model m0 m -> agrees m ts t a = agrees m0 ts t a.
Proof.
  intros m t a (_ & _ & SV & _). unfold agrees. apply forallb_ext_in. intros j _.
  destruct (SV (nth j (ts_observed ts) 0)) as (_ & _ & _ & _ & ->). reflexivity.
Qed.
Lemma series_same : forall m, same_model m0 m -> series_ok m ts.
Proof. intros m (_ & L & _). destruct HTS as (A & B & C). split; auto. rewrite L. auto. Qed.
Lemma priors_same : forall m hist a, same_model m0 m -> slice_priors m hist a = slice_priors m0 hist a.
Proof.
  intros m hist a S. unfold slice_priors. rewrite (same_priors m0 m _ a S).
  destruct S as (_ & _ & _ & -> & _ & _ & -> & _). reflexivity.
Qed.

Lemma next_fresh : forall m hist, model_ok card m -> same_model m0 m ->
  exists m1 m', reset_model m = Ok m1 /\ use_priors m1 hist = Ok m' /\ fresh hist m'.
Proof.
  intros m hist H1 H2. destruct (next_slice_ok card m hist (slices_same m H1 H2)) as (m1 & m' & E1 & E2 & A & B & C & D).
  exists m1, m'. split; auto. split; auto. split; auto. split; [eapply same_model_trans; eauto|]. split; auto.
  eapply represents_ext; [|exact D]. intros a _. now apply priors_same.
Qed.

(** *** Entering a slice *)
Lemma enter_slice : forall t m alpha, fresh (Nat.ltb 0 t) m -> (0 < t -> alpha_ok (t - 1) alpha) ->
  exists ma F c, (if Nat.ltb 0 t then finish_message m FORWARD alpha None else Ok m) = Ok ma /\
    model_ok card ma /\ same_model m0 ma /\ no_evidence card ma /\ represents card ma F /\ (0 < c)%Qc /\
    forall a, valid card a -> (original m0 a * F a = c * (sl t a * inflow t a))%Qc.
Proof.
  intros t m alpha (M1 & S1 & N1 & R1) HA. destruct t as [|t].
  - exists m, (slice_priors m0 false), 1%Qc. cbn [Nat.ltb Nat.leb]. split; auto. split; auto. split; auto. split; auto.
    split; auto. split; [reflexivity|]. intros a Ha. unfold sl. cbn. ring.
  - cbn [Nat.ltb Nat.leb] in *. destruct HA as (IT & c & Pc & Hc); [lia|].
    rewrite Nat.sub_succ, Nat.sub_0_r in Hc.
    assert (SO := slices_same m M1 S1).
    assert (Eout : m_out m = m_out m0) by apply S1. assert (Eprev : m_prev m = m_prev m0) by apply S1.
    destruct (finish_ok card m FORWARD alpha None _ SO R1) as (ma & E & M2 & S2 & L2 & R2); auto.
    { eapply interface_table_same; eauto. }
    eexists ma, _, c. split; [exact E|]. split; auto. split; [eapply same_model_trans; eauto|].
    split. { intros v Hv. rewrite L2. apply N1. destruct S2 as (_ & <- & _). auto. }
    split; [exact R2|]. split; auto. intros a Ha. cbv beta. cbn [in_vars]. rewrite Eprev.
    rewrite Hc.
    + unfold sl. cbn [Nat.ltb Nat.leb inflow]. 
      change (fun b => given (ix_eqb (map b (m_out m0)) (map a (m_prev m0))) (G t b)) with
        (fun b => given (linked m0 b a) (G t b)). ring.
    + rewrite (so_cards _ _ HM). now apply valid_ix_map.
Qed.

(** *** Leaving a slice *)
Lemma joint_sum : forall m g c, same_model m0 m -> (forall a, valid card a -> joint (m_jt m) a = c * g a)%Qc ->
  sum_all card m (joint (m_jt m)) = (c * sums g)%Qc.
Proof.
  intros m g c S H. rewrite (same_sum _ _ S). rewrite <- (sumv_const_out card (seq 0 n) g c).
  apply sumv_ext; auto. exact ZV.
Qed.
Lemma joint_where : forall m g c v x, same_model m0 m -> x < card v ->
  (forall a, valid card a -> joint (m_jt m) a = c * g a)%Qc ->
  sum_where card m (joint (m_jt m)) v x = (c * sum_where card m0 g v x)%Qc.
Proof.
  intros m g c v x (_ & L & _) Hx H. unfold sum_where. rewrite L. rewrite <- sumv_const_out.
  apply sumv_ext; auto. apply upd_valid; auto. exact ZV.
Qed.

Lemma leave_slice : forall m dir p g c, model_ok card m -> same_model m0 m -> calibrated card (m_jt m) ->
  wf p -> dims p = map card (m_out m0) -> ext g -> (0 < c)%Qc ->
  (forall a, valid card a -> joint (m_jt m) a = c * g a)%Qc ->
  (m_out m0 <> [] \/ sums g <> 0%Qc) ->
  exists p', start_message m dir p = Ok p' /\ interface_table card m0 p' /\ table_of (out_vars m0 dir) g p'.
Proof.
  intros m dir p g c M1 S1 C1 WP DP HE Pc HJ HZ. assert (SO := slices_same m M1 S1).
  assert (Eout : m_out m = m_out m0) by apply S1.
  assert (EV : out_vars m dir = out_vars m0 dir). { destruct dir; apply S1. }
  destruct (start_ok card m dir p SO C1) as (p' & E & IT & d & Pd & Hd); auto.
  { now rewrite Eout. }
  { rewrite Eout. destruct HZ as [|HZ]; auto. right. rewrite (joint_sum m g c S1 HJ). intros K.
    apply Qcmult_integral in K. destruct K as [K|K]; auto. now apply (Qc_pos_neq c). }
  exists p'. split; auto. split; [apply (interface_table_same card m m0); auto|].
  exists (d * c)%Qc. split; [now apply Qc_mul_pos|]. intros ix Hix.
  destruct (out_vars_ok card m0 dir HM) as (ND & Hcl & HI & HL & HK).
  rewrite <- HK in Hix.
  destruct (ix_assignment card (out_vars m0 dir) ix (fun _ => 0) ND ZV Hix) as (a & Va & Ea & Oa).
  rewrite <- Ea at 1. rewrite <- EV at 1. rewrite Hd by auto. rewrite EV.
  assert (L : length (m_vars m) = n) by apply S1. rewrite L.
  rewrite (sumv_ext card _ _ (fun b => c * g b)%Qc) by auto. rewrite sumv_const_out.
  assert (IS : incl (out_vars m0 dir) (seq 0 n)).
  { intros v Hv. apply in_seq. split; [lia|]. apply (mo_scope _ _ MO (out_clique m0 dir)); auto. }
  rewrite (marginal_given card (seq 0 n) (out_vars m0 dir) g a ix); auto using HC, seq_NoDup.
  rewrite Qcmult_assoc. f_equal. apply sumv_base.
  - intros b b' Eb. now rewrite (HE b b' Eb), (map_ext b b' Eb).
  - intros v Hv. apply Oa. intros K. apply Hv. now apply IS.
Qed.

(** *** Observing a slice *)
Lemma represents_series : forall m, same_model m0 m -> series_ok m ts.
Proof. intros m S. now apply series_same. Qed.

Lemma observe_slice : forall t m alpha ll l, t < T -> fresh (Nat.ltb 0 t) m -> (0 < t -> alpha_ok (t - 1) alpha) ->
  exists ma mb z mc md me l' c,
    (if Nat.ltb 0 t then finish_message m FORWARD alpha None else Ok m) = Ok ma /\
    reference_mass ma ll = Ok (mb, z) /\
    insert_ts_step ts (Z.of_nat t) mb MARK_ON = Ok (mc, NO_ERROR) /\
    make_consistent_model mc = Ok md /\
    evidence_mass md ll z l = Ok (me, l') /\
    model_ok card me /\ same_model m0 me /\ calibrated card (m_jt me) /\ (0 < c)%Qc /\
    (forall a, valid card a -> joint (m_jt me) a = c * G t a)%Qc /\
    l' = if ll then l ++ [(c * sums (fun b => sl t b * inflow t b), c * sums (G t))]%Qc else l.
Proof.
  intros t m alpha ll l Ht HF HA.
  destruct (enter_slice t m alpha HF HA) as (ma & F & c & E1 & M1 & S1 & N1 & R1 & Pc & Hc).
  destruct (reference_mass_ok card ma ll F M1 R1) as (mb & z & E2 & M2 & S2 & R2 & L2 & Z2).
  assert (SB : same_model m0 mb) by (eapply same_model_trans; eauto).
  assert (LB : length (m_vars mb) = length (m_vars ma)) by apply S2.
  destruct (insert_ok card mb ts t F M2 (represents_series mb SB) Ht R2) as (mc & E3 & M3 & S3 & R3 & V3 & J3).
  { intros v Hv. rewrite L2. apply N1. lia. }
  assert (SC : same_model m0 mc) by (eapply same_model_trans; eauto).
  destruct (make_consistent_model_ok card mc M3) as (jt' & E4 & Ej & M4 & S4 & C4 & J4).
  assert (SD : same_model m0 (set_jt mc jt')) by (eapply same_model_trans; eauto).
  destruct (evidence_mass_ok card _ ll z l M4 C4) as (me & l' & E5 & M5 & S5 & C5 & J5 & EL).
  assert (SE : same_model m0 me) by (eapply same_model_trans; eauto).
  exists ma, mb, z, mc, (set_jt mc jt'), me, l', c.
  split; auto. split; auto. split; auto. split; auto. split; auto. split; auto. split; auto. split; auto. split; auto.
  assert (JD : forall a, valid card a -> joint (m_jt (set_jt mc jt')) a = (c * G t a)%Qc).
  { intros a Ha. cbn [m_jt set_jt]. rewrite J4, J3 by auto. rewrite (agrees_same mb t a SB).
    rewrite (same_original m0 mb a SB), Hc, G_eq by auto. destruct (agrees _ _ _ _); cbn [given]; ring. }
  split. { intros a Ha. rewrite J5. auto. }
  rewrite EL. destruct ll; auto. do 2 f_equal. f_equal.
  - rewrite Z2 by auto. apply joint_sum; auto. intros a Ha. rewrite R1 by auto.
    rewrite (no_evidence_one card ma a N1 Ha), (same_original m0 ma a S1). rewrite <- Hc by auto. ring.
  - apply joint_sum; auto.
Qed.

(** ** Posteriors *)
Lemma Hucard : forall v, 0 < card v.
Proof. exact HC. Qed.

Lemma where_given : forall g v x, ext g -> v < n -> x < card v ->
  sum_where card m0 g v x = sums (fun b => g b * given (Nat.eqb (b v) x) 1)%Qc.
Proof.
  intros g v x HE Hv Hx. unfold sum_where.
  rewrite (marginal_given card (seq 0 n) [v] g (upd (fun _ => 0) v x) [x]); auto using HC, seq_NoDup.
  - rewrite (sumv_base card (seq 0 n) _ _ (fun _ => 0)).
    + apply sumv_ext_free. intros d _. cbn [map]. rewrite ix_eqb_cons. 
      replace (ix_eqb [] []) with true by (symmetry; now apply ix_eqb_true). rewrite andb_true_r.
      destruct (Nat.eqb _ _); cbn [given]; ring.
    + intros b b' E. now rewrite (HE b b' E), (map_ext b b' E).
    + intros w Hw. unfold upd. destruct (Nat.eqb_spec w v) as [->|]; auto. exfalso. apply Hw. apply in_seq. lia.
  - repeat constructor. auto.
  - intros w [<-|[]]. apply in_seq. lia.
  - cbn. unfold valid_ix. repeat constructor. auto.
  - cbn. now rewrite upd_same.
Qed.

Definition zref (t : nat) : Qc := sum_steps card m0 (S t) (unrolled m0 ts (S t) t).
Definition zev (t : nat) : Qc := sum_steps card m0 (S t) (unrolled m0 ts (S t) (S t)).

Lemma state_ext : forall v x, ext (fun b => given (Nat.eqb (b v) x) 1%Qc).
Proof. intros v x a b E. now rewrite E. Qed.
Lemma one_ext : ext (fun _ => 1%Qc).
Proof. intros a b E. reflexivity. Qed.

Lemma steps_head : forall t E h, ext h ->
  sum_steps card m0 (S t) (fun a => unrolled m0 ts (S t) E a * h (moment n a t))%Qc =
  sums (fun b => fwd card n (f0 E) (f E) t b * h b)%Qc.
Proof.
  intros t E h HE. unfold sum_steps.
  rewrite <- (head_sum card n Hn (f0 E) (f E) (f0_ext E) (f_ext E) t h HE).
  apply sumv_ext_free. intros d _. now rewrite unrolled_chain.
Qed.
Lemma zref_eq : forall t, zref t = sums (fun b => sl t b * inflow t b)%Qc.
Proof.
  intros t. unfold zref. transitivity (sum_steps card m0 (S t) (fun a => unrolled m0 ts (S t) t a * 1)%Qc).
  - apply sumv_ext_free. intros d _. ring.
  - rewrite (steps_head t t (fun _ => 1%Qc) one_ext). apply sumv_ext_free. intros d _. rewrite fwd_H. ring.
Qed.
Lemma zev_eq : forall t, zev t = sums (G t).
Proof.
  intros t. unfold zev. transitivity (sum_steps card m0 (S t) (fun a => unrolled m0 ts (S t) (S t) a * 1)%Qc).
  - apply sumv_ext_free. intros d _. ring.
  - rewrite (steps_head t (S t) (fun _ => 1%Qc) one_ext). apply sumv_ext_free. intros d _. rewrite fwd_G by lia. ring.
Qed.
Lemma filter_eq : forall t v x, v < n -> x < card v ->
  posterior_at card m0 ts (S t) (S t) t v x = (sum_where card m0 (G t) v x / sums (G t))%Qc.
Proof.
  intros t v x Hv Hx. unfold posterior_at. fold (zev t). rewrite zev_eq. f_equal.
  transitivity (sum_steps card m0 (S t) (fun a => unrolled m0 ts (S t) (S t) a * given (Nat.eqb (moment n a t v) x) 1)%Qc).
  - apply sumv_ext_free. intros d _. destruct (Nat.eqb _ _); cbn [given]; ring.
  - rewrite (steps_head t (S t) (fun b => given (Nat.eqb (b v) x) 1%Qc) (state_ext v x)).
    rewrite (where_given (G t) v x (G_ext t) Hv Hx). apply sumv_ext_free. intros d _. rewrite fwd_G by lia. reflexivity.
Qed.
Lemma zev_later : forall t t', t <= t' -> zev t' <> 0%Qc -> zev t <> 0%Qc.
Proof. intros t t' H. rewrite !zev_eq. intros K. apply (G_later t (t' - t)). now replace (t + (t' - t)) with t' by lia. Qed.

Lemma possible_zev : forall t, sum_steps card m0 T (unrolled m0 ts T T) <> 0%Qc -> t < T -> zev t <> 0%Qc.
Proof.
  intros t H Ht. apply (zev_later t (T - 1)); [lia|]. unfold zev. now replace (S (T - 1)) with T by lia.
Qed.

(** Scaled tables and their quotients. *)
Lemma scaled_ratio : forall c x y, (0 < c)%Qc -> (c * x / (c * y) = x / y)%Qc.
Proof.
  intros c x y Pc. assert (Hc := Qc_pos_neq c Pc). destruct (Qc_eq_dec y 0%Qc) as [->|N].
  - unfold Qcdiv. replace (c * 0)%Qc with 0%Qc by ring. rewrite Qcinv_0. ring.
  - field. auto.
Qed.

(** ** The likelihoods *)
Definition masses_ok (t : nat) (ll : bool) (l : list (Qc * Qc)) : Prop :=
  if ll then length l = t /\
    forall s, s < t -> exists c, (0 < c)%Qc /\ nth s l (0, 0)%Qc = (c * zref s, c * zev s)%Qc
  else l = [].
Lemma masses_step : forall t ll l l' c, masses_ok t ll l -> (0 < c)%Qc ->
  l' = (if ll then l ++ [(c * sums (fun b => sl t b * inflow t b), c * sums (G t))]%Qc else l) ->
  masses_ok (S t) ll l'.
Proof.
  intros t ll l l' c H Pc ->. unfold masses_ok in *. destruct ll; auto. destruct H as (L & H).
  split; [rewrite app_length; simpl; lia|]. intros s Hs. destruct (Nat.eq_dec s t) as [->|Ns].
  - exists c. split; auto. rewrite app_nth2 by lia. rewrite L, Nat.sub_diag. cbn [nth]. now rewrite zref_eq, zev_eq.
  - rewrite app_nth1 by lia. apply H. lia.
Qed.

(** ** Forward inference *)
Definition row_is (vars : list nat) (g : (nat -> nat) -> Qc) (row : list (list Qc)) : Prop :=
  forall i x, i < length vars -> x < card (nth i vars 0) ->
    nth x (nth i row []) 0%Qc = (sum_where card m0 g (nth i vars 0%nat) x / sums g)%Qc.

Lemma results_slice : forall m vars row g c, model_ok card m -> same_model m0 m -> calibrated card (m_jt m) ->
  (forall v, In v vars -> v < n) -> row_shape card vars row -> (0 < c)%Qc ->
  (forall a, valid card a -> joint (m_jt m) a = c * g a)%Qc ->
  exists m' row', write_results m vars row = Ok (m', row') /\ model_ok card m' /\ same_model m0 m' /\
    m_jt m' = m_jt m /\ row_shape card vars row' /\ row_is vars g row'.
Proof.
  intros m vars row g c M1 S1 C1 HV HR Pc HJ.
  assert (L : length (m_vars m) = n) by apply S1.
  destruct (write_results_ok card m vars row M1 C1) as (m' & row' & E & M2 & S2 & J2 & R2 & H2); auto.
  { rewrite L. auto. }
  exists m', row'. split; auto. split; auto. split; [eapply same_model_trans; eauto|]. split; auto. split; auto.
  intros i x Hi Hx. rewrite H2 by auto. rewrite (joint_where m g c _ x S1 Hx HJ), (joint_sum m g c S1 HJ).
  now apply scaled_ratio.
Qed.

Definition rows_ok (vars : list nat) (results : list (list (list Qc))) (P : nat -> list (list Qc) -> Prop) : Prop :=
  length results = T /\ forall t, t < T -> row_shape card vars (nth t results []) /\ P t (nth t results []).

Lemma rows_write : forall vars results P (Q : nat -> list (list Qc) -> Prop) t row, rows_ok vars results P -> t < T -> row_shape card vars row -> Q t row ->
  (forall s r, s <> t -> P s r -> Q s r) -> 
  exists results', wr results t row = Ok results' /\ rows_ok vars results' Q.
Proof.
  intros vars results P Q t row (L & H) Ht HR HQ HPQ. rewrite wr_ok by lia. eexists. split; [reflexivity|].
  split; [now rewrite set_nth_length|]. intros s Hs. rewrite nth_set_nth by lia.
  destruct (Nat.eqb_spec s t) as [->|N]; auto. destruct (H s Hs). auto.
Qed.

Theorem forward_ok : forall vars ll,
  (forall v, In v vars -> v < n) -> (m_out m0 <> [] \/ sum_steps card m0 T (unrolled m0 ts T T) <> 0%Qc) ->
  exists m' results l, forward_inference m0 ts vars ll = Ok (m', results, l) /\
    model_ok card m' /\ same_model m0 m' /\ masses_ok T ll l /\
    rows_ok vars results (fun t row => row_is vars (G t) row).
Proof.
  intros vars ll HV HZ. unfold forward_inference.
  destruct (new_results_ok card m0 vars T MO HV) as (rs & E0 & L0 & H0). rewrite E0. cbn [bind].
  destruct (interface_potential_ok card m0 HM) as (al & Ea & Wa & Da). rewrite Ea. cbn [bind].
  destruct (next_fresh m0 false MO (same_model_refl m0)) as (m1 & m2 & E1 & E2 & F2).
  rewrite E1. cbn [bind]. rewrite E2. cbn [bind].
  match goal with |- context [for_up 0 ?k ?b ?s] =>
    destruct (for_up_inv (model * potential * list (list (list Qc)) * list (Qc * Qc))
      (fun t '(m, alpha, results, l) => fresh (Nat.ltb 0 t) m /\ wf alpha /\ dims alpha = map card (m_out m0) /\
         (0 < t -> alpha_ok (t - 1) alpha) /\ masses_ok t ll l /\
         rows_ok vars results (fun s0 row => s0 < t -> row_is vars (G s0) row)) b 0 k s)
      as ((((m' & alpha') & results') & l') & E3 & A1 & A2 & A3 & A4 & A5 & A6) end.
  { lia. }
  { split; auto. split; auto. split; auto. split; [lia|]. split.
    - unfold masses_ok. destruct ll; auto. split; auto. intros; lia.
    - split; auto. intros t Ht. split; auto. lia. }
  { intros t [[[m alpha] results] l] Ht (B1 & B2 & B3 & B4 & B5 & B6).
    destruct (observe_slice t m alpha ll l) as (ma & mb & z & mc & md & me & l' & c & O1 & O2 & O3 & O4 & O5 & O6 & O7 & O8 & Pc & O9 & O10); auto; [lia|].
    rewrite O1. cbn [bind]. rewrite O2. cbn [bind]. rewrite O3. cbn [bind]. rewrite O4. cbn [bind]. rewrite O5. cbn [bind].
    assert (LR : length results = T) by apply B6.
    rewrite (rd_ok _ results t []) by lia. cbn [bind].
    destruct (results_slice me vars (nth t results []) (G t) c) as (mf & row' & W1 & W2 & W3 & W4 & W5 & W6); auto.
    { apply B6. lia. }
    rewrite W1. cbn [bind].
    destruct (rows_write vars results _ (fun s row => s < S t -> row_is vars (G s) row) t row' B6) as (results' & X1 & X2);
      auto; [lia| |].
    { intros s r Ns Hs Hlt. apply Hs. lia. }
    rewrite X1. cbn [bind].
    destruct (leave_slice mf FORWARD alpha (G t) c) as (p' & Y1 & Y2 & Y3); auto.
    { rewrite W4. auto. } { apply G_ext. } { intros a Ha. rewrite W4. auto. }
    { destruct HZ as [|HZ]; auto. right. rewrite <- zev_eq. apply possible_zev; auto; lia. }
    rewrite Y1. cbn [bind].
    destruct (next_fresh mf true W2 W3) as (mg & mh & Z1 & Z2 & Z3). rewrite Z1. cbn [bind]. rewrite Z2. cbn [bind].
    eexists. split; [reflexivity|]. cbn beta iota. split; auto. split; [apply Y2|]. split; [apply Y2|].
    split. { intros _. rewrite Nat.sub_succ, Nat.sub_0_r. split; auto. }
    split; auto. eapply masses_step; eauto. }
  rewrite E3. cbn [bind]. exists m', results', l'. split; [reflexivity|]. destruct A1 as (A1 & A1' & _).
  split; auto. split; auto. split; auto. destruct A6 as (A6 & A7). split; auto.
  intros t Ht. destruct (A7 t Ht). auto.
Qed.

(** ** Smoothing *)
Definition B (t : nat) (b : nat -> nat) : Qc := bwd card n (f T) (T - 1 - t) t b.
Definition GB (t : nat) (b : nat -> nat) : Qc := (G t b * B t b)%Qc.

Lemma B_last : forall t b, t = T - 1 -> B t b = 1%Qc.
Proof. intros t b ->. unfold B. now rewrite Nat.sub_diag. Qed.
Lemma B_eq : forall t b, S t < T ->
  B t b = sums (fun b' => given (linked m0 b b') (given (agrees m0 ts (S t) b') (sl (S t) b' * B (S t) b')))%Qc.
Proof.
  intros t b Ht. unfold B at 1. replace (T - 1 - t) with (S (T - 1 - S t)) by lia. cbn [bwd].
  apply sumv_ext_free. intros d _. fold (B (S t) d). unfold f, cond. rewrite (proj2 (Nat.ltb_lt _ _) Ht).
  cbn [negb orb]. rewrite (sl_hist (S t)), <- (sl_hist t).
  destruct (agrees _ _ _ _), (linked _ _ _); cbn [given]; ring.
Qed.
Lemma B_ext : forall t, ext (B t).
Proof. intros t. unfold B. apply bwd_ext. apply f_ext. Qed.
Lemma GB_ext : forall t, ext (GB t).
Proof. intros t a b E. unfold GB. now rewrite (G_ext t a b E), (B_ext t a b E). Qed.

Lemma steps_smooth : forall t h, t < T -> ext h ->
  sum_steps card m0 T (fun a => unrolled m0 ts T T a * h (moment n a t))%Qc =
  sums (fun b => GB t b * h b)%Qc.
Proof.
  intros t h Ht HE. unfold sum_steps.
  assert (K := smooth_sum card n Hn (f0 T) (f T) (f0_ext T) (f_ext T) (T - 1 - t) t h HE).
  replace (S t + (T - 1 - t)) with T in K by lia.
  transitivity (sums (fun b => fwd card n (f0 T) (f T) t b * bwd card n (f T) (T - 1 - t) t b * h b)%Qc).
  - rewrite <- K. apply sumv_ext_free. intros d _. now rewrite unrolled_chain.
  - apply sumv_ext_free. intros d _. rewrite fwd_G by lia. reflexivity.
Qed.
Lemma GB_total : forall t, t < T -> sums (GB t) = sum_steps card m0 T (unrolled m0 ts T T).
Proof.
  intros t Ht. transitivity (sum_steps card m0 T (fun a => unrolled m0 ts T T a * 1)%Qc).
  - rewrite (steps_smooth t (fun _ => 1%Qc) Ht one_ext). apply sumv_ext_free. intros d _. ring.
  - apply sumv_ext_free. intros d _. ring.
Qed.
Lemma smooth_eq : forall t v x, t < T -> v < n -> x < card v ->
  posterior_at card m0 ts T T t v x = (sum_where card m0 (GB t) v x / sums (GB t))%Qc.
Proof.
  intros t v x Ht Hv Hx. unfold posterior_at. rewrite (GB_total t Ht). f_equal.
  transitivity (sum_steps card m0 T (fun a => unrolled m0 ts T T a * given (Nat.eqb (moment n a t v) x) 1)%Qc).
  - apply sumv_ext_free. intros d _. destruct (Nat.eqb _ _); cbn [given]; ring.
  - rewrite (steps_smooth t (fun b => given (Nat.eqb (b v) x) 1%Qc) Ht (state_ext v x)).
    symmetry. apply (where_given (GB t) v x (GB_ext t) Hv Hx).
Qed.

(** The functions depend on the variables of the model only. *)
Lemma sumv_local : forall g a b, (forall d d', (forall v, v < n -> d v = d' v) -> g d = g d') ->
  sumv card (seq 0 n) g a = sumv card (seq 0 n) g b.
Proof.
  intros g a b H.
  set (r := fun d v => if Nat.ltb v n then d v else 0).
  transitivity (sumv card (seq 0 n) (fun d => g (r d)) b).
  - transitivity (sumv card (seq 0 n) (fun d => g (r d)) a).
    + apply sumv_ext_free. intros d _. apply H. intros v Hv. unfold r. now rewrite (proj2 (Nat.ltb_lt _ _) Hv).
    + assert (K : forall vs a b, (forall v, v < n -> ~ In v vs -> a v = b v) ->
        sumv card vs (fun d => g (r d)) a = sumv card vs (fun d => g (r d)) b).
      { clear a b. induction vs as [|v vs IH]; intros a b E; simpl.
        - apply H. intros v Hv. unfold r. rewrite (proj2 (Nat.ltb_lt _ _) Hv). apply E; auto.
        - apply qsum_map_ext. intros x _. apply IH. intros w Hw Nw. unfold upd.
          destruct (Nat.eqb_spec w v) as [|D]; auto. apply E; auto. intros [K|K]; congruence. }
      apply K. intros v Hv Nv. exfalso. apply Nv. apply in_seq. lia.
  - apply sumv_ext_free. intros d _. apply H. intros v Hv. unfold r. now rewrite (proj2 (Nat.ltb_lt _ _) Hv).
Qed.
Lemma out_in : forall v, In v (m_out m0) -> v < n.
Proof. intros v Hv. destruct (so_out_clique _ _ HM) as (Hc & HI). apply (mo_scope _ _ MO (m_out_clique m0)); auto. Qed.
Lemma prev_in : forall v, In v (m_prev m0) -> v < n.
Proof. intros v Hv. destruct (so_in_clique _ _ HM) as (Hc & HI). apply (mo_scope _ _ MO (m_in_clique m0)); auto. Qed.
Lemma sl_local : forall t a b, (forall v, v < n -> a v = b v) -> sl t a = sl t b.
Proof.
  intros t a b E. unfold sl. f_equal.
  - unfold original. apply qprod_map_ext. intros i Hi. apply in_seq in Hi. unfold den. f_equal.
    apply map_ext_in. intros v Hv. apply E. apply (mo_scope _ _ MO i); auto. lia.
  - unfold slice_priors, priors. apply qprod_map_ext. intros v Hv. unfold at_state. f_equal. apply E.
    assert (Iv : In v (m_indep m0)). { destruct (Nat.ltb 0 t); auto. apply filter_In in Hv. tauto. }
    destruct (mo_indep _ _ MO) as (_ & HI). now apply HI.
Qed.
Lemma agrees_local : forall t a b, (forall v, v < n -> a v = b v) -> agrees m0 ts t a = agrees m0 ts t b.
Proof.
  intros t a b E. unfold agrees. apply forallb_ext_in. intros j Hj. apply in_seq in Hj. rewrite E; auto.
  destruct HTS as (_ & HV & _). apply HV. apply nth_In. lia.
Qed.
Lemma G_local : forall t a b, (forall v, v < n -> a v = b v) -> G t a = G t b.
Proof.
  intros t a b E. rewrite !G_eq. rewrite (agrees_local t a b E), (sl_local t a b E). do 2 f_equal.
  destruct t as [|t]; auto. cbn [inflow]. apply sumv_ext_free. intros d _. f_equal. unfold linked. f_equal.
  apply map_ext_in. intros v Hv. apply E. now apply prev_in.
Qed.

Definition gamma_ok (t : nat) (p : potential) : Prop :=
  interface_table card m0 p /\ table_of (m_prev m0) (GB t) p.

Lemma gamma_step : forall t alpha gamma, S t < T -> alpha_ok t alpha -> gamma_ok (S t) gamma ->
  exists c, (0 < c)%Qc /\ forall b, valid card b ->
    (G t b * (cell gamma (map b (m_out m0)) * / cell alpha (map b (m_out m0))) = c * GB t b)%Qc.
Proof.
  intros t alpha gamma Ht (_ & c1 & P1 & H1) (_ & c2 & P2 & H2).
  assert (N1 := Qc_pos_neq _ P1). assert (N2 := Qc_pos_neq _ P2).
  exists (c2 / c1)%Qc. split. { apply Qc_mul_pos; auto. now apply Qc_inv_pos. }
  intros b Hb. set (ix := map b (m_out m0)).
  assert (Vi : valid_ix (map card (m_out m0)) ix) by (now apply valid_ix_map).
  set (A := sums (fun b0 => given (ix_eqb (map b0 (m_out m0)) ix) (G t b0))).
  assert (EA : cell alpha ix = (c1 * A)%Qc) by (apply H1; auto).
  assert (EG : cell gamma ix = (c2 * (A * B t b))%Qc).
  { rewrite H2 by auto. f_equal. rewrite B_eq by auto.
    rewrite <- (sumv_const_out card (seq 0 n) _ A). apply sumv_ext_free. intros d _. unfold GB. rewrite G_eq.
    assert (EL : linked m0 b d = ix_eqb (map d (m_prev m0)) ix).
    { unfold linked. fold ix. destruct (ix_eqb (map d (m_prev m0)) ix) eqn:K.
      - apply ix_eqb_true in K. apply ix_eqb_true. auto.
      - destruct (ix_eqb ix (map d (m_prev m0))) eqn:K'; auto. apply ix_eqb_true in K'. rewrite <- K' in K.
        rewrite (proj2 (ix_eqb_true ix ix) eq_refl) in K. discriminate. }
    rewrite EL. destruct (ix_eqb (map d (m_prev m0)) ix) eqn:K; cbn [given]; [|ring].
    apply ix_eqb_true in K. destruct (agrees m0 ts (S t) d); cbn [given]; [|ring].
    cbn [inflow]. unfold linked. rewrite K. fold A. ring. }
  rewrite EG, EA. unfold GB. destruct (Qc_eq_dec A 0%Qc) as [Z|Z].
  - assert (GZ : G t b = 0%Qc).
    { apply (sumv_zero_inv card (seq 0 n) (fun b0 => given (ix_eqb (map b0 (m_out m0)) ix) (G t b0)) b) in Hb as K.
      - cbn beta in K. unfold ix in K. rewrite (proj2 (ix_eqb_true _ _) eq_refl) in K. exact K.
      - intros d d' E. now rewrite (G_ext t d d' E), (map_ext d d' E).
      - intros d Hd. apply given_nonneg. now apply G_nonneg.
      - rewrite <- Z. unfold A. apply sumv_local. intros d d' E. rewrite (G_local t d d' E). do 2 f_equal.
        apply map_ext_in. intros v Hv. apply E. apply out_in; auto. }
    rewrite GZ. ring.
  - field. auto.
Qed.

(** Observing a slice on the way back. *)
Lemma revise_slice : forall t m alpha a g, t < T -> fresh (Nat.ltb 0 t) m -> (0 < t -> alpha_ok (t - 1) alpha) ->
  (t < T - 1 -> alpha_ok t a /\ gamma_ok (S t) g) ->
  exists ma mb mc md c,
    (if Nat.ltb 0 t then finish_message m FORWARD alpha None else Ok m) = Ok ma /\
    insert_ts_step ts (Z.of_nat t) ma MARK_ON = Ok (mb, NO_ERROR) /\
    (if Nat.ltb t (T - 1) then finish_message mb BACKWARD g (Some a) else Ok mb) = Ok mc /\
    make_consistent_model mc = Ok md /\
    model_ok card md /\ same_model m0 md /\ calibrated card (m_jt md) /\ (0 < c)%Qc /\
    (forall a, valid card a -> joint (m_jt md) a = c * GB t a)%Qc.
Proof.
  intros t m alpha a0 g Ht HF HA HB.
  destruct (enter_slice t m alpha HF HA) as (ma & F & c & E1 & M1 & S1 & N1 & R1 & Pc & Hc).
  destruct (insert_ok card ma ts t F M1 (represents_series ma S1) Ht R1 N1) as (mb & E3 & M3 & S3 & R3 & V3 & J3).
  assert (SB : same_model m0 mb) by (eapply same_model_trans; eauto).
  assert (JB : forall a, valid card a -> joint (m_jt mb) a = (c * G t a)%Qc).
  { intros a Ha. rewrite J3 by auto. rewrite (agrees_same ma t a S1).
    rewrite (same_original m0 ma a S1), Hc, G_eq by auto. destruct (agrees _ _ _ _); cbn [given]; ring. }
  assert (X : exists mc d, (if Nat.ltb t (T - 1) then finish_message mb BACKWARD g (Some a0) else Ok mb) = Ok mc /\
     model_ok card mc /\ same_model m0 mc /\ (0 < d)%Qc /\
     (forall a, valid card a -> joint (m_jt mc) a = d * GB t a)%Qc).
  { destruct (Nat.ltb_spec t (T - 1)) as [K|K].
    - destruct (HB K) as (HA0 & HG).
      destruct (gamma_step t a0 g) as (e & Pe & He); auto; [lia|].
      destruct (finish_ok card mb BACKWARD g (Some a0) F) as (mc & E4 & M4 & S4 & L4 & R4); auto.
      { now apply slices_same. }
      { apply (interface_table_same card m0); [apply SB|apply HG]. }
      { apply (interface_table_same card m0); [apply SB|apply HA0]. }
      exists mc, (c * e)%Qc. split; auto. split; auto. split; [eapply same_model_trans; eauto|].
      split; [now apply Qc_mul_pos|]. intros a Ha. rewrite R4 by auto. cbn [in_vars].
      assert (Eout : m_out mb = m_out m0) by apply SB. rewrite Eout.
      assert (Ev : evidence mc a = evidence mb a).
      { unfold evidence. assert (Lc : length (m_vars mc) = length (m_vars mb)) by apply S4. rewrite Lc.
        apply weight_ext. auto. }
      rewrite Ev, (same_original mb mc a S4). specialize (JB a Ha). rewrite (R3 a Ha) in JB.
      transitivity (c * G t a * (cell g (map a (m_out m0)) * / cell a0 (map a (m_out m0))))%Qc.
      + rewrite <- JB. ring.
      + rewrite <- Qcmult_assoc, He by auto. ring.
    - exists mb, c. split; auto. split; auto. split; auto. split; auto. intros a Ha. rewrite JB by auto.
      unfold GB. rewrite B_last by lia. ring. }
  destruct X as (mc & d & E4 & M4 & S4 & Pd & J4).
  destruct (make_consistent_model_ok card mc M4) as (jt' & E5 & Ej & M5 & S5 & C5 & J5).
  exists ma, mb, mc, (set_jt mc jt'), d. split; auto. split; auto. split; auto. split; auto. split; auto.
  split; [eapply same_model_trans; eauto|]. split; auto. split; auto.
  intros a Ha. cbn [m_jt set_jt]. rewrite J5 by auto. auto.
Qed.

Definition tables_ok (ag : list potential) : Prop :=
  length ag = T + 1 /\ forall s d, s < T + 1 -> wf (nth s ag d) /\ dims (nth s ag d) = map card (m_out m0).
Lemma tables_write : forall ag t p, tables_ok ag -> t < T -> interface_table card m0 p ->
  exists ag', wr ag t p = Ok ag' /\ tables_ok ag' /\ forall s d, s < T + 1 -> nth s ag' d = if Nat.eqb s t then p else nth s ag d.
Proof.
  intros ag t p (L & H) Ht (W & D & _). rewrite wr_ok by lia. eexists. split; [reflexivity|].
  assert (K : forall s d, s < T + 1 -> nth s (set_nth ag t p) d = if Nat.eqb s t then p else nth s ag d).
  { intros s d Hs. rewrite nth_set_nth by lia. reflexivity. }
  split; auto. split; [now rewrite set_nth_length|]. intros s d Hs. rewrite K by auto. destruct (Nat.eqb s t); auto.
Qed.

Lemma forward_phase_ok : forall ll, (m_out m0 <> [] \/ sum_steps card m0 T (unrolled m0 ts T T) <> 0%Qc) ->
  exists m' ag l, forward_phase m0 ts ll = Ok (m', ag, l) /\ fresh (Nat.ltb 1 T) m' /\ tables_ok ag /\
    (forall s d, s < T -> alpha_ok s (nth s ag d)) /\ masses_ok T ll l.
Proof.
  intros ll HZ. unfold forward_phase.
  destruct (interface_potential_ok card m0 HM) as (al & Ea & Wa & Da). rewrite Ea. cbn [bind].
  destruct (next_fresh m0 false MO (same_model_refl m0)) as (m1 & m2 & E1 & E2 & F2).
  rewrite E1. cbn [bind]. rewrite E2. cbn [bind].
  match goal with |- context [for_up 0 ?k ?b ?s] =>
    destruct (for_up_inv (model * list potential * list (Qc * Qc))
      (fun t '(m, ag, l) => fresh (Nat.ltb 0 t && Nat.ltb 1 T)%bool m /\ tables_ok ag /\
         (forall s0 d, s0 < t -> alpha_ok s0 (nth s0 ag d)) /\ masses_ok t ll l) b 0 k s)
      as (((m' & ag') & l') & E3 & A1 & A2 & A3 & A4) end.
  { lia. }
  { split; auto. split.
    - split; [apply repeat_length|]. intros s d Hs. rewrite nth_repeat_lt by auto. auto.
    - split; [intros; lia|]. unfold masses_ok. destruct ll; auto. split; auto. intros; lia. }
  { intros t [[m ag] l] Ht (B1 & B2 & B3 & B4).
    assert (B1' : fresh (Nat.ltb 0 t) m).
    { destruct (Nat.ltb_spec 0 t); auto. destruct (Nat.ltb_spec 1 T); [auto|lia]. }
    assert (L2 : length ag = T + 1) by apply B2.
    destruct (observe_slice t m (nth (t - 1) ag al) ll l) as (ma & mb & z & mc & md & me & l' & c & O1 & O2 & O3 & O4 & O5 & O6 & O7 & O8 & Pc & O9 & O10); auto.
    { lia. } { intros P. apply B3. lia. }
    replace (if 0 <? t then let* a := rd ag (t - 1) in finish_message m FORWARD a None else Ok m) with (Ok ma).
    2: { rewrite <- O1. destruct (0 <? t); auto. rewrite (rd_ok _ ag (t - 1) al) by lia. reflexivity. }
    cbn [bind]. rewrite O2. cbn [bind]. rewrite O3. cbn [bind]. rewrite O4. cbn [bind]. rewrite O5. cbn [bind].
    rewrite (rd_ok _ ag t al) by lia. cbn [bind].
    destruct (leave_slice me FORWARD (nth t ag al) (G t) c) as (p' & Y1 & Y2 & Y3); auto.
    { apply B2. lia. } { apply B2. lia. } { apply G_ext. }
    { destruct HZ as [|HZ]; auto. right. rewrite <- zev_eq. apply possible_zev; auto; lia. }
    rewrite Y1. cbn [bind].
    destruct (tables_write ag t p' B2) as (ag' & X1 & X2 & X3); auto; [lia|].
    rewrite X1. cbn [bind].
    destruct (next_fresh me (Nat.ltb 1 T) O6 O7) as (mg & mh & Z1 & Z2 & Z3). rewrite Z1. cbn [bind]. rewrite Z2. cbn [bind].
    eexists. split; [reflexivity|]. cbn beta iota. split; auto. split; auto.
    split. { intros s d Hs. rewrite X3 by lia. destruct (Nat.eqb_spec s t) as [->|]; [split; auto|]. apply B3. lia. }
    eapply masses_step; eauto. }
  rewrite E3. exists m', ag', l'. split; [reflexivity|]. split; auto.
  replace (1 <? T) with ((0 <? T) && (1 <? T))%bool; auto.
  destruct (Nat.ltb_spec 0 T), (Nat.ltb_spec 1 T); auto; lia.
Qed.

Lemma backward_phase_ok : forall m ag vars results, (m_out m0 <> [] \/ sum_steps card m0 T (unrolled m0 ts T T) <> 0%Qc) ->
  (forall v, In v vars -> v < n) -> fresh (Nat.ltb 1 T) m -> tables_ok ag ->
  (forall s d, s < T -> alpha_ok s (nth s ag d)) -> rows_ok vars results (fun _ _ => True) ->
  exists m' ag' results', backward_phase m ts vars ag results = Ok (m', ag', results') /\
    model_ok card m' /\ same_model m0 m' /\ rows_ok vars results' (fun t row => row_is vars (GB t) row).
Proof.
  intros m ag vars results HZ HV HF HT HA HR. unfold backward_phase.
  destruct (interface_potential_ok card m0 HM) as (al & _ & _ & _).
  match goal with |- context [for_down ?k 0 ?b ?s] =>
    destruct (for_down_inv (model * list potential * list (list (list Qc)))
      (fun t '(m, ag, results) => fresh (Nat.ltb 0 (t - 1)) m /\ tables_ok ag /\
         (forall s0 d, s0 < t -> s0 < T -> alpha_ok s0 (nth s0 ag d)) /\
         (forall d, 0 < t < T -> gamma_ok t (nth t ag d)) /\
         rows_ok vars results (fun s0 row => t <= s0 -> row_is vars (GB s0) row)) b k 0 s)
      as (((m' & ag') & results') & E3 & A1 & A2 & A3 & A4 & A5) end.
  { lia. }
  { split. { replace (0 <? T - 1) with (1 <? T); auto. destruct (Nat.ltb_spec 1 T), (Nat.ltb_spec 0 (T - 1)); auto; lia. }
    split; auto. split; auto. split; [intros; lia|]. destruct HR as (HR1 & HR2). split; auto.
    intros t Ht. split; [apply HR2; auto|]. lia. }
  { intros t [[mi agi] ri] Ht (B1 & B2 & B3 & B4 & B5). rewrite Nat.sub_succ, Nat.sub_0_r in B1.
    assert (L2 : length agi = T + 1) by apply B2.
    destruct (revise_slice t mi (nth (t - 1) agi al) (nth t agi al) (nth (t + 1) agi al)) as (ma & mb & mc & md & c & O1 & O3 & O4 & O5 & O6 & O7 & O8 & Pc & O9); auto.
    { lia. } { intros P. apply B3; lia. } { intros P. split; [apply B3; lia|]. rewrite Nat.add_1_r. apply B4. lia. }
    replace (if 0 <? t then let* a := rd agi (t - 1) in finish_message mi FORWARD a None else Ok mi) with (Ok ma).
    2: { rewrite <- O1. destruct (0 <? t); auto. rewrite (rd_ok _ agi (t - 1) al) by lia. reflexivity. }
    cbn [bind]. rewrite O3. cbn [bind].
    replace (if t <? T - 1 then let* g := rd agi (t + 1) in let* a := rd agi t in finish_message mb BACKWARD g (Some a) else Ok mb) with (Ok mc).
    2: { rewrite <- O4. destruct (t <? T - 1); auto. rewrite (rd_ok _ agi (t + 1) al), (rd_ok _ agi t al) by lia. reflexivity. }
    cbn [bind]. rewrite O5. cbn [bind].
    assert (LR : length ri = T) by apply B5.
    rewrite (rd_ok _ ri t []) by lia. cbn [bind].
    destruct (results_slice md vars (nth t ri []) (GB t) c) as (mf & row' & W1 & W2 & W3 & W4 & W5 & W6); auto.
    { apply B5. lia. }
    rewrite W1. cbn [bind].
    destruct (rows_write vars ri _ (fun s row => t <= s -> row_is vars (GB s) row) t row' B5) as (ri' & X1 & X2);
      auto; [lia| |].
    { intros s r Ns Hs Hlt. apply Hs. lia. }
    rewrite X1. cbn [bind].
    assert (Y : exists ag', (if 0 <? t then let* g := rd agi t in let* g := start_message mf BACKWARD g in wr agi t g else Ok agi) = Ok ag' /\
       tables_ok ag' /\ (forall s d, s < t -> alpha_ok s (nth s ag' d)) /\ (forall d, 0 < t < T -> gamma_ok t (nth t ag' d))).
    { destruct (Nat.ltb_spec 0 t) as [P|P].
      - rewrite (rd_ok _ agi t al) by lia. cbn [bind].
        destruct (leave_slice mf BACKWARD (nth t agi al) (GB t) c) as (p' & Y1 & Y2 & Y3); auto.
        { rewrite W4. auto. } { apply B2. lia. } { apply B2. lia. } { apply GB_ext. } { intros a Ha. rewrite W4. auto. }
        { destruct HZ as [|HZ]; auto. right. rewrite GB_total by lia. auto. }
        rewrite Y1. cbn [bind]. destruct (tables_write agi t p' B2) as (ag' & U1 & U2 & U3); auto; [lia|].
        exists ag'. split; auto. split; auto. split.
        + intros s d Hs. rewrite U3 by lia. destruct (Nat.eqb_spec s t); [lia|]. apply B3; lia.
        + intros d _. rewrite U3 by lia. rewrite Nat.eqb_refl. split; auto.
      - exists agi. split; auto. split; auto. split; intros; lia. }
    destruct Y as (ag' & Y1 & Y2 & Y3 & Y4). rewrite Y1. cbn [bind].
    destruct (next_fresh mf (Nat.ltb 1 t) W2 W3) as (mg & mh & Z1 & Z2 & Z3). rewrite Z1. cbn [bind]. rewrite Z2. cbn [bind].
    eexists. split; [reflexivity|]. cbn beta iota.
    split. { replace (0 <? t - 1) with (1 <? t); auto. destruct (Nat.ltb_spec 1 t), (Nat.ltb_spec 0 (t - 1)); auto; lia. }
    split; auto. }
  rewrite E3. exists m', ag', results'. split; [reflexivity|]. destruct A1 as (A1 & A1' & _).
  split; auto. split; auto. destruct A5 as (A5 & A6). split; auto. intros t Ht. destruct (A6 t Ht) as (C1 & C2).
  split; auto. apply C2. lia.
Qed.

Theorem forward_backward_ok : forall vars ll,
  (forall v, In v vars -> v < n) -> (m_out m0 <> [] \/ sum_steps card m0 T (unrolled m0 ts T T) <> 0%Qc) ->
  exists m' results l, forward_backward_inference m0 ts vars ll = Ok (m', results, l) /\
    model_ok card m' /\ same_model m0 m' /\ masses_ok T ll l /\
    rows_ok vars results (fun t row => row_is vars (GB t) row).
Proof.
  intros vars ll HV HZ. unfold forward_backward_inference.
  destruct (new_results_ok card m0 vars T MO HV) as (rs & E0 & L0 & H0). rewrite E0. cbn [bind].
  destruct (forward_phase_ok ll HZ) as (m1 & ag & l & E1 & F1 & A1 & A2 & A3). rewrite E1. cbn [bind].
  destruct (backward_phase_ok m1 ag vars rs HZ HV F1 A1 A2) as (m' & ag' & rs' & E2 & M2 & S2 & R2).
  { split; auto. }
  rewrite E2. cbn [bind]. exists m', rs', l. auto.
Qed.
End Loops.
