(** * Proofs about generate_data: the data *)
From Coq Require Import Permutation Field.
From Verif Require Import Base BaseProofs PotentialModel PotentialSpec PotentialProofs
  PotentialProofs2 PotentialProofs3 VariableModel VariableProofs JoinTreeModel
  AssignSpec AssignProofs JoinTreeSpec JoinTreeProofs JoinTreeProofs2 JoinTreeProofs3
  JoinTreeProofs4 JoinTreeProofs5 JoinTreeProofs6 JoinTreeProofs7 NipModel NipSpec NipProofs
  NipProofs2 NipProofs3 NipProofs4 GatherProofs GatherProofs2 SliceModel SliceSpec SliceProofs SliceProofs2 SliceProofs3
  SliceProofs4 SliceProofs5 LearnModel LearnSpec LearnProofs LearnProofs2 LearnProofs3 LearnProofs4 LearnProofs6.
Import ListNotations.
Open Scope nat_scope.
Local Open Scope res_scope.

Add Field Qcfield_learn7 : Qcft.

Lemma get_probability_model : forall card m v m2 o, model_ok card m -> v < length (m_vars m) ->
  get_probability m v = Ok (m2, o) ->
  model_ok card m2 /\ same_model m m2 /\ m_jt m2 = m_jt m /\ forall w, v_lik (var m2 w) = v_lik (var m w).
Proof.
  intros card m v m2 o HM Hv E. unfold get_probability in E. rewrite rd_var in E by auto. cbn [bind] in E.
  destruct (find_family_ok card m v HM Hv) as (mf & k & Ef & F1 & F2 & F3 & F4 & F5 & F6 & F7 & _).
  rewrite Ef in E. cbn [bind] in E.
  inv_as E p E1. destruct p as (r & e). inv_as E r' E2. inversion E; subst. auto.
Qed.

Section Sample.
Variable card : nat -> nat.
Variable m0 : model.
Hypothesis HM : slices_ok card m0.
Variable vars : list nat.
Hypothesis ND : NoDup vars.
Hypothesis HV : forall v, In v vars -> v < length (m_vars m0).
Local Notation n := (length (m_vars m0)).
Local Notation sums := (fun g => sumv card (seq 0 n) g (fun _ => 0)).

Definition fits (row : list Z) (i : nat) (a : nat -> nat) : bool :=
  forallb (fun j => (nth j row 0 =? Z.of_nat (a (nth j vars 0%nat)))%Z) (seq 0 i).
Lemma fits_S : forall row i a, fits row (S i) a = (fits row i a && (nth i row 0 =? Z.of_nat (a (nth i vars 0%nat)))%Z)%bool.
Proof. intros. unfold fits. rewrite seq_S, forallb_app. cbn. now rewrite andb_true_r. Qed.
Lemma fits_same : forall row row' i a, (forall j, j < i -> nth j row' 0%Z = nth j row 0%Z) -> fits row' i a = fits row i a.
Proof. intros row row' i a H. unfold fits. apply forallb_ext_in. intros j Hj. apply in_seq in Hj. now rewrite H by lia. Qed.
Lemma fits_ext : forall row i a b, (forall v, a v = b v) -> fits row i a = fits row i b.
Proof. intros row i a b H. unfold fits. apply forallb_ext_in. intros j Hj. now rewrite H. Qed.

Definition upto (H : (nat -> nat) -> Qc) (row : list Z) (i : nat) (a : nat -> nat) : Qc := given (fits row i a) (H a).
Lemma upto_ext : forall H row i, ext H -> ext (upto H row i).
Proof. intros H row i E a b K. unfold upto. now rewrite (fits_ext row i a b K), (E a b K). Qed.

(** Entry [i] of the row is drawn from the exact distribution. *)
Definition drawn (H : (nat -> nat) -> Qc) (rnd : nat -> Qc) (row : list Z) (i : nat) : Prop :=
  exists k d, nth i row 0%Z = Z.of_nat k /\ k < card (nth i vars 0) /\ length d = card (nth i vars 0) /\
    (forall x, x < card (nth i vars 0) -> nth x d 0%Qc =
       (sum_where card m0 (upto H row i) (nth i vars 0%nat) x / sums (upto H row i))%Qc) /\
    lottery d (card (nth i vars 0)) (rnd i) = Ok (Z.of_nat k).

Lemma sum_congr : forall f g, (forall a, valid card a -> f a = g a) -> sums f = sums g.
Proof. intros f g H. apply sumv_ext; auto. apply (ZV card m0 HM). Qed.
Lemma where_congr : forall f g v x, x < card v -> (forall a, valid card a -> f a = g a) -> sum_where card m0 f v x = sum_where card m0 g v x.
Proof. intros f g v x Hx H. unfold sum_where. apply sumv_ext; auto. apply upd_valid; auto. apply (ZV card m0 HM). Qed.

Lemma drawn_same : forall H rnd row row' i, (forall j, j <= i -> nth j row' 0%Z = nth j row 0%Z) ->
  drawn H rnd row i -> drawn H rnd row' i.
Proof.
  intros H rnd row row' i E (k & d & A & B & C & D & L). exists k, d. split; [rewrite E by lia; auto|]. split; auto. split; auto.
  assert (U : forall a, upto H row' i a = upto H row i a).
  { intros a. unfold upto. rewrite (fits_same row row'); auto. intros; apply E; lia. }
  split; auto. intros x Hx. rewrite D by auto. rewrite (sum_congr (upto H row' i) (upto H row i)) by auto.
  now rewrite (where_congr (upto H row' i) (upto H row i)).
Qed.

Lemma sample_step_ok : forall ma F rnd row, model_ok card ma -> same_model m0 ma -> no_evidence card ma ->
  represents card ma F -> length row = length vars ->
  exists m' row', sample_step ma vars rnd row = Ok (m', row') /\ length row' = length vars /\
    model_ok card m' /\ same_model m0 m' /\
    (forall a, valid card a -> joint (m_jt m') a = upto (joint (m_jt ma)) row' (length vars) a) /\
    (forall i, i < length vars -> drawn (joint (m_jt ma)) rnd row' i).
Proof.
  intros ma F rnd row M1 S1 N1 R1 L1. set (H := joint (m_jt ma)). unfold sample_step.
  assert (JH : forall a, valid card a -> H a = (original m0 a * F a)%Qc).
  { intros a Ha. unfold H. rewrite R1, (same_original m0 ma a S1), (no_evidence_one card ma a N1 Ha) by auto. ring. }
  match goal with |- context [for_up 0 ?k ?b ?s] =>
    destruct (for_up_inv (model * list Z) (fun i '(m', r) => model_ok card m' /\ same_model m0 m' /\ represents card m' F /\
      length r = length vars /\
      (forall j, i <= j < length vars -> v_lik (var m' (nth j vars 0)) = repeat 1%Qc (card (nth j vars 0))) /\
      (forall a, valid card a -> evidence m' a = given (fits r i a) 1%Qc) /\
      (forall j, j < i -> drawn H rnd r j)) b 0 k s) as ((m' & r) & E & A1 & A2 & A3 & A4 & A5 & A6 & A7) end.
  - lia.
  - split; auto. split; auto. split; auto. split; auto. split; [|split].
    + intros j Hj. apply N1. assert (La : length (m_vars ma) = n) by apply S1. rewrite La. apply HV. apply nth_In. lia.
    + intros a Ha. cbn. now apply (no_evidence_one card).
    + intros; lia.
  - intros i (mi, r) Hi (B1 & B2 & B3 & B4 & B5 & B6 & B7).
    destruct (make_consistent_model_ok card mi B1) as (jt' & E1 & Ej & C1 & C2 & C3 & C4). rewrite E1. cbn [bind].
    rewrite (rd_ok _ _ _ 0) by lia. cbn [bind]. set (v := nth i vars 0) in *.
    assert (Hv : v < n) by (apply HV, nth_In; lia).
    assert (Li : length (m_vars mi) = n) by apply B2.
    destruct (get_probability_ok card mi v B1) with (m1 := set_jt mi jt') as (m2 & d & E2 & D1 & D2 & D3 & D4); auto; [lia|].
    rewrite E2. cbn [bind].
    destruct (get_probability_model card (set_jt mi jt') v m2 (Some d) C1) as (G1 & G2 & G3 & G4); [cbn [m_vars set_jt]; lia|exact E2|].
    assert (L2 : length (m_vars m2) = n). { destruct D1 as (_ & -> & _). auto. }
    rewrite rd_var by lia. cbn [bind].
    destruct (mo_var _ _ G1 v) as (X1 & _); [lia|]. rewrite X1.
    assert (Pc := HC card m0 HM v).
    destruct (lottery_ok d (rnd i)) as (k & E3 & Hk & _); [lia|]. rewrite D3 in E3, Hk. rewrite E3. cbn [bind].
    rewrite wr_ok by lia. cbn [bind].
    rewrite (enter_index_ok card) by (auto; lia).
    set (e := indicator (card v) (Z.of_nat k)).
    assert (R2 : represents card m2 F).
    { intros a Ha. rewrite D2. cbn [m_jt set_jt]. rewrite C4, B3 by auto. rewrite (same_original mi m2 a D1).
      f_equal. f_equal. unfold evidence. rewrite L2, Li. apply weight_ext. intros w Hw. now rewrite G4. }
    destruct (enter_evidence_ok card m2 v e F G1 R2) as (m' & Ee & I1 & I2 & I3 & I4 & I5 & I6); [lia|apply indicator_ok|].
    rewrite Ee. cbn [bind]. eexists. split; [reflexivity|]. cbv beta iota.
    assert (Ones : v_lik (var m2 v) = repeat 1%Qc (card v)).
    { rewrite G4. cbn [m_vars set_jt]. apply (B5 i). lia. }
    assert (RS : forall j, j < i -> nth j (set_nth r i (Z.of_nat k)) 0%Z = nth j r 0%Z).
    { intros j Hj. rewrite nth_set_nth by lia. destruct (Nat.eqb_spec j i); auto. lia. }
    assert (RI : nth i (set_nth r i (Z.of_nat k)) 0%Z = Z.of_nat k).
    { rewrite nth_set_nth by lia. now rewrite Nat.eqb_refl. }
    split; auto. split. { eapply same_model_trans; [|exact I2]. eapply same_model_trans; eauto. }
    split. { apply I6. intros (x & Hx & K1 & _). rewrite Ones in K1, Hx. rewrite repeat_length in Hx.
      rewrite nth_repeat_lt in K1 by auto. discriminate. }
    split; [now rewrite set_nth_length|].
    split. { intros j Hj. rewrite I3. destruct (Nat.eqb_spec (nth j vars 0) v) as [K|K].
      - unfold v in K. apply (proj1 (NoDup_nth _ 0) ND) in K; lia.
      - rewrite G4. cbn [m_vars set_jt]. apply B5. lia. }
    split.
    + intros a Ha. rewrite fits_S, RI. rewrite (fits_same r) by auto. fold v.
      assert (EV : evidence m' a = (at_state e v a * evidence mi a)%Qc).
      { unfold evidence. assert (L' : length (m_vars m') = n). { destruct I2 as (_ & -> & _). auto. } rewrite L', Li.
        rewrite (weight_ext _ (fun w => v_lik (var m' w)) (fun w => if Nat.eqb w v then e else v_lik (var m2 w))) by auto.
        destruct (weight_change n (fun w => v_lik (var m2 w)) v e a) as (q & R3 & R4); [lia|].
        rewrite R4. rewrite (weight_ext n (fun w => v_lik (var mi w)) (fun w => v_lik (var m2 w))) by (intros w _; now rewrite G4).
        rewrite R3, Ones, at_ones by auto. ring. }
      rewrite EV, B6 by auto. unfold e. rewrite at_indicator by auto.
      destruct (fits r i a), (_ =? _)%Z; cbn [given andb]; ring.
    + intros j Hj. destruct (Nat.eq_dec j i) as [->|Nj].
      2: { apply (drawn_same H rnd r); [|apply B7; lia]. intros q Hq. apply RS. lia. }
      exists k, d. fold v. split; auto. split; auto. split; auto. split; auto.
      intros x Hx. rewrite D4 by auto.
      assert (JU : forall a, valid card a -> joint (m_jt mi) a = upto H (set_nth r i (Z.of_nat k)) i a).
      { intros a Ha. rewrite B3, B6 by auto. rewrite (same_original m0 mi a B2). unfold upto. rewrite JH by auto.
        rewrite (fits_same r (set_nth r i (Z.of_nat k))) by auto. destruct (fits r i a); cbn [given]; ring. }
      rewrite (same_sum card m0 mi) by auto.
      rewrite (sum_congr _ _ JU). f_equal. unfold sum_where. rewrite Li. apply sumv_ext; [|exact JU].
      apply upd_valid; auto. apply (ZV card m0 HM).
  - exists m', r. rewrite E. split; auto. split; auto. split; auto. split; auto. split; auto.
    intros a Ha. rewrite A3, A6 by auto. rewrite (same_original m0 m' a A2). unfold upto. rewrite JH by auto.
    destruct (fits r (length vars) a); cbn [given]; ring.
Qed.

(** Positive random numbers give possible data. *)
Lemma drawn_positive : forall H rnd row, ext H -> (forall a, valid card a -> (0 <= H a)%Qc) -> 
  (forall i, i < length vars -> drawn H rnd row i) ->
  (forall i, i < length vars -> (0 < rnd i)%Qc /\ (rnd i <= 1)%Qc) -> sums H <> 0%Qc ->
  forall i, i <= length vars -> sums (upto H row i) <> 0%Qc.
Proof.
  intros H rnd row HE HN HD HR HS. induction i as [|i IH]; intros Hi.
  - rewrite (sum_congr _ H); auto.
  - specialize (IH ltac:(lia)). destruct (HD i ltac:(lia)) as (k & d & D1 & D2 & D3 & D4 & D5). set (v := nth i vars 0) in *.
    assert (Hv : v < n) by (apply HV, nth_In; lia).
    assert (UN : forall x, x < card v -> (0 <= sum_where card m0 (upto H row i) v x)%Qc).
    { intros x Hx. unfold sum_where. apply sumv_nonneg; [apply upd_valid; auto; apply (ZV card m0 HM)|]. intros b Hb.
      apply given_nonneg. auto. }
    assert (SP : (0 <= sums (upto H row i))%Qc).
    { apply sumv_nonneg; [apply (ZV card m0 HM)|]. intros b Hb. apply given_nonneg. auto. }
    assert (DN : Forall (fun x => (0 <= x)%Qc) d).
    { apply Forall_forall. intros y Hy. apply (In_nth _ _ 0%Qc) in Hy. destruct Hy as (x & Hx & <-). rewrite D4 by lia.
      apply Qc_mul_nonneg; [apply UN; lia|now apply Qc_inv_nonneg]. }
    assert (DS : qsum d = 1%Qc).
    { rewrite <- (map_nth_seq Qc 0%Qc d), D3.
      rewrite (qsum_map_ext _ _ (fun x => sum_where card m0 (upto H row i) v x * / sums (upto H row i))%Qc).
      - rewrite qsum_map_scale_r. rewrite (sum_where_total card m0 _ v (so_model _ _ HM) Hv (upto_ext H row i HE)).
        unfold sum_all. apply Qcmult_inv_r. auto.
      - intros x Hx. apply in_seq in Hx. rewrite D4 by lia. reflexivity. }
    destruct (HR i ltac:(lia)) as (R0 & R1).
    rewrite <- D3 in D5. apply lottery_positive in D5; auto; [|now rewrite DS].
    rewrite D4 in D5 by lia. intros Z.
    assert (EQ : sums (upto H row (S i)) = sum_where card m0 (upto H row i) v k).
    { rewrite (where_given card m0 HM _ v k (upto_ext H row i HE)) by auto. apply sum_congr. intros a Ha. unfold upto.
      rewrite fits_S, D1. fold v.
      replace (Z.of_nat k =? Z.of_nat (a v))%Z with (Nat.eqb (a v) k).
      2: { destruct (Nat.eqb_spec (a v) k) as [->|N]; [now rewrite Z.eqb_refl|]. symmetry. apply Z.eqb_neq. lia. }
      destruct (fits row i a), (Nat.eqb (a v) k); cbn [given andb]; ring. }
    rewrite <- EQ, Z in D5. unfold Qcdiv in D5. rewrite Qcmult_0_l in D5. discriminate.
Qed.
End Sample.
