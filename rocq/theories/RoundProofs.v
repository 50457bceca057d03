(** * Rounded arithmetic: nearness *)
From Coq Require Import ZArith QArith Qcanon Field Lia Permutation.
From Verif Require Import Base BaseProofs PotentialModel PotentialSpec JoinTreeModel AssignSpec
  JoinTreeSpec NipModel NipSpec RoundSpec.
Import ListNotations.
Open Scope nat_scope.

Add Field QcfieldRound : Qcft.

Lemma Qc_le_sub : forall a b, (0 <= b - a)%Qc -> (a <= b)%Qc.
Proof. intros a b H. apply (Qcplus_le_compat a a 0 (b - a)) in H; [|apply Qcle_refl]. replace (a + 0)%Qc with a in H by ring. replace (a + (b - a))%Qc with b in H by ring. exact H. Qed.
Lemma Qc_sub_le : forall a b, (a <= b)%Qc -> (0 <= b - a)%Qc.
Proof. intros a b H. apply (Qcplus_le_compat a b (- a) (- a)) in H; [|apply Qcle_refl]. replace (a + - a)%Qc with 0%Qc in H by ring. exact H. Qed.
Lemma Qc_mul_le : forall a b c d, (0 <= a)%Qc -> (0 <= c)%Qc -> (a <= b)%Qc -> (c <= d)%Qc -> (a * c <= b * d)%Qc.
Proof.
  intros a b c d Ha Hc H1 H2. apply Qcle_trans with (b * c)%Qc; [now apply Qcmult_le_compat_r|].
  rewrite !(Qcmult_comm b). apply Qcmult_le_compat_r; auto. now apply Qcle_trans with a.
Qed.
Lemma Qc_mul_le_l : forall a b c, (0 <= c)%Qc -> (a <= b)%Qc -> (c * a <= c * b)%Qc.
Proof. intros. rewrite !(Qcmult_comm c). now apply Qcmult_le_compat_r. Qed.

Lemma pow_S : forall (x : Qc) k, (x ^ S k = x * x ^ k)%Qc.
Proof. reflexivity. Qed.
Lemma pow_add : forall (x : Qc) j k, (x ^ (j + k) = x ^ j * x ^ k)%Qc.
Proof. induction j; intros k; [cbn; ring|]. cbn [Nat.add]. rewrite !pow_S, IHj. ring. Qed.
Lemma Qc_inv_pos : forall a, (0 < a)%Qc -> (0 < / a)%Qc.
Proof.
  intros a H. assert (a <> 0)%Qc by (intros ->; now apply Qclt_not_eq in H).
  destruct (Qclt_le_dec 0 (/ a)) as [L|L]; auto. exfalso.
  apply (Qcmult_le_compat_r _ _ a) in L; [|now apply Qclt_le_weak]. rewrite Qcmult_0_l, Qcmult_comm, Qcmult_inv_r in L; auto.
Qed.

Section Near.
Variable u : Qc.
Hypothesis Hu0 : (0 <= u)%Qc.
Hypothesis Hu1 : (u < 1)%Qc.
Set Default Proof Using "Type Hu0 Hu1".

Lemma d_pos : (0 < 1 - u)%Qc.
Proof. apply Qclt_minus_iff in Hu1. exact Hu1. Qed.
Lemma d_nonneg : (0 <= 1 - u)%Qc.
Proof. apply Qclt_le_weak, d_pos. Qed.
Lemma d_le1 : (1 - u <= 1)%Qc.
Proof. apply Qc_le_sub. replace (1 - (1 - u))%Qc with u by ring. exact Hu0. Qed.
Lemma pow_pos : forall k, (0 < (1 - u) ^ k)%Qc.
Proof.
  induction k; [reflexivity|]. rewrite pow_S. rewrite <- (Qcmult_0_l ((1 - u) ^ k)).
  apply Qcmult_lt_compat_r; auto. apply d_pos.
Qed.
Lemma pow_nonneg : forall k, (0 <= (1 - u) ^ k)%Qc.
Proof. intros. apply Qclt_le_weak, pow_pos. Qed.
Lemma pow_neq : forall k, ((1 - u) ^ k <> 0)%Qc.
Proof. intros k E. pose proof (pow_pos k) as H. rewrite E in H. now apply Qclt_not_eq in H. Qed.
Lemma pow_le1 : forall k, ((1 - u) ^ k <= 1)%Qc.
Proof.
  induction k; [apply Qcle_refl|]. rewrite pow_S. rewrite <- (Qcmult_1_l 1).
  apply Qc_mul_le; auto using d_nonneg, pow_nonneg, d_le1.
Qed.
Lemma pow_anti : forall j k, j <= k -> ((1 - u) ^ k <= (1 - u) ^ j)%Qc.
Proof.
  intros j k H. replace k with ((k - j) + j) by lia. rewrite pow_add.
  rewrite <- (Qcmult_1_l ((1 - u) ^ j)) at 2. apply Qcmult_le_compat_r; auto using pow_le1, pow_nonneg.
Qed.

Notation near := (near u).

Lemma near_nonneg : forall k x y, near k x y -> (0 <= x)%Qc /\ (0 <= y)%Qc.
Proof.
  intros k x y (H & H1 & H2). split; auto. apply Qcle_trans with ((1 - u) ^ k * x)%Qc; auto.
  apply Qc_mul_nonneg; auto using pow_nonneg.
Qed.
Lemma near_refl : forall k x, (0 <= x)%Qc -> near k x x.
Proof.
  intros k x H. repeat split; auto; rewrite <- (Qcmult_1_l x) at 2;
    apply Qcmult_le_compat_r; auto using pow_le1.
Qed.
Lemma near_eq : forall k x y, (0 <= x)%Qc -> x = y -> near k x y.
Proof. intros; subst; now apply near_refl. Qed.
Lemma near_sym : forall k x y, near k x y -> near k y x.
Proof. intros k x y H. destruct (near_nonneg _ _ _ H) as [P Q]. destruct H as (H1 & H2 & H3). repeat split; auto. Qed.
Lemma near_le : forall j k x y, j <= k -> near j x y -> near k x y.
Proof.
  intros j k x y L H. destruct (near_nonneg _ _ _ H) as [P Q]. destruct H as (H1 & H2 & H3).
  split; auto. split; (eapply Qcle_trans; [|first [exact H2 | exact H3]]); apply Qcmult_le_compat_r; auto using pow_anti.
Qed.
Lemma near_trans : forall j k x y z, near j x y -> near k y z -> near (j + k) x z.
Proof.
  intros j k x y z (H1 & H2 & H3) (K1 & K2 & K3). rewrite !pow_add || idtac.
  repeat split; auto; rewrite pow_add.
  - eapply Qcle_trans; [|exact K2]. replace ((1 - u) ^ j * (1 - u) ^ k * x)%Qc with ((1 - u) ^ k * ((1 - u) ^ j * x))%Qc by ring.
    apply Qc_mul_le_l; auto using pow_nonneg.
  - eapply Qcle_trans; [|exact H3]. rewrite <- Qcmult_assoc. apply Qc_mul_le_l; auto using pow_nonneg.
Qed.
Lemma near_zero : forall k x y, near k x y -> (x = 0%Qc <-> y = 0%Qc).
Proof.
  intros k x y H. destruct (near_nonneg _ _ _ H) as (P & Q). destruct H as (H1 & H2 & H3). split; intros ->.
  - apply Qcle_antisym; auto. destruct (Qclt_le_dec 0 y) as [L|L]; auto. exfalso.
    apply (Qcmult_lt_compat_r _ _ ((1 - u) ^ k)) in L; [|apply pow_pos]. rewrite Qcmult_0_l, Qcmult_comm in L.
    exact (Qclt_not_le _ _ L H3).
  - apply Qcle_antisym; auto. destruct (Qclt_le_dec 0 x) as [L|L]; auto. exfalso.
    apply (Qcmult_lt_compat_r _ _ ((1 - u) ^ k)) in L; [|apply pow_pos]. rewrite Qcmult_0_l, Qcmult_comm in L.
    exact (Qclt_not_le _ _ L H2).
Qed.
Lemma near_mul : forall j k x y z w, near j x y -> near k z w -> near (j + k) (x * z) (y * w).
Proof.
  intros j k x y z w H K. destruct (near_nonneg _ _ _ H) as [P Q], (near_nonneg _ _ _ K) as [P' Q'].
  destruct H as (H1 & H2 & H3), K as (K1 & K2 & K3). split; [now apply Qc_mul_nonneg|]. rewrite pow_add. split.
  - replace ((1 - u) ^ j * (1 - u) ^ k * (x * z))%Qc with (((1 - u) ^ j * x) * ((1 - u) ^ k * z))%Qc by ring.
    apply Qc_mul_le; auto; apply Qc_mul_nonneg; auto using pow_nonneg.
  - replace ((1 - u) ^ j * (1 - u) ^ k * (y * w))%Qc with (((1 - u) ^ j * y) * ((1 - u) ^ k * w))%Qc by ring.
    apply Qc_mul_le; auto; apply Qc_mul_nonneg; auto using pow_nonneg.
Qed.
Lemma near_inv : forall k x y, near k x y -> near k (/ x) (/ y).
Proof.
  intros k x y H. destruct (near_nonneg _ _ _ H) as (P & Q). pose proof (near_zero _ _ _ H) as Z.
  destruct (Qc_eq_dec x 0) as [->|N].
  - destruct Z as (Z & _). rewrite (Z eq_refl). apply near_refl. now apply Qc_inv_nonneg.
  - assert (N' : y <> 0%Qc) by tauto. destruct H as (H1 & H2 & H3). split; [now apply Qc_inv_nonneg|].
    split.
    + replace ((1 - u) ^ k * / x)%Qc with ((1 - u) ^ k * y * (/ x * / y))%Qc by (field; auto).
      replace (/ y)%Qc with (x * (/ x * / y))%Qc at 2 by (field; auto).
      apply Qcmult_le_compat_r; auto. apply Qc_mul_nonneg; now apply Qc_inv_nonneg.
    + replace ((1 - u) ^ k * / y)%Qc with ((1 - u) ^ k * x * (/ x * / y))%Qc by (field; auto).
      replace (/ x)%Qc with (y * (/ x * / y))%Qc at 2 by (field; auto).
      apply Qcmult_le_compat_r; auto. apply Qc_mul_nonneg; now apply Qc_inv_nonneg.
Qed.
Lemma near_div : forall j k x y z w, near j x y -> near k z w -> near (j + k) (x / z) (y / w).
Proof. intros. unfold Qcdiv. apply near_mul; auto. now apply near_inv. Qed.
Lemma near_add : forall k x y z w, near k x y -> near k z w -> near k (x + z) (y + w).
Proof.
  intros k x y z w (H1 & H2 & H3) (K1 & K2 & K3). split.
  - replace 0%Qc with (0 + 0)%Qc by ring. now apply Qcplus_le_compat.
  - split; rewrite Qcmult_plus_distr_r; now apply Qcplus_le_compat.
Qed.
Lemma near_qsum : forall A k (f g : A -> Qc) l, (forall x, In x l -> near k (f x) (g x)) ->
  near k (qsum (map f l)) (qsum (map g l)).
Proof.
  intros A k f g. induction l as [|a l IH]; intros H; cbn [map qsum].
  - apply near_refl, Qcle_refl.
  - apply near_add; [apply H; now left|]. apply IH. intros; apply H; now right.
Qed.
Lemma near_qprod : forall A (ks : A -> nat) (f g : A -> Qc) l, (forall x, In x l -> near (ks x) (f x) (g x)) ->
  near (list_sum (map ks l)) (qprod (map f l)) (qprod (map g l)).
Proof.
  intros A ks f g. induction l as [|a l IH]; intros H.
  - apply near_refl. discriminate.
  - cbn [map]. change (list_sum (ks a :: map ks l)) with (ks a + list_sum (map ks l)).
    apply (near_mul (ks a) (list_sum (map ks l)) (f a) (g a)); [apply H; now left|]. apply IH. intros; apply H; now right.
Qed.
Lemma near_rnd : forall x y, (0 <= x)%Qc -> (x - u * x <= y <= x + u * x)%Qc -> near 1 x y.
Proof.
  intros x y H (H1 & H2). repeat split; auto; cbn [Qcpower].
  - replace ((1 - u) * 1 * x)%Qc with (x - u * x)%Qc by ring. exact H1.
  - apply Qcle_trans with ((1 - u) * 1 * (x + u * x))%Qc.
    + apply Qc_mul_le_l; auto. replace ((1 - u) * 1)%Qc with (1 - u)%Qc by ring. apply d_nonneg.
    + apply Qc_le_sub. replace (x - (1 - u) * 1 * (x + u * x))%Qc with (u * u * x)%Qc by ring.
      repeat apply Qc_mul_nonneg; auto.
Qed.

(** Near sums and near scaling that the code shares between both sides. *)
Lemma near_mul_l : forall k c x y, (0 <= c)%Qc -> near k x y -> near k (c * x) (c * y).
Proof. intros k c x y H K. apply (near_mul 0 k); auto. now apply near_refl. Qed.
Lemma near_mul_r : forall k c x y, (0 <= c)%Qc -> near k x y -> near k (x * c) (y * c).
Proof. intros k c x y H K. rewrite !(Qcmult_comm _ c). now apply near_mul_l. Qed.
Lemma near_div_r : forall k c x y, (0 <= c)%Qc -> near k x y -> near k (x / c) (y / c).
Proof. intros. unfold Qcdiv. apply near_mul_r; auto. now apply Qc_inv_nonneg. Qed.

(** Bernoulli: the relative error is at most about [k * u]. *)
Lemma bernoulli : forall k, (1 - Q2Qc (inject_Z (Z.of_nat k)) * u <= (1 - u) ^ k)%Qc.
Proof.
  induction k.
  - cbn [Qcpower]. apply Qc_le_sub. apply Qcle_trans with 0%Qc; [apply Qcle_refl|]. replace (1 - (1 - Q2Qc (inject_Z (Z.of_nat 0)) * u))%Qc with 0%Qc; [apply Qcle_refl|].
    replace (Q2Qc (inject_Z (Z.of_nat 0))) with 0%Qc by (apply Qc_is_canon; reflexivity). ring.
  - rewrite pow_S. apply Qcle_trans with ((1 - u) * (1 - Q2Qc (inject_Z (Z.of_nat k)) * u))%Qc.
    + replace (Q2Qc (inject_Z (Z.of_nat (S k)))) with (Q2Qc (inject_Z (Z.of_nat k)) + 1)%Qc.
      * apply Qc_le_sub. replace ((1 - u) * (1 - Q2Qc (inject_Z (Z.of_nat k)) * u) - (1 - (Q2Qc (inject_Z (Z.of_nat k)) + 1) * u))%Qc
          with (Q2Qc (inject_Z (Z.of_nat k)) * u * u)%Qc by ring.
        repeat apply Qc_mul_nonneg; auto. unfold Qcle. cbn [this Q2Qc]. rewrite !Qred_correct. unfold Qle, inject_Z. cbn [Qnum Qden]. lia.
      * apply Qc_is_canon. cbn [this Q2Qc Qcplus]. rewrite !Qred_correct. unfold Qeq, Qplus, inject_Z. cbn [Qnum Qden]. lia.
    + apply Qc_mul_le_l; auto using d_nonneg.
Qed.

End Near.
