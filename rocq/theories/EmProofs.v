(** * Inequalities for learning: means and products *)
From Coq Require Import Permutation QArith.Qcanon Field.
From Verif Require Import Base BaseProofs PotentialModel PotentialSpec PotentialProofs AssignSpec AssignProofs SliceProofs4 LearnProofs2 WriteProofs4
  ToolProofs9 ToolProofs10 ToolProofs11 ToolProofs13.
Import ListNotations.
Open Scope nat_scope.

Add Field Qcfield_em : Qcft.

Lemma Qcplus_lt_le_compat : forall x y z t : Qc, (x < y)%Qc -> (z <= t)%Qc -> (x + z < y + t)%Qc.
Proof. intros x y z t H1 H2. unfold Qclt, Qcle in *. cbn [this Qcplus Q2Qc]. rewrite !Qreduction.Qred_correct. now apply QArith_base.Qplus_lt_le_compat. Qed.

(** ** Powers *)
Fixpoint pw (x : Qc) (k : nat) : Qc := match k with 0 => 1%Qc | S k => (x * pw x k)%Qc end.
Lemma pw_add : forall x a b, pw x (a + b) = (pw x a * pw x b)%Qc.
Proof. induction a as [|a IH]; intros b; cbn [Nat.add pw]; [ring|]. rewrite IH. ring. Qed.
Lemma pw_mul : forall x y k, pw (x * y) k = (pw x k * pw y k)%Qc.
Proof. induction k as [|k IH]; cbn [pw]; [ring|]. rewrite IH. ring. Qed.
Lemma pw_one : forall k, pw 1 k = 1%Qc.
Proof. induction k as [|k IH]; cbn [pw]; auto. rewrite IH. ring. Qed.
Lemma pw_pw : forall x a b, pw (pw x a) b = pw x (a * b).
Proof. induction a as [|a IH]; intros b; cbn [pw]; [apply pw_one|]. rewrite pw_mul, IH. cbn [Nat.mul]. now rewrite pw_add. Qed.
Lemma pw_pos : forall x k, (0 < x)%Qc -> (0 < pw x k)%Qc.
Proof. induction k as [|k IH]; intros H; cbn [pw]; [reflexivity|]. apply Qc_mul_pos; auto. Qed.
Lemma pw_small : forall x k, (0 <= x)%Qc -> (x < 1)%Qc -> 0 < k -> (pw x k < 1)%Qc.
Proof.
  intros x k H0 H1. assert (K : forall k, (0 <= pw x k)%Qc /\ (pw x k <= 1)%Qc).
  { clear k. induction k as [|k (I1 & I2)]; cbn [pw]; [split; discriminate|]. split; [now apply Qc_mul_nonneg|].
    apply Qcle_trans with (1 * pw x k)%Qc; [apply Qcmult_le_compat_r; auto; now apply Qclt_le_weak|]. now rewrite Qcmult_1_l. }
  intros Hk. destruct k as [|k]; [lia|]. cbn [pw]. apply Qcle_lt_trans with (x * 1)%Qc.
  - rewrite !(Qcmult_comm x). apply Qcmult_le_compat_r; auto. apply K.
  - now rewrite Qcmult_1_r.
Qed.

(** ** The mean of numbers and their product *)
Lemma qn_S : forall k, qn (S k) = (1 + qn k)%Qc.
Proof.
  intros k. unfold qn. apply Qc_is_canon. cbn [this Qcplus Q2Qc]. rewrite !Qreduction.Qred_correct.
  rewrite Nat2Z.inj_succ, <- Z.add_1_l, QArith_base.inject_Z_plus. reflexivity.
Qed.
Lemma qn_add : forall a b, qn (a + b) = (qn a + qn b)%Qc.
Proof. induction a as [|a IH]; intros b; cbn [Nat.add]; [change (qn 0) with 0%Qc; ring|]. rewrite !qn_S, IH. ring. Qed.
Lemma qn_mul : forall a b, qn (a * b) = (qn a * qn b)%Qc.
Proof. induction a as [|a IH]; intros b; cbn [Nat.mul]; [change (qn 0) with 0%Qc; ring|]. rewrite qn_S, qn_add, IH. ring. Qed.
Lemma qn_inj : forall a b, qn a = qn b -> a = b.
Proof.
  intros a b H. destruct (Nat.lt_trichotomy a b) as [L|[L|L]]; auto; exfalso.
  - assert (K : (qn (S a) <= qn b)%Qc) by (apply qn_le; lia). rewrite <- H, qn_S in K. apply (Qclt_not_le (qn a) (1 + qn a)); auto.
    rewrite <- (Qcplus_0_l (qn a)) at 1. apply Qcplus_lt_le_compat; [reflexivity|apply Qcle_refl].
  - assert (K : (qn (S b) <= qn a)%Qc) by (apply qn_le; lia). rewrite H, qn_S in K. apply (Qclt_not_le (qn b) (1 + qn b)); auto.
    rewrite <- (Qcplus_0_l (qn b)) at 1. apply Qcplus_lt_le_compat; [reflexivity|apply Qcle_refl].
Qed.
Lemma qsum_cons : forall x l, qsum (x :: l) = (x + qsum l)%Qc.
Proof. reflexivity. Qed.
Lemma qprod_cons : forall x l, qprod (x :: l) = (x * qprod l)%Qc.
Proof. reflexivity. Qed.
Lemma some_big : forall l, l <> [] -> (qn (length l) <= qsum l)%Qc -> exists b, In b l /\ (1 <= b)%Qc.
Proof.
  induction l as [|x l IH]; intros NE H; [congruence|]. destruct (Qclt_le_dec x 1) as [L|L]; [|exists x; split; auto; now left].
  cbn [length] in H. rewrite qn_S, qsum_cons in H. destruct l as [|y l].
  - exfalso. cbn in H. apply (Qclt_not_le _ _ L). change (qn 0) with 0%Qc in H. change (qsum []) with 0%Qc in H. now rewrite !Qcplus_0_r in H.
  - destruct IH as (b & I & B); [discriminate| |exists b; split; auto; now right].
    apply Qcnot_lt_le. intros K. apply (Qclt_not_le (x + qsum (y :: l)) (1 + qn (length (y :: l)))%Qc); auto. now apply Qcplus_lt_le_compat; [|apply Qclt_le_weak].
Qed.
Lemma some_small : forall l, l <> [] -> (qsum l <= qn (length l))%Qc -> exists b, In b l /\ (b <= 1)%Qc.
Proof.
  induction l as [|x l IH]; intros NE H; [congruence|]. destruct (Qclt_le_dec 1 x) as [L|L]; [|exists x; split; auto; now left].
  cbn [length] in H. rewrite qn_S, qsum_cons in H. destruct l as [|y l].
  - exfalso. cbn in H. apply (Qclt_not_le _ _ L). change (qn 0) with 0%Qc in H. change (qsum []) with 0%Qc in H. now rewrite !Qcplus_0_r in H.
  - destruct IH as (b & I & B); [discriminate| |exists b; split; auto; now right].
    apply Qcnot_lt_le. intros K. apply (Qclt_not_le (1 + qn (length (y :: l))) (x + qsum (y :: l)))%Qc; auto. now apply Qcplus_lt_le_compat; [|apply Qclt_le_weak].
Qed.
Lemma qsum_perm : forall l l', Permutation l l' -> qsum l = qsum l'.
Proof. induction 1; rewrite ?qsum_cons; try congruence; ring. Qed.
Lemma qprod_perm : forall l l', Permutation l l' -> qprod l = qprod l'.
Proof. induction 1; rewrite ?qprod_cons; try congruence; ring. Qed.
Lemma Qc_sub_nonneg : forall x y, (x <= y)%Qc -> (0 <= y - x)%Qc.
Proof. intros x y H. now apply Qcle_minus_iff in H. Qed.
Lemma Qc_nonneg_sub : forall x y, (0 <= y - x)%Qc -> (x <= y)%Qc.
Proof. intros x y H. now apply Qcle_minus_iff. Qed.

Lemma mean_product : forall n l, length l = n -> (forall x, In x l -> (0 <= x)%Qc) -> qsum l = qn n -> (qprod l <= 1)%Qc.
Proof.
  induction n as [|n IH]; intros l EL H0 ES; [destruct l; [discriminate|discriminate EL]|].
  destruct l as [|x l]; [discriminate|]. cbn [length] in EL. injection EL as EL. rewrite qsum_cons, qn_S in ES.
  destruct l as [|y0 l0] eqn:EY.
  - cbn in EL. subst n. change (qn 0) with 0%Qc in ES. change (qsum []) with 0%Qc in ES. rewrite !Qcplus_0_r in ES. subst x. discriminate.
  - rewrite <- EY in *. assert (NL : l <> []) by (subst; discriminate). clear y0 l0 EY.
    assert (B : exists b, In b l /\ (0 <= (1 - x) * (b - 1))%Qc /\ (0 <= x + b - 1)%Qc).
    { assert (X0 : (0 <= x)%Qc) by (apply H0; now left). assert (LEN : qn (length l) = (x + qsum l - 1)%Qc) by (rewrite EL, ES; ring).
      destruct (Qclt_le_dec 1 x) as [L|L].
      - destruct (some_small l NL) as (b & I & B).
        { rewrite LEN. apply Qc_nonneg_sub. replace (x + qsum l - 1 - qsum l)%Qc with (x - 1)%Qc by ring. apply Qc_sub_nonneg. now apply Qclt_le_weak. }
        exists b. split; auto. assert (B0 : (0 <= b)%Qc) by (apply H0; now right). assert (X1 := Qc_sub_nonneg _ _ (Qclt_le_weak _ _ L)). split.
        + replace ((1 - x) * (b - 1))%Qc with ((x - 1) * (1 - b))%Qc by ring. apply Qc_mul_nonneg; auto. now apply Qc_sub_nonneg.
        + replace (x + b - 1)%Qc with ((x - 1) + b)%Qc by ring. rewrite <- (Qcplus_0_r 0). now apply Qcplus_le_compat.
      - destruct (some_big l NL) as (b & I & B).
        { rewrite LEN. apply Qc_nonneg_sub. replace (qsum l - (x + qsum l - 1))%Qc with (1 - x)%Qc by ring. now apply Qc_sub_nonneg. }
        exists b. split; auto. assert (B1 := Qc_sub_nonneg _ _ B). split.
        + apply Qc_mul_nonneg; auto. now apply Qc_sub_nonneg.
        + replace (x + b - 1)%Qc with (x + (b - 1))%Qc by ring. rewrite <- (Qcplus_0_r 0). now apply Qcplus_le_compat. }
    destruct B as (b & I & D & N). apply in_split in I. destruct I as (l1 & l2 & ->).
    assert (PM : Permutation (l1 ++ b :: l2) (b :: l1 ++ l2)) by (symmetry; apply Permutation_middle).
    assert (R0 : (0 <= qprod (l1 ++ l2))%Qc). { apply AssignProofs.qprod_nonneg. intros z Hz. apply H0. right. apply in_app_iff. apply in_app_iff in Hz. cbn. tauto. }
    rewrite qprod_cons, (qprod_perm _ _ PM), qprod_cons. apply Qcle_trans with ((x + b - 1) * qprod (l1 ++ l2))%Qc.
    + rewrite Qcmult_assoc. apply Qcmult_le_compat_r; auto. apply Qc_nonneg_sub. replace (x + b - 1 - x * b)%Qc with ((1 - x) * (b - 1))%Qc by ring. exact D.
    + rewrite <- qprod_cons. apply IH.
      * rewrite app_length in EL. cbn [length] in *. rewrite app_length. lia.
      * intros z [<-|Hz]; auto. apply H0. right. apply in_app_iff. apply in_app_iff in Hz. cbn. tauto.
      * rewrite qsum_cons. rewrite (qsum_perm _ _ PM), qsum_cons in ES. replace (qn n) with (1 + qn n - 1)%Qc by ring. rewrite <- ES. ring.
Qed.

(** The same with multiplicities. *)
Lemma qsum_app : forall l l', qsum (l ++ l') = (qsum l + qsum l')%Qc.
Proof. induction l as [|x l IH]; intros l'; cbn [app]; rewrite ?qsum_cons; [change (qsum []) with 0%Qc; ring|]. rewrite IH. ring. Qed.
Lemma qprod_app : forall l l', qprod (l ++ l') = (qprod l * qprod l')%Qc.
Proof. induction l as [|x l IH]; intros l'; cbn [app]; rewrite ?qprod_cons; [change (qprod []) with 1%Qc; ring|]. rewrite IH. ring. Qed.
Lemma weighted_product : forall A (l : list A) (k : A -> nat) (x : A -> Qc), (forall a, In a l -> (0 <= x a)%Qc) ->
  qsum (map (fun a => qn (k a) * x a)%Qc l) = qn (list_sum (map k l)) -> (qprod (map (fun a => pw (x a) (k a)) l) <= 1)%Qc.
Proof.
  intros A l k x H0 ES. set (L := flat_map (fun a => repeat (x a) (k a)) l).
  assert (EP : qprod L = qprod (map (fun a => pw (x a) (k a)) l)).
  { unfold L. clear. induction l as [|a l IH]; [reflexivity|]. cbn [flat_map map]. rewrite qprod_app, qprod_cons, IH. f_equal.
    induction (k a) as [|j IJ]; [reflexivity|]. cbn [repeat pw]. now rewrite qprod_cons, IJ. }
  assert (EQ : qsum L = qsum (map (fun a => qn (k a) * x a)%Qc l)).
  { unfold L. clear. induction l as [|a l IH]; [reflexivity|]. cbn [flat_map map]. rewrite qsum_app, qsum_cons, IH. f_equal.
    induction (k a) as [|j IJ]; [cbn [repeat]; change (qsum []) with 0%Qc; change (qn 0) with 0%Qc; ring|]. cbn [repeat]. rewrite qsum_cons, IJ, qn_S. ring. }
  assert (LN : length L = list_sum (map k l)).
  { unfold L. clear. induction l as [|a l IH]; [reflexivity|]. cbn [flat_map map]. rewrite app_length, repeat_length, IH. reflexivity. }
  rewrite <- EP. apply mean_product with (n := list_sum (map k l)); auto; [|congruence].
  intros z Hz. unfold L in Hz. apply in_flat_map in Hz. destruct Hz as (a & Ha & Hz). apply repeat_spec in Hz. subst. auto.
Qed.

(** ** Products of powers *)
Lemma qprod_flat : forall A B (f : B -> Qc) (g : A -> list B) l, qprod (map f (flat_map g l)) = qprod (map (fun a => qprod (map f (g a))) l).
Proof. induction l as [|a l IH]; [reflexivity|]. cbn [flat_map map]. now rewrite map_app, qprod_app, qprod_cons, IH. Qed.
Lemma qsum_flat : forall A B (f : B -> Qc) (g : A -> list B) l, qsum (map f (flat_map g l)) = qsum (map (fun a => qsum (map f (g a))) l).
Proof. induction l as [|a l IH]; [reflexivity|]. cbn [flat_map map]. now rewrite map_app, qsum_app, qsum_cons, IH. Qed.
Lemma qprod_swap : forall A B (f : A -> B -> Qc) la lb,
  qprod (map (fun a => qprod (map (f a) lb)) la) = qprod (map (fun b => qprod (map (fun a => f a b) la)) lb).
Proof.
  induction la as [|a la IH]; intros lb; cbn [map].
  - induction lb as [|b lb IH]; [reflexivity|]. cbn [map]. rewrite qprod_cons, <- IH. change (qprod []) with 1%Qc. ring.
  - rewrite qprod_cons, IH, <- qprod_map_mul. apply qprod_map_ext. intros b _. reflexivity.
Qed.
Lemma pw_sum : forall A x (k : A -> nat) l, pw x (list_sum (map k l)) = qprod (map (fun a => pw x (k a)) l).
Proof. induction l as [|a l IH]; [reflexivity|]. cbn [map]. rewrite qprod_cons, <- IH, <- pw_add. reflexivity. Qed.
Lemma pw_qprod : forall A (f : A -> Qc) k l, pw (qprod (map f l)) k = qprod (map (fun a => pw (f a) k) l).
Proof. induction l as [|a l IH]; [apply pw_one|]. cbn [map]. now rewrite !qprod_cons, pw_mul, IH. Qed.
Lemma qprod_one : forall A (f : A -> Qc) l, (forall a, In a l -> f a = 1%Qc) -> qprod (map f l) = 1%Qc.
Proof. induction l as [|a l IH]; intros H; [reflexivity|]. cbn [map]. rewrite qprod_cons, IH, H by (auto using in_eq, in_cons). ring. Qed.
Definition b2n (b : bool) : nat := if b then 1 else 0.
(** Only one factor. *)
Lemma qprod_single : forall A (eqb : A -> A -> bool) (f : A -> Qc) l x, (forall a b, eqb a b = true <-> a = b) -> NoDup l -> In x l ->
  qprod (map (fun a => pw (f a) (b2n (eqb x a))) l) = f x.
Proof.
  intros A eqb f l x E ND. induction ND as [|a l N ND IH]; intros I; [destruct I|]. cbn [map]. rewrite qprod_cons. destruct I as [->|I].
  - rewrite (proj2 (E x x) eq_refl). rewrite qprod_one; [cbn; ring|]. intros b Hb. destruct (eqb x b) eqn:K; [apply E in K; congruence|reflexivity].
  - destruct (eqb x a) eqn:K; [apply E in K; congruence|]. rewrite IH by auto. cbn. ring.
Qed.
Lemma qprod_filter : forall A (f : A -> Qc) p l, qprod (map f (filter p l)) = qprod (map (fun a => if p a then f a else 1%Qc) l).
Proof. induction l as [|a l IH]; [reflexivity|]. cbn [filter map]. rewrite qprod_cons, <- IH. destruct (p a); cbn [map]; [now rewrite qprod_cons|ring]. Qed.

(** ** Common denominators *)
Definition nat_of (q : Qc) : nat := Z.to_nat (QArith_base.Qnum q).
Definition den_of (q : Qc) : nat := Pos.to_nat (QArith_base.Qden q).
Lemma nat_of_mult : forall q k, (0 <= q)%Qc -> (exists j, k = j * den_of q) -> qn (nat_of (qn k * q)) = (qn k * q)%Qc.
Proof.
  intros q k H (j & ->). rewrite qn_mul. set (a := Z.to_nat (QArith_base.Qnum q)).
  assert (HZ : (0 <= QArith_base.Qnum q)%Z). { unfold Qcle, QArith_base.Qle in H. cbn in H. lia. }
  assert (E : (qn (den_of q) * q)%Qc = qn a).
  { apply Qc_is_canon. unfold qn, den_of. cbn [this Qcmult Q2Qc]. rewrite !Qreduction.Qred_correct. unfold QArith_base.Qeq. cbn. unfold a.
    rewrite Z2Nat.id by auto. rewrite positive_nat_Z. ring. }
  assert (NN : forall b, nat_of (qn b) = b).
  { intros b. unfold nat_of, qn. cbn [this Q2Qc].
    assert (K := Qred_identity (QArith_base.inject_Z (Z.of_nat b))). rewrite K; [cbn; lia|]. cbn. apply Z.gcd_1_r. }
  rewrite <- Qcmult_assoc, E, <- qn_mul. now rewrite NN.
Qed.
Lemma common : forall l, (forall q, In q l -> (0 <= q)%Qc) -> exists k, 0 < k /\ forall q, In q l -> qn (nat_of (qn k * q)) = (qn k * q)%Qc.
Proof.
  intros l H. assert (G : exists k, 0 < k /\ forall q, In q l -> exists j, k = j * den_of q).
  { clear H. induction l as [|q l (k & K & IH)]; [exists 1; split; [lia|intros q []]|]. exists (k * den_of q). split; [unfold den_of; lia|].
    intros r [<-|I]; [now exists k|]. destruct (IH r I) as (j & ->). exists (j * den_of q). lia. }
  destruct G as (k & K & G). exists k. split; auto. intros q I. apply nat_of_mult; auto.
Qed.

(** ** The two halves of a step *)
Section Halves.
Variable H C : Type.
Variables (hs : list H) (cs : list C) (f : H -> Qc) (cnt : H -> C -> nat) (rho : C -> Qc) (k : nat) (nh : H -> nat) (P P' : Qc).
Definition ratio (h : H) : Qc := qprod (map (fun c => pw (rho c) (cnt h c)) cs).
Hypothesis RHO : forall c, In c cs -> (0 < rho c)%Qc.
Lemma ratio_pos : forall h, (0 < ratio h)%Qc.
Proof. intros h. unfold ratio. apply qprod_pos. intros c I. apply pw_pos. auto. Qed.
Hypothesis SP : qsum (map f hs) = P.
Hypothesis SP' : qsum (map (fun h => f h * ratio h)%Qc hs) = P'.
Hypothesis PP : (0 < P)%Qc.
Hypothesis PP' : (0 < P')%Qc.
Hypothesis NH : forall h, In h hs -> qn (nh h) = (qn k * (f h / P))%Qc.
Lemma e_step : (qprod (map (fun c => pw (rho c) (list_sum (map (fun h => (nh h * cnt h c)%nat) hs))) cs) <= pw (P' / P) k)%Qc.
Proof.
  assert (NP := Qc_pos_neq _ PP). assert (NP' := Qc_pos_neq _ PP').
  assert (SN : list_sum (map nh hs) = k).
  { apply qn_inj. rewrite qn_sum. rewrite (qsum_map_ext _ _ (fun h => (qn k / P) * f h)%Qc); [|intros h I; rewrite NH by auto; field; auto].
    rewrite qsum_map_scale, SP. field. auto. }
  assert (W := weighted_product H hs nh (fun h => ratio h * (P / P'))%Qc).
  assert (R1 : (0 < P / P')%Qc) by now apply Qcdiv_pos.
  assert (W1 : (qprod (map (fun h => pw (ratio h * (P / P')) (nh h)) hs) <= 1)%Qc).
  { apply W; [intros h _; apply Qc_mul_nonneg; apply Qclt_le_weak; auto using ratio_pos|]. rewrite SN.
    rewrite (qsum_map_ext _ _ (fun h => (qn k / P') * (f h * ratio h))%Qc); [|intros h I; rewrite NH by auto; field; auto].
    rewrite qsum_map_scale, SP'. field. auto. }
  rewrite (qprod_map_ext _ _ (fun h => pw (ratio h) (nh h) * pw (P / P') (nh h))%Qc), qprod_map_mul, <- pw_sum, SN in W1 by (intros; apply pw_mul).
  assert (E : qprod (map (fun h => pw (ratio h) (nh h)) hs) = qprod (map (fun c => pw (rho c) (list_sum (map (fun h => (nh h * cnt h c)%nat) hs))) cs)).
  { rewrite (qprod_map_ext _ _ (fun h => qprod (map (fun c => pw (rho c) ((nh h * cnt h c)%nat)) cs))).
    - rewrite qprod_swap. apply qprod_map_ext. intros c _. now rewrite pw_sum.
    - intros h _. unfold ratio. rewrite pw_qprod. apply qprod_map_ext. intros c _. now rewrite pw_pw, Nat.mul_comm. }
  rewrite <- E. apply Qcmult_le_compat_r with (z := pw (P' / P) k) in W1; [|apply Qclt_le_weak, pw_pos; now apply Qcdiv_pos].
  rewrite <- Qcmult_assoc, <- pw_mul in W1. replace (P / P' * (P' / P))%Qc with 1%Qc in W1 by (field; auto). now rewrite pw_one, Qcmult_1_r, Qcmult_1_l in W1.
Qed.
End Halves.

Lemma m_step : forall Y (ys : list Y) (th th' e : Y -> Qc) (m : Y -> nat) k s, (forall y, In y ys -> (0 < th y)%Qc) -> qsum (map th ys) = 1%Qc ->
  (forall y, In y ys -> (0 < e y)%Qc) -> qsum (map e ys) = s -> (0 < s)%Qc -> (forall y, In y ys -> th' y = (e y / s)%Qc) ->
  (forall y, In y ys -> qn (m y) = (qn k * e y)%Qc) ->
  (1 <= qprod (map (fun y => pw (th' y / th y) (m y)) ys))%Qc.
Proof.
  intros Y ys th th' e m k s PT ST PE SE PS TH M.
  assert (NS := Qc_pos_neq _ PS).
  assert (PT' : forall y, In y ys -> (0 < th' y)%Qc) by (intros y I; rewrite TH by auto; now apply Qcdiv_pos; auto).
  assert (W : (qprod (map (fun y => pw (th y / th' y) (m y)) ys) <= 1)%Qc).
  { apply weighted_product; [intros y I; apply Qclt_le_weak, Qcdiv_pos; auto|]. rewrite qn_sum.
    rewrite (qsum_map_ext _ _ (fun y => (qn k * s) * th y)%Qc).
    - rewrite qsum_map_scale, ST. rewrite (qsum_map_ext _ (fun y => qn (m y)) (fun y => qn k * e y)%Qc) by auto. rewrite qsum_map_scale, SE. ring.
    - intros y I. rewrite M, TH by auto. assert (K := Qc_pos_neq _ (PE y I)). field. auto. }
  assert (PR : (0 < qprod (map (fun y => pw (th' y / th y) (m y)) ys))%Qc) by (apply qprod_pos; intros y I; apply pw_pos, Qcdiv_pos; auto).
  apply Qcmult_le_compat_r with (z := qprod (map (fun y => pw (th' y / th y) (m y)) ys)) in W; [|now apply Qclt_le_weak].
  rewrite <- qprod_map_mul, qprod_one, Qcmult_1_l in W; auto.
  intros y I. rewrite <- pw_mul. replace (th y / th' y * (th' y / th y))%Qc with 1%Qc; [apply pw_one|].
  assert (K := Qc_pos_neq _ (PT y I)). assert (K' := Qc_pos_neq _ (PT' y I)). field. auto.
Qed.
Lemma qprod_ge1 : forall A (f : A -> Qc) l, (forall a, In a l -> (1 <= f a)%Qc) -> (1 <= qprod (map f l))%Qc.
Proof.
  induction l as [|a l IH]; intros H; [discriminate|]. cbn [map]. rewrite qprod_cons.
  apply Qcle_trans with (1 * qprod (map f l))%Qc; [rewrite Qcmult_1_l; apply IH; intros; apply H; now right|].
  apply Qcmult_le_compat_r; [apply H; now left|]. apply Qcle_trans with 1%Qc; [discriminate|]. apply IH; intros; apply H; now right.
Qed.
Lemma pw_ge1 : forall x k, (0 <= x)%Qc -> 0 < k -> (1 <= pw x k)%Qc -> (1 <= x)%Qc.
Proof. intros x k H0 K H. apply Qcnot_lt_le. intros L. apply (Qclt_not_le _ _ (pw_small x k H0 L K)). exact H. Qed.
