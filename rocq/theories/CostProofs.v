(** * Proofs about the costs of clusters *)
From Coq Require Import Permutation.
From Verif Require Import Base BaseProofs PotentialModel VariableModel VariableProofs HeapModel HeapSpec HeapProofs HeapProofs2
  JoinTreeModel GraphModel GraphSpec GraphProofs GraphTheory GraphTheory2 GraphProofs2 GraphProofs3 CostModel.
Import ListNotations.
Open Scope nat_scope.
Local Open Scope res_scope.

(** ** The costs *)
Lemma int_of_ok : forall z, (0 <= z <= INT_MAX)%Z -> int_of z = Ok z.
Proof.
  intros z H. unfold int_of.
  rewrite (proj2 (Z.leb_le (- INT_MAX - 1) z)) by (unfold INT_MAX; lia).
  rewrite (proj2 (Z.leb_le z INT_MAX)) by lia. reflexivity.
Qed.
Lemma int_of_ub : forall z, (INT_MAX < z)%Z -> int_of z = UB.
Proof.
  intros z H. unfold int_of.
  destruct (Z.leb_spec z INT_MAX); [lia|]. now rewrite Bool.andb_false_r.
Qed.
Lemma int_of_val : forall z y, int_of z = Ok y -> y = z.
Proof. intros z y. unfold int_of. destruct (_ && _)%bool; congruence. Qed.

Lemma cards_pos : forall (card : nat -> nat) l, (forall v, 0 < card v) -> 0 < prod (map card l).
Proof. intros card l H. induction l as [|v l IH]; cbn; [lia|]. specialize (H v). nia. Qed.

Lemma secondary_fold : forall (card : nat -> nat) l p,
  fold_left (fun p v => (p * Z.of_nat (card v))%Z) l p = (p * Z.of_nat (prod (map card l)))%Z.
Proof.
  intros card l. induction l as [|v l IH]; intros p; cbn [fold_left map prod]; [cbn; lia|].
  rewrite IH. rewrite Nat2Z.inj_mul. ring.
Qed.

Lemma secondary_loop_ok : forall card l p, (forall v, 0 < card v) -> (1 <= p)%Z ->
  (p * Z.of_nat (prod (map card l)) <= INT_MAX)%Z ->
  secondary_loop card l p = Ok (p * Z.of_nat (prod (map card l)))%Z.
Proof.
  intros card l. induction l as [|v l IH]; intros p C P B; cbn [secondary_loop map prod] in *.
  - f_equal. cbn. lia.
  - rewrite Nat2Z.inj_mul, Z.mul_assoc in B. assert (PP := cards_pos card l C). specialize (C v) as Cv.
    rewrite int_of_ok by nia. cbn [bind]. rewrite IH; auto; [|nia].
    f_equal. rewrite Nat2Z.inj_mul. ring.
Qed.

Lemma secondary_loop_ub : forall card l p, (forall v, 0 < card v) -> (1 <= p)%Z -> (p <= INT_MAX)%Z ->
  (INT_MAX < p * Z.of_nat (prod (map card l)))%Z ->
  secondary_loop card l p = UB.
Proof.
  intros card l. induction l as [|v l IH]; intros p C P Q B; cbn [secondary_loop map prod] in *.
  - cbn in B. lia.
  - rewrite Nat2Z.inj_mul, Z.mul_assoc in B. specialize (C v) as Cv.
    destruct (Z.leb_spec (p * Z.of_nat (card v)) INT_MAX).
    + rewrite int_of_ok by nia. cbn [bind]. apply IH; auto. nia.
    + now rewrite int_of_ub.
Qed.

Lemma secondary_loop_val : forall card l p z, secondary_loop card l p = Ok z ->
  z = (p * Z.of_nat (prod (map card l)))%Z.
Proof.
  intros card l. induction l as [|v l IH]; intros p z H; cbn [secondary_loop map prod] in *.
  - injection H as <-. cbn. lia.
  - destruct (int_of (p * Z.of_nat (card v))) eqn:E; cbn [bind] in H; try discriminate.
    apply int_of_val in E. subst. apply IH in H. rewrite H, Nat2Z.inj_mul. ring.
Qed.

Lemma secondary_ok : forall card c, (forall v, 0 < card v) -> fits card c ->
  secondary_cost card c = Ok (cluster_secondary_cost card c).
Proof.
  intros card c C F. unfold secondary_cost, cluster_secondary_cost. rewrite secondary_fold.
  apply secondary_loop_ok; auto; [lia|]. unfold fits in F. lia.
Qed.
Lemma secondary_ub : forall card c, (forall v, 0 < card v) -> ~ fits card c -> secondary_cost card c = UB.
Proof.
  intros card c C F. apply secondary_loop_ub; auto; [lia|unfold INT_MAX; lia|]. unfold fits in F. lia.
Qed.
Lemma secondary_val : forall card c z, secondary_cost card c = Ok z -> z = cluster_secondary_cost card c.
Proof. intros card c z H. apply secondary_loop_val in H. unfold cluster_secondary_cost. now rewrite secondary_fold. Qed.

Definition missing (parents : nat -> list nat) (v : nat) (l : list nat) : Z :=
  Z.of_nat (length (filter (fun w => negb (existsb (equal_variables v) (parents w))) l)).
Lemma missing_bound : forall parents v l, (0 <= missing parents v l <= Z.of_nat (length l))%Z.
Proof.
  intros. unfold missing. split; [lia|]. apply inj_le.
  induction l as [|w l IH]; cbn; [lia|]. destruct (negb _); cbn; lia.
Qed.
Lemma missing_cons : forall parents v w l, missing parents v (w :: l) =
  ((if existsb (equal_variables v) (parents w) then 0 else 1) + missing parents v l)%Z.
Proof. intros. unfold missing. cbn [filter]. destruct (existsb _ _); cbn [negb length]; lia. Qed.

Lemma primary_inner_ok : forall parents v l s, (0 <= s)%Z -> (s + Z.of_nat (length l) <= INT_MAX)%Z ->
  primary_inner parents v l s = Ok (s + missing parents v l)%Z.
Proof.
  intros parents v l. induction l as [|w l IH]; intros s P B; cbn [primary_inner length] in *.
  - f_equal. cbn. lia.
  - rewrite int_of_ok by (destruct (existsb _ _); lia). cbn [bind].
    rewrite IH by (destruct (existsb _ _); lia). rewrite missing_cons. f_equal. ring.
Qed.
Lemma primary_inner_val : forall parents v l s z, primary_inner parents v l s = Ok z ->
  z = (s + missing parents v l)%Z.
Proof.
  intros parents v l. induction l as [|w l IH]; intros s z H; cbn [primary_inner] in *.
  - injection H as <-. cbn. lia.
  - destruct (int_of _) eqn:E in H; cbn [bind] in H; try discriminate.
    apply int_of_val in E. subst. apply IH in H. rewrite H, missing_cons. ring.
Qed.

Fixpoint pairs_of (n : nat) : nat := match n with O => 0 | S n => n + pairs_of n end.
Lemma pairs_of_bound : forall n, 2 * pairs_of n = n * (n - 1).
Proof. induction n as [|n IH]; cbn [pairs_of]; [lia|]. replace (S n - 1) with n by lia. destruct n; nia. Qed.
Lemma pairs_of_mono : forall n m, n <= m -> pairs_of n <= pairs_of m.
Proof. intros n m H. induction H; cbn; lia. Qed.

Lemma primary_outer_ok : forall parents l s, (0 <= s)%Z -> (s + Z.of_nat (pairs_of (length l)) <= INT_MAX)%Z ->
  primary_outer parents l s = Ok (s + cluster_primary_cost parents l)%Z.
Proof.
  intros parents l. induction l as [|v l IH]; intros s P B; cbn [primary_outer length pairs_of cluster_primary_cost] in *.
  - f_equal. lia.
  - assert (M := missing_bound parents v l).
    rewrite primary_inner_ok by lia. cbn [bind]. rewrite IH by lia. unfold missing. f_equal. ring.
Qed.
Lemma primary_outer_val : forall parents l s z, primary_outer parents l s = Ok z ->
  z = (s + cluster_primary_cost parents l)%Z.
Proof.
  intros parents l. induction l as [|v l IH]; intros s z H; cbn [primary_outer cluster_primary_cost] in *.
  - injection H as <-. lia.
  - destruct (primary_inner _ _ _ _) eqn:E in H; cbn [bind] in H; try discriminate.
    apply primary_inner_val in E. subst. apply IH in H. rewrite H. unfold missing. ring.
Qed.
Lemma primary_ok : forall parents c, (Z.of_nat (pairs_of (length c)) <= INT_MAX)%Z ->
  primary_cost parents c = Ok (cluster_primary_cost parents c).
Proof. intros. unfold primary_cost. rewrite primary_outer_ok by lia. reflexivity. Qed.
Lemma primary_val : forall parents c z, primary_cost parents c = Ok z -> z = cluster_primary_cost parents c.
Proof. intros parents c z H. apply primary_outer_val in H. exact H. Qed.
