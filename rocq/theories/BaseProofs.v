(** * Lemmas about the vocabulary of Base.v *)
From Verif Require Import Base.
From Coq Require Import Permutation Field.
Import ListNotations.

Add Field Qcfield : Qcft.

(** ** res *)
Lemma bind_ok : forall A B (x : res A) (f : A -> res B) a,
  x = Ok a -> bind x f = f a.
Proof. intros; subst; reflexivity. Qed.

Lemma bind_ok_inv : forall A B (x : res A) (f : A -> res B) b,
  bind x f = Ok b -> exists a, x = Ok a /\ f a = Ok b.
Proof. intros A B [a| |] f b H; simpl in H; try discriminate; eauto. Qed.

(** ** loops *)
Lemma loop_up_inv : forall S (P : nat -> S -> Prop) body n lo s,
  P lo s ->
  (forall i s, lo <= i < lo + n -> P i s ->
     exists s', body i s = Ok s' /\ P (Datatypes.S i) s') ->
  exists s', loop_up n lo body s = Ok s' /\ P (lo + n) s'.
Proof.
  intros S P body n; induction n as [|n IH]; intros lo s H0 Hb; simpl.
  - exists s; split; auto. now rewrite Nat.add_0_r.
  - destruct (Hb lo s) as (s1 & E & H1); [lia|auto|].
    rewrite E; simpl.
    destruct (IH (Datatypes.S lo) s1 H1) as (s2 & E2 & H2).
    + intros i s' Hi; apply Hb; lia.
    + exists s2; split; auto. replace (lo + Datatypes.S n) with (Datatypes.S lo + n) by lia. auto.
Qed.

Lemma for_up_inv : forall S (P : nat -> S -> Prop) body lo hi s,
  lo <= hi ->
  P lo s ->
  (forall i s, lo <= i < hi -> P i s ->
     exists s', body i s = Ok s' /\ P (Datatypes.S i) s') ->
  exists s', for_up lo hi body s = Ok s' /\ P hi s'.
Proof.
  intros S P body lo hi s Hle H0 Hb. unfold for_up.
  destruct (loop_up_inv S P body (hi - lo) lo s H0) as (s' & E & H).
  - intros i s' Hi; apply Hb; lia.
  - exists s'; split; auto. now replace hi with (lo + (hi - lo)) by lia.
Qed.

Lemma for_up_snoc : forall S (body : nat -> S -> res S) lo hi s,
  lo <= hi ->
  for_up lo (Datatypes.S hi) body s =
  bind (for_up lo hi body s) (body hi).
Proof.
  intros S body lo hi s H. unfold for_up.
  replace (Datatypes.S hi - lo) with (Datatypes.S (hi - lo)) by lia.
  assert (G : forall n lo s, loop_up (Datatypes.S n) lo body s
              = bind (loop_up n lo body s) (body (lo + n))).
  { clear. induction n as [|n IH]; intros lo s.
    - simpl. rewrite Nat.add_0_r. destruct (body lo s); reflexivity.
    - change (bind (body lo s) (fun s' => loop_up (Datatypes.S n) (Datatypes.S lo) body s')
        = bind (bind (body lo s) (fun s' => loop_up n (Datatypes.S lo) body s'))
            (body (lo + Datatypes.S n))).
      destruct (body lo s) as [a| |]; cbn [bind]; auto.
      rewrite IH. replace (Datatypes.S lo + n) with (lo + Datatypes.S n) by lia. reflexivity. }
  rewrite G. now replace (lo + (hi - lo)) with hi by lia.
Qed.

Lemma loop_down_inv : forall S (P : nat -> S -> Prop) body n lo s,
  P (lo + n) s ->
  (forall i s, lo <= i < lo + n -> P (Datatypes.S i) s ->
     exists s', body i s = Ok s' /\ P i s') ->
  exists s', loop_down n lo body s = Ok s' /\ P lo s'.
Proof.
  intros S P body n; induction n as [|n IH]; intros lo s H0 Hb; simpl.
  - exists s; split; auto. now rewrite Nat.add_0_r in H0.
  - destruct (Hb (lo + n) s) as (s1 & E & H1); [lia| |].
    + now replace (Datatypes.S (lo + n)) with (lo + Datatypes.S n) by lia.
    + rewrite E; simpl. apply IH; auto. intros i s' Hi; apply Hb; lia.
Qed.

Lemma for_down_inv : forall S (P : nat -> S -> Prop) body hi lo s,
  lo <= hi ->
  P hi s ->
  (forall i s, lo <= i < hi -> P (Datatypes.S i) s ->
     exists s', body i s = Ok s' /\ P i s') ->
  exists s', for_down hi lo body s = Ok s' /\ P lo s'.
Proof.
  intros S P body hi lo s Hle H0 Hb. unfold for_down.
  apply (loop_down_inv S P body (hi - lo) lo s).
  - now replace (lo + (hi - lo)) with hi by lia.
  - intros i s' Hi; apply Hb; lia.
Qed.

Lemma for_up_ext : forall S (b1 b2 : nat -> S -> res S) lo hi s,
  (forall i s, lo <= i < hi -> b1 i s = b2 i s) ->
  for_up lo hi b1 s = for_up lo hi b2 s.
Proof.
  intros S b1 b2 lo hi s. unfold for_up.
  remember (hi - lo) as n eqn:E.
  assert (G : lo + n = hi \/ n = 0) by lia. clear E.
  intros H. destruct G as [G|G]; [|now subst].
  subst hi. revert lo s H. induction n as [|n IH]; intros lo s H; simpl; auto.
  rewrite H by lia. destruct (b2 lo s); simpl; auto.
  apply IH. intros; apply H; lia.
Qed.

(** ** arrays *)
Lemma rd_ok : forall A (a : list A) i d, i < length a -> rd a i = Ok (nth i a d).
Proof.
  intros A a i d H. unfold rd. rewrite (nth_error_nth' a d H). reflexivity.
Qed.

Lemma rd_inv : forall A (a : list A) i x, rd a i = Ok x -> i < length a /\ nth_error a i = Some x.
Proof.
  unfold rd; intros A a i x H. destruct (nth_error a i) eqn:E; try discriminate.
  inversion H; subst. split; auto. apply nth_error_Some. congruence.
Qed.

Lemma rd_oob : forall A (a : list A) i, length a <= i -> rd a i = UB.
Proof. intros A a i H. unfold rd. apply nth_error_None in H. now rewrite H. Qed.

Lemma wr_ok : forall A (a : list A) i v, i < length a -> wr a i v = Ok (set_nth a i v).
Proof. intros A a i v H. unfold wr. apply Nat.ltb_lt in H. now rewrite H. Qed.

Lemma set_nth_length : forall A (l : list A) i v, length (set_nth l i v) = length l.
Proof. induction l as [|h t IH]; intros [|i] v; simpl; auto. Qed.

Lemma nth_set_nth : forall A (l : list A) i v j d,
  i < length l -> nth j (set_nth l i v) d = if Nat.eqb j i then v else nth j l d.
Proof.
  induction l as [|h t IH]; intros [|i] v [|j] d H; simpl in *; auto; try lia.
  apply IH; lia.
Qed.

Lemma nth_set_nth_eq : forall A (l : list A) i v d,
  i < length l -> nth i (set_nth l i v) d = v.
Proof. intros. rewrite nth_set_nth by auto. now rewrite Nat.eqb_refl. Qed.

Lemma nth_set_nth_neq : forall A (l : list A) i v j d,
  j <> i -> nth j (set_nth l i v) d = nth j l d.
Proof.
  induction l as [|h t IH]; intros [|i] v [|j] d H; simpl in *; auto; try lia.
Qed.

Lemma list_ext_nth : forall A (d : A) (l1 l2 : list A),
  length l1 = length l2 ->
  (forall i, i < length l1 -> nth i l1 d = nth i l2 d) ->
  l1 = l2.
Proof.
  intros A d l1 l2 HL H. apply (nth_ext l1 l2 d d HL H).
Qed.

Lemma set_nth_same : forall A (l : list A) i d, set_nth l i (nth i l d) = l.
Proof.
  induction l as [|h t IH]; intros [|i] d; simpl; auto. now rewrite IH.
Qed.

Lemma nth_repeat_lt : forall A (x d : A) n i, i < n -> nth i (repeat x n) d = x.
Proof. induction n; intros [|i] H; simpl; auto; try lia. apply IHn; lia. Qed.

Lemma nth_map : forall A B (f : A -> B) l i d d', i < length l -> nth i (map f l) d' = f (nth i l d).
Proof.
  intros A B f l i d d' H. rewrite (nth_indep (map f l) d' (f d)) by (now rewrite map_length).
  apply map_nth.
Qed.

(** A loop that rewrites every cell of an array, each from the old contents
    of that cell only. *)
Lemma for_up_pointwise : forall A (d : A) (g : nat -> A -> A)
    (body : nat -> list A -> res (list A)) (l : list A) n,
  n = length l ->
  (forall i l', i < n -> length l' = n -> nth i l' d = nth i l d ->
     body i l' = Ok (set_nth l' i (g i (nth i l d)))) ->
  exists l', for_up 0 n body l = Ok l' /\ length l' = n /\
    forall i, i < n -> nth i l' d = g i (nth i l d).
Proof.
  intros A d g body l n Hn Hb.
  destruct (for_up_inv (list A)
    (fun i l' => length l' = n /\
       (forall j, j < i -> nth j l' d = g j (nth j l d)) /\
       (forall j, i <= j -> nth j l' d = nth j l d)) body 0 n l)
    as (l' & E & HL & H1 & H2).
  - lia.
  - repeat split; auto. intros; lia.
  - intros i l' Hi (HL & H1 & H2).
    exists (set_nth l' i (g i (nth i l d))). split.
    + apply Hb; auto; lia.
    + rewrite set_nth_length. repeat split; auto.
      * intros j Hj. rewrite nth_set_nth by lia.
        destruct (Nat.eqb_spec j i); [now subst|apply H1; lia].
      * intros j Hj. rewrite nth_set_nth by lia.
        destruct (Nat.eqb_spec j i); [lia|apply H2; lia].
  - exists l'. repeat split; auto.
Qed.

(** ** ints *)
Lemma imul_ok : forall a b, (Z.of_nat (a * b) <= INT_MAX)%Z -> imul a b = Ok (a * b).
Proof.
  intros a b H. unfold imul. rewrite <- Nat2Z.inj_mul.
  apply Z.leb_le in H. now rewrite H.
Qed.
Lemma iadd_ok : forall a b, (Z.of_nat (a + b) <= INT_MAX)%Z -> iadd a b = Ok (a + b).
Proof.
  intros a b H. unfold iadd. rewrite <- Nat2Z.inj_add.
  apply Z.leb_le in H. now rewrite H.
Qed.
Lemma idiv_ok : forall a b, 0 < b -> idiv a b = Ok (a / b).
Proof. intros a [|b] H; [lia|reflexivity]. Qed.

Lemma qdiv_ok : forall a b, b <> 0%Qc -> qdiv a b = Ok (a / b)%Qc.
Proof. intros a b H. unfold qdiv. destruct (Qc_eq_dec b 0%Qc); congruence. Qed.

Lemma qzero_true : forall x, qzero x = true <-> x = 0%Qc.
Proof. intros x. unfold qzero. destruct (Qc_eq_dec x 0%Qc); split; congruence. Qed.
Lemma qzero_false : forall x, qzero x = false <-> x <> 0%Qc.
Proof. intros x. unfold qzero. destruct (Qc_eq_dec x 0%Qc); split; congruence. Qed.

(** ** prod *)
Lemma prod_app : forall a b, prod (a ++ b) = prod a * prod b.
Proof. induction a; intros; simpl; try rewrite IHa; lia. Qed.

Lemma prod_pos : forall l, Forall (fun d => 0 < d) l -> 0 < prod l.
Proof. induction 1; simpl; nia. Qed.

(** ** qsum *)
Lemma qsum_app : forall a b, qsum (a ++ b) = (qsum a + qsum b)%Qc.
Proof. induction a; intros; simpl; try rewrite IHa; ring. Qed.

Lemma qsum_perm : forall a b, Permutation a b -> qsum a = qsum b.
Proof. induction 1; simpl; try congruence; ring. Qed.

Lemma qsum_map_plus : forall A (f g : A -> Qc) l,
  qsum (map (fun x => (f x + g x)%Qc) l) = (qsum (map f l) + qsum (map g l))%Qc.
Proof. induction l; simpl; try rewrite IHl; ring. Qed.

Lemma qsum_map_scale : forall A (f : A -> Qc) c l,
  qsum (map (fun x => (c * f x)%Qc) l) = (c * qsum (map f l))%Qc.
Proof. induction l; simpl; try rewrite IHl; ring. Qed.

Lemma qsum_map_scale_r : forall A (f : A -> Qc) c l,
  qsum (map (fun x => (f x * c)%Qc) l) = (qsum (map f l) * c)%Qc.
Proof. induction l; simpl; try rewrite IHl; ring. Qed.

Lemma qsum_map_ext : forall A (f g : A -> Qc) l,
  (forall x, In x l -> f x = g x) -> qsum (map f l) = qsum (map g l).
Proof.
  intros A f g l H. f_equal. apply map_ext_in; auto.
Qed.

Lemma qsum_map_zero : forall A (f : A -> Qc) l,
  (forall x, In x l -> f x = 0%Qc) -> qsum (map f l) = 0%Qc.
Proof.
  induction l as [|a l IH]; intros H; simpl; auto.
  rewrite H by (left; auto). rewrite IH; [ring|]. intros; apply H; right; auto.
Qed.

Lemma qsum_swap : forall A B (f : A -> B -> Qc) la lb,
  qsum (map (fun a => qsum (map (fun b => f a b) lb)) la) =
  qsum (map (fun b => qsum (map (fun a => f a b) la)) lb).
Proof.
  intros A B f la lb. induction la as [|a la IH]; simpl.
  - symmetry. apply qsum_map_zero; auto.
  - rewrite IH, <- qsum_map_plus. reflexivity.
Qed.

Lemma qsum_filter : forall A (f : A -> Qc) (c : A -> bool) l,
  qsum (map f (filter c l)) = qsum (map (fun x => if c x then f x else 0%Qc) l).
Proof.
  induction l as [|a l IH]; simpl; auto.
  destruct (c a); simpl; rewrite IH; ring.
Qed.

Lemma qsum_nonneg : forall l, (forall x, In x l -> (0 <= x)%Qc) -> (0 <= qsum l)%Qc.
Proof.
  induction l as [|a l IH]; intros H; simpl.
  - apply Qcle_refl.
  - replace 0%Qc with (0 + 0)%Qc by ring. apply Qcplus_le_compat.
    + apply H; left; auto.
    + apply IH; intros; apply H; right; auto.
Qed.

Lemma Qc_sum0_l : forall a b, (0 <= a)%Qc -> (0 <= b)%Qc -> (a + b = 0)%Qc -> a = 0%Qc.
Proof.
  intros a b Ha Hb H. apply Qcle_antisym; auto.
  assert (E : a = (- b)%Qc) by (replace a with (a + b - b)%Qc by ring; rewrite H; ring).
  rewrite E. replace 0%Qc with (-0)%Qc by ring. now apply Qcopp_le_compat.
Qed.

Lemma qsum_zero_inv : forall l, (forall x, In x l -> (0 <= x)%Qc) -> qsum l = 0%Qc ->
  forall x, In x l -> x = 0%Qc.
Proof.
  induction l as [|a l IH]; intros H E x Hx; simpl in *; [contradiction|].
  assert (Ha : (0 <= a)%Qc) by (apply H; auto).
  assert (Hl : (0 <= qsum l)%Qc) by (apply qsum_nonneg; intros; apply H; auto).
  assert (a = 0%Qc) by (eapply Qc_sum0_l; eauto).
  destruct Hx as [Hx|Hx]; [congruence|].
  apply IH; auto. subst a. rewrite <- E. ring.
Qed.

Lemma Qc_mul_nonneg : forall a b, (0 <= a)%Qc -> (0 <= b)%Qc -> (0 <= a * b)%Qc.
Proof.
  intros a b Ha Hb. replace 0%Qc with (0 * b)%Qc by ring. now apply Qcmult_le_compat_r.
Qed.

Lemma Qc_inv_nonneg : forall a, (0 <= a)%Qc -> (0 <= / a)%Qc.
Proof.
  intros a Ha. destruct (Qc_eq_dec a 0%Qc) as [->|N]; [discriminate|].
  destruct (Qcle_lt_or_eq _ _ Ha) as [L|E]; [|congruence].
  destruct (Qclt_le_dec (/a) 0) as [C|C]; auto. exfalso.
  assert (K : (/ a * a <= 0 * a)%Qc) by (apply Qcmult_le_compat_r; auto; now apply Qclt_le_weak).
  replace (/a * a)%Qc with 1%Qc in K by (field; auto).
  replace (0*a)%Qc with 0%Qc in K by ring. now apply K.
Qed.

Lemma Qc_div_nonneg : forall a b, (0 <= a)%Qc -> (0 <= b)%Qc -> (0 <= a / b)%Qc.
Proof. intros. unfold Qcdiv. apply Qc_mul_nonneg; auto. now apply Qc_inv_nonneg. Qed.

Lemma Qcdiv_zero_r : forall a, (a / 0 = 0)%Qc.
Proof. intros a. unfold Qcdiv. replace (/0)%Qc with 0%Qc by (apply Qc_is_canon; reflexivity). ring. Qed.
