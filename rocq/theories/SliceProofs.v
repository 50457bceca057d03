(** * Proofs: the unrolled model as a recursion over the slices *)
From Coq Require Import Permutation Field.
From Verif Require Import Base BaseProofs PotentialModel PotentialSpec PotentialProofs JoinTreeModel
  AssignSpec JoinTreeSpec AssignProofs NipModel NipSpec SliceModel SliceSpec.
Import ListNotations.
Open Scope nat_scope.
Add Field Qcfield_slice : Qcft.

(** ** Sums over one slice of the unrolled variables *)
Lemma given_mul : forall b x y, (given b x * y = given b (x * y))%Qc.
Proof. intros [] x y; unfold given; ring. Qed.
Lemma given_mul_r : forall b x y, (x * given b y = given b (x * y))%Qc.
Proof. intros [] x y; unfold given; ring. Qed.
Lemma given_as : forall b x, given b x = (given b 1 * x)%Qc.
Proof. intros [] x; unfold given; ring. Qed.
Lemma given_nonneg : forall b x, (0 <= x)%Qc -> (0 <= given b x)%Qc.
Proof. intros [] x H; auto. apply Qcle_refl. Qed.
Lemma given_and : forall b c x, given b (given c x) = given (b && c) x.
Proof. intros [] [] x; reflexivity. Qed.

Lemma sumv_base : forall card vs f a b, ext f -> (forall v, ~ In v vs -> a v = b v) ->
  sumv card vs f a = sumv card vs f b.
Proof.
  intros card vs f. induction vs as [|v vs IH]; intros a b HE H; simpl.
  - apply HE. intros v. apply H. auto.
  - apply qsum_map_ext. intros x _. apply IH; auto. intros w Hw. unfold upd.
    destruct (Nat.eqb_spec w v) as [->|N]; auto. apply H. simpl. intros [E|E]; congruence.
Qed.

(** Pointwise-on-the-free-part extensionality without validity. *)
Lemma sumv_ext_free : forall (c : nat -> nat) vs g h a, (forall d, (forall w, ~ In w vs -> d w = a w) -> g d = h d) ->
  sumv c vs g a = sumv c vs h a.
Proof.
  intros c. induction vs as [|u vs IH]; intros g h a H; simpl; [apply H; auto|].
  apply qsum_map_ext. intros z _. apply IH. intros d Hd. apply H. intros w Hw.
  rewrite Hd by (simpl in Hw; tauto). unfold upd. destruct (Nat.eqb_spec w u) as [->|]; auto.
  simpl in Hw. tauto.
Qed.

Lemma sumv_const_out : forall card vs f c a, sumv card vs (fun b => c * f b)%Qc a = (c * sumv card vs f a)%Qc.
Proof. intros. apply (sumv_scale_gen card vs (fun _ => c)). auto. Qed.

(** Picking the assignments that agree with [a] on [O]. *)
Definition same_on (O : list nat) (a b : nat -> nat) : bool := ix_eqb (map a O) (map b O).
Lemma ix_eqb_true : forall a b, ix_eqb a b = true <-> a = b.
Proof. intros. unfold ix_eqb. destruct (list_eq_dec _ a b); split; congruence. Qed.
Lemma ix_eqb_cons : forall x y a b, ix_eqb (x :: a) (y :: b) = (Nat.eqb x y && ix_eqb a b)%bool.
Proof.
  intros. unfold ix_eqb. destruct (list_eq_dec _ (x :: a) (y :: b)) as [E|E];
  destruct (Nat.eqb_spec x y); destruct (list_eq_dec _ a b); simpl; congruence.
Qed.

Lemma map_upd_other : forall O a v x, ~ In v O -> map (upd a v x) O = map a O.
Proof.
  intros O a v x H. apply map_ext_in. intros w Hw. unfold upd. destruct (Nat.eqb_spec w v); congruence.
Qed.

Lemma qsum_pick : forall (f : nat -> Qc) n k, k < n ->
  qsum (map (fun x => given (Nat.eqb x k) (f x)) (seq 0 n)) = f k.
Proof.
  intros f n k Hk.
  assert (P : Permutation (seq 0 n) ([k] ++ minus (seq 0 n) [k])).
  { apply split_perm.
    - apply seq_NoDup.
    - repeat constructor. auto.
    - intros x [<-|[]]. apply in_seq. lia. }
  rewrite (qsum_perm _ _ (Permutation_map _ P)). simpl. rewrite Nat.eqb_refl. cbn [given].
  rewrite qsum_map_zero; [ring|]. intros x Hx. apply minus_in in Hx. destruct Hx as (_ & Hx).
  destruct (Nat.eqb_spec x k) as [->|]; auto. simpl in Hx. tauto.
Qed.

Lemma sumv_pick : forall card O f ix a, (forall v, 0 < card v) -> NoDup O -> ext f ->
  length ix = length O -> valid_ix (map card O) ix ->
  exists b, map b O = ix /\ (forall v, ~ In v O -> b v = a v) /\
  sumv card O (fun c => given (ix_eqb (map c O) ix) (f c)) a = f b.
Proof.
  intros card O f ix a HC. revert ix a. induction O as [|v O IH]; intros ix a HN HE HL HV.
  - destruct ix; [|discriminate]. exists a. repeat split; auto.
  - destruct ix as [|x ix]; [discriminate|]. inversion HN; subst. inversion HV; subst.
    destruct (IH ix (upd a v x)) as (b & B1 & B2 & B3); auto.
    assert (Bv : b v = x). { rewrite B2 by auto. unfold upd. now rewrite Nat.eqb_refl. }
    exists b. split; [simpl; congruence|]. split.
    { intros w Hw. rewrite B2 by (simpl in Hw; tauto). unfold upd.
      destruct (Nat.eqb_spec w v) as [->|]; auto. simpl in Hw. tauto. }
    rewrite <- B3. cbn [sumv].
    rewrite <- (qsum_pick (fun y => sumv card O (fun c => given (ix_eqb (map c O) ix) (f c)) (upd a v y)) (card v) x) by auto.
    apply qsum_map_ext. intros y Hy.
    rewrite given_as. rewrite <- (sumv_scale_gen card O (fun _ => given (Nat.eqb y x) 1%Qc)) by auto.
    destruct (Nat.eqb_spec y x) as [->|N].
    + apply sumv_ext_free. intros d Hd. simpl. rewrite ix_eqb_cons. rewrite (Hd v) by auto. unfold upd at 1.
      rewrite !Nat.eqb_refl. cbn [andb given]. ring.
    + apply sumv_ext_free. intros d Hd. simpl. rewrite ix_eqb_cons. rewrite (Hd v) by auto. unfold upd at 1.
      rewrite Nat.eqb_refl. destruct (Nat.eqb_spec y x); [congruence|]. cbn [andb given]. ring.
Qed.

(** The marginal over [O] as a sum with a condition. *)
Lemma marginal_given : forall card N O f a ix, (forall v, 0 < card v) -> NoDup N -> NoDup O -> incl O N -> ext f ->
  valid_ix (map card O) ix -> map a O = ix ->
  sumv card (minus N O) f a =
  sumv card N (fun b => given (ix_eqb (map b O) ix) (f b)) a.
Proof.
  intros card N O f a ix HC HN HO HI HE HV Ha.
  assert (E1 : ext (fun b => given (ix_eqb (map b O) ix) (f b))).
  { intros b c E. rewrite (HE b c E). now rewrite (map_ext b c E). }
  rewrite (sumv_perm card N (minus N O ++ O)); auto.
  2: { rewrite Permutation_app_comm. now apply split_perm. }
  rewrite sumv_app.
  apply sumv_ext_free. intros d Hd.
  assert (Hd' : map d O = ix).
  { rewrite <- Ha. apply map_ext_in. intros w Hw. apply Hd. rewrite minus_in. tauto. }
  destruct (sumv_pick card O f ix d HC HO HE) as (b & B1 & B2 & B3); auto.
  { rewrite <- Hd'. now rewrite map_length. }
  rewrite B3. apply HE. intros v. destruct (in_dec Nat.eq_dec v O) as [Hv|Hv].
  - rewrite <- Hd' in B1. symmetry in B1. exact (proj1 map_ext_in_iff B1 v Hv).
  - symmetry. now apply B2.
Qed.

(** ** Shifting the variables of one slice *)
Section Unroll.
Variable card : nat -> nat.
Variable n : nat.
Hypothesis Hn : 0 < n.
Local Notation ucard := (fun i => card (i mod n)).

Lemma ucard_slice : forall t v, v < n -> card ((t * n + v) mod n) = card v.
Proof. intros t v Hv. f_equal. rewrite Nat.add_comm, Nat.mod_add by lia. now apply Nat.mod_small. Qed.

Lemma moment_upd : forall a t v x w, v < n -> moment n (upd a (t * n + v) x) t w = upd (moment n a t) v x w.
Proof.
  intros a t v x w Hv. unfold moment, upd. destruct (Nat.ltb_spec w n).
  - destruct (Nat.eqb_spec w v) as [->|N]; [now rewrite Nat.eqb_refl|].
    destruct (Nat.eqb_spec (t * n + w) (t * n + v)); [lia|auto].
  - destruct (Nat.eqb_spec w v); [lia|auto].
Qed.

Lemma shift_gen : forall vs g t a, (forall v, In v vs -> v < n) -> ext g ->
  sumv ucard (map (fun v => t * n + v) vs) (fun a => g (moment n a t)) a = sumv card vs g (moment n a t).
Proof.
  induction vs as [|v vs IH]; intros g t a H HE; simpl; auto.
  rewrite ucard_slice by (apply H; simpl; auto). apply qsum_map_ext. intros x _.
  rewrite IH; auto; [|intros; apply H; simpl; auto].
  apply sumv_ext_arg; auto. intros w. apply moment_upd. apply H. simpl; auto.
Qed.

Lemma seq_map_add : forall k l, seq k l = map (fun v => k + v) (seq 0 l).
Proof.
  intros k l. revert k. induction l as [|l IH]; intros k; simpl; auto. f_equal; [lia|].
  rewrite IH. rewrite <- seq_shift, map_map. apply map_ext. intros; lia.
Qed.

Lemma shift_slice : forall g t a, ext g ->
  sumv ucard (seq (t * n) n) (fun a => g (moment n a t)) a = sumv card (seq 0 n) g (fun _ => 0).
Proof.
  intros g t a HE. rewrite seq_map_add. rewrite shift_gen; auto.
  - apply sumv_base; auto. intros v Hv. unfold moment. destruct (Nat.ltb_spec v n); auto.
    exfalso. apply Hv. apply in_seq. lia.
  - intros v Hv. apply in_seq in Hv. lia.
Qed.

(** Other moments are not touched. *)
Lemma moment_other : forall a b t s, s <> t ->
  (forall i, ~ In i (seq (t * n) n) -> b i = a i) -> forall v, moment n b s v = moment n a s v.
Proof.
  intros a b t s N H v. unfold moment. destruct (Nat.ltb_spec v n); auto. apply H. rewrite in_seq.
  intros (H1 & H2). assert (s < t \/ t < s) as [L|L] by lia.
  - assert (s * n + n <= t * n) by (rewrite <- (Nat.mul_1_l n) at 2; rewrite <- Nat.mul_add_distr_r; apply Nat.mul_le_mono_r; lia). lia.
  - assert (t * n + n <= s * n) by (rewrite <- (Nat.mul_1_l n) at 2; rewrite <- Nat.mul_add_distr_r; apply Nat.mul_le_mono_r; lia). lia.
Qed.

(** A chain: factors [f0] of the first slice and [f t] of slice [t] given the
    one before. *)
Variable f0 : (nat -> nat) -> Qc.
Variable f : nat -> (nat -> nat) -> (nat -> nat) -> Qc.
Hypothesis E0 : ext f0.
Hypothesis EF : forall t a a' b b', (forall v, a v = a' v) -> (forall v, b v = b' v) -> f t a b = f t a' b'.
Definition factor (a : nat -> nat) (t : nat) : Qc :=
  match t with 0 => f0 (moment n a 0) | S t' => f t (moment n a t') (moment n a t) end.
Definition chain (T : nat) (a : nat -> nat) : Qc := qprod (map (factor a) (seq 0 T)).
Local Notation sums := (fun g => sumv card (seq 0 n) g (fun _ => 0)).

(** Forward recursion. *)
Fixpoint fwd (t : nat) (b : nat -> nat) : Qc :=
  match t with
  | 0 => f0 b
  | S t' => sums (fun b' => fwd t' b' * f t b' b)%Qc
  end.
(** Backward recursion over [k] further slices. *)
Fixpoint bwd (k t : nat) (b : nat -> nat) : Qc :=
  match k with
  | 0 => 1%Qc
  | S k' => sums (fun b' => f (S t) b b' * bwd k' (S t) b')%Qc
  end.

Lemma moment_ext : forall a b t, (forall i, a i = b i) -> forall v, moment n a t v = moment n b t v.
Proof. intros a b t H v. unfold moment. destruct (Nat.ltb v n); auto. Qed.

Lemma factor_ext : forall t, ext (fun a => factor a t).
Proof.
  intros [|t] a b H; unfold factor.
  - apply E0. now apply moment_ext.
  - apply EF; now apply moment_ext.
Qed.

Lemma fwd_ext : forall t, ext (fwd t).
Proof.
  induction t as [|t IH]; intros a b H; [now apply E0|]. cbn [fwd].
  apply sumv_ext_free. intros d _. now rewrite (EF (S t) d d a b).
Qed.
Lemma bwd_ext : forall k t, ext (bwd k t).
Proof.
  destruct k as [|k]; intros t a b H; auto. cbn [bwd].
  apply sumv_ext_free. intros d _. now rewrite (EF (S t) a b d d).
Qed.

Lemma factor_low : forall s t a b, s < t -> (forall i, ~ In i (seq (t * n) n) -> b i = a i) ->
  factor b s = factor a s.
Proof.
  intros [|s] t a b Hs H; unfold factor.
  - apply E0. intros v. apply (moment_other a b t 0); auto. lia.
  - apply EF; intros v; [apply (moment_other a b t s)|apply (moment_other a b t (S s))]; auto; lia.
Qed.

Lemma chain_S : forall T a, chain (S T) a = (chain T a * factor a T)%Qc.
Proof. intros. unfold chain. rewrite seq_S, map_app, qprod_app. simpl. ring. Qed.

Lemma seq_split_last : forall T, seq 0 (S T * n) = seq 0 (T * n) ++ seq (T * n) n.
Proof. intros T. replace (S T * n) with (T * n + n) by (simpl; lia). now rewrite seq_app. Qed.

Lemma chain_ext : forall T, ext (chain T).
Proof. intros T a b H. unfold chain. apply qprod_map_ext. intros t _. now apply factor_ext. Qed.

(** Sum over the last slice. *)
Lemma last_slice : forall T h a, (forall x y b b', (forall v, x v = y v) -> (forall v, b v = b' v) -> h x b = h y b') ->
  sumv ucard (seq (S T * n) n) (fun a => chain (S T) a * (f (S T) (moment n a T) (moment n a (S T)) * h (moment n a T) (moment n a (S T))))%Qc a
  = (chain (S T) a * sums (fun b => f (S T) (moment n a T) b * h (moment n a T) b))%Qc.
Proof.
  intros T h a HE.
  rewrite (sumv_ext_free ucard (seq (S T * n) n) _
    (fun d => chain (S T) a * (f (S T) (moment n a T) (moment n d (S T)) * h (moment n a T) (moment n d (S T))))%Qc).
  - rewrite (sumv_scale_gen ucard _ (fun _ => chain (S T) a)) by auto. f_equal.
    apply (shift_slice (fun b => f (S T) (moment n a T) b * h (moment n a T) b)%Qc).
    intros b b' E. f_equal; [apply EF|apply HE]; auto.
  - intros d Hd. f_equal.
    + unfold chain. apply qprod_map_ext. intros t Ht. apply in_seq in Ht. apply (factor_low t (S T)); auto. lia.
    + f_equal; [apply EF|apply HE]; auto; intros v; apply (moment_other a d (S T) T); auto.
Qed.

(** The sum over everything up to slice [t]. *)
Lemma head_sum : forall t h, ext h ->
  sumv ucard (seq 0 (S t * n)) (fun a => chain (S t) a * h (moment n a t))%Qc (fun _ => 0) =
  sums (fun b => fwd t b * h b)%Qc.
Proof.
  induction t as [|t IH]; intros h HE.
  - replace (1 * n) with n by lia. rewrite <- (shift_slice (fun b => fwd 0 b * h b)%Qc 0 (fun _ => 0)).
    + cbn [Nat.mul]. apply sumv_ext_free. intros d _. unfold chain. simpl. unfold factor. ring.
    + intros a b E. cbn [fwd]. now rewrite (E0 a b E), (HE a b E).
  - rewrite seq_split_last, sumv_app.
    rewrite (sumv_ext_free ucard (seq 0 (S t * n)) _
      (fun a => chain (S t) a * sums (fun b => f (S t) (moment n a t) b * h b))%Qc).
    + rewrite (IH (fun b' => sums (fun b => f (S t) b' b * h b)%Qc)).
      * cbn [fwd].
        rewrite (sumv_ext_free card (seq 0 n) _ (fun b' => sums (fun b => fwd t b' * f (S t) b' b * h b)%Qc)).
        2: { intros d _. rewrite <- sumv_const_out. apply sumv_ext_free. intros. ring. }
        rewrite (sumv_ext_free card (seq 0 n) (fun b => sums (fun b' => fwd t b' * f (S t) b' b) * h b)%Qc
           (fun b => sums (fun b' => fwd t b' * f (S t) b' b * h b)%Qc)).
        2: { intros d _. rewrite Qcmult_comm, <- sumv_const_out. apply sumv_ext_free. intros. ring. }
        assert (SW : forall (c : nat -> nat) vs ws (g : (nat -> nat) -> (nat -> nat) -> Qc) x y,
          sumv c vs (fun p => sumv c ws (fun q => g p q) y) x = sumv c ws (fun q => sumv c vs (fun p => g p q) x) y).
        { clear. intros c. induction vs as [|v vs IHv]; intros ws g x y; simpl; auto.
          rewrite (map_ext _ (fun z => sumv c ws (fun q => sumv c vs (fun p => g p q) (upd x v z)) y)) by (intros; apply IHv).
          generalize (seq 0 (c v)) as l. intros l. induction l as [|z l IHl]; simpl.
          - rewrite (sumv_ext_free c ws _ (fun _ => 0 * 0)%Qc) by (intros; ring).
            rewrite sumv_const_out. ring.
          - rewrite IHl, <- sumv_plus. reflexivity. }
        apply SW.
      * intros a b E. apply sumv_ext_free. intros d _. now rewrite (EF (S t) a b d d).
    + intros d _. rewrite <- (last_slice t (fun _ b => h b)).
      * apply sumv_ext_free. intros e _. rewrite chain_S. unfold factor at 1. ring.
      * intros x y b b' _ E. now apply HE.
Qed.

(** The sum over [k] slices after slice [t]. *)
Definition tail (k t : nat) (a : nat -> nat) : Qc := qprod (map (factor a) (seq (S t) k)).
Lemma tail_sum : forall k t a,
  sumv ucard (seq (S t * n) (k * n)) (tail k t) a = bwd k t (moment n a t).
Proof.
  induction k as [|k IH]; intros t a; [reflexivity|].
  replace (S k * n) with (n + k * n) by reflexivity. rewrite seq_app, sumv_app.
  replace (S t * n + n) with (S (S t) * n) by (simpl; lia).
  rewrite (sumv_ext_free ucard (seq (S t * n) n) _
    (fun b => factor b (S t) * bwd k (S t) (moment n b (S t)))%Qc).
  - cbn [bwd].
    rewrite (sumv_ext_free ucard (seq (S t * n) n) _
      (fun b => (fun c => f (S t) (moment n a t) c * bwd k (S t) c)%Qc (moment n b (S t)))).
    + apply (shift_slice (fun c => f (S t) (moment n a t) c * bwd k (S t) c)%Qc).
      intros b b' E. rewrite (bwd_ext k (S t) b b' E). now rewrite (EF (S t) (moment n a t) (moment n a t) b b').
    + intros d Hd. f_equal. unfold factor. apply EF; auto. intros v. now apply (moment_other a d (S t) t).
  - intros d _. rewrite <- IH. rewrite <- (sumv_scale_gen ucard _ (fun a => factor a (S t))).
    + apply sumv_ext_free. intros e _. unfold tail. simpl. reflexivity.
    + intros e He. unfold factor.
      assert (K : forall s, s <= S t -> forall v, moment n e s v = moment n d s v).
      { intros s Hs v. unfold moment. destruct (Nat.ltb_spec v n); auto. apply He. rewrite in_seq.
        assert (s * n + n <= S (S t) * n).
        { transitivity (S s * n); [simpl; lia|]. apply Nat.mul_le_mono_r. lia. }
        lia. }
      apply EF; intros v; apply K; lia.
Qed.

Lemma smooth_sum : forall k t h, ext h ->
  sumv ucard (seq 0 ((S t + k) * n)) (fun a => chain (S t + k) a * h (moment n a t))%Qc (fun _ => 0) =
  sums (fun b => fwd t b * bwd k t b * h b)%Qc.
Proof.
  intros k t h HE. rewrite Nat.mul_add_distr_r, seq_app, sumv_app.
  rewrite (sumv_ext_free ucard (seq 0 (S t * n)) _
    (fun a => chain (S t) a * (bwd k t (moment n a t) * h (moment n a t)))%Qc).
  - rewrite (head_sum t (fun b => bwd k t b * h b)%Qc).
    + apply sumv_ext_free. intros. ring.
    + intros a b E. now rewrite (bwd_ext k t a b E), (HE a b E).
  - intros d _. rewrite <- (tail_sum k t d).
    replace (chain (S t) d * (sumv ucard (seq (S t * n) (k * n)) (tail k t) d * h (moment n d t)))%Qc
      with ((chain (S t) d * h (moment n d t)) * sumv ucard (seq (S t * n) (k * n)) (tail k t) d)%Qc by ring.
    rewrite <- (sumv_scale_gen ucard _ (fun a => chain (S t) a * h (moment n a t))%Qc).
    + apply sumv_ext_free. intros e _. unfold chain, tail. rewrite seq_app, map_app, qprod_app.
      cbn [Nat.add]. ring.
    + intros e He.
      assert (K : forall s, s <= t -> forall v, moment n e s v = moment n d s v).
      { intros s Hs v. unfold moment. destruct (Nat.ltb_spec v n); auto. apply He. rewrite in_seq.
        assert (s * n + n <= S t * n).
        { transitivity (S s * n); [simpl; lia|]. apply Nat.mul_le_mono_r. lia. }
        simpl in *. lia. }
      f_equal.
      * unfold chain. apply qprod_map_ext. intros s Hs. apply in_seq in Hs. destruct s as [|s]; unfold factor.
        -- apply E0. apply K. lia.
        -- apply EF; apply K; lia.
      * apply HE. apply K. lia.
Qed.
End Unroll.
