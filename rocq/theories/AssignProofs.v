(** * Proofs about sums over assignments *)
From Coq Require Import Permutation Field.
From Verif Require Import Base BaseProofs PotentialModel PotentialSpec PotentialProofs
  PotentialProofs2 AssignSpec.
Import ListNotations.
Open Scope nat_scope.

Add Field Qcfield_assign : Qcft.

(** [f] looks only at the variables [V]. *)
Definition dep (V : list nat) (f : (nat -> nat) -> Qc) : Prop :=
  forall a b, (forall v, In v V -> a v = b v) -> f a = f b.
(** [f] respects pointwise equality. *)
Definition ext (f : (nat -> nat) -> Qc) : Prop :=
  forall a b, (forall v, a v = b v) -> f a = f b.

Lemma dep_ext : forall V f, dep V f -> ext f.
Proof. intros V f H a b E. apply H. auto. Qed.

Lemma dep_incl : forall V W f, dep V f -> incl V W -> dep W f.
Proof. intros V W f H I a b E. apply H. auto. Qed.

Lemma den_dep : forall vs p, dep vs (den vs p).
Proof.
  intros vs p a b E. unfold den. f_equal. apply map_ext_in. auto.
Qed.

Lemma minus_in : forall a b x, In x (minus a b) <-> In x a /\ ~ In x b.
Proof.
  intros a b x. unfold minus. rewrite filter_In.
  assert (K : existsb (Nat.eqb x) b = true <-> In x b).
  { rewrite existsb_exists. split.
    - intros (y & Hy & E). apply Nat.eqb_eq in E. now subst.
    - intros H. exists x. split; auto. apply Nat.eqb_refl. }
  destruct (existsb (Nat.eqb x) b); simpl; intuition congruence.
Qed.

Lemma minus_nodup : forall a b, NoDup a -> NoDup (minus a b).
Proof. intros. now apply NoDup_filter. Qed.

Lemma NoDup_app_intro : forall A (a b : list A),
  NoDup a -> NoDup b -> (forall x, In x a -> ~ In x b) -> NoDup (a ++ b).
Proof.
  induction a as [|h t IH]; intros b Ha Hb H; simpl; auto.
  inversion Ha; subst. constructor.
  - rewrite in_app_iff. intros [K|K]; auto. apply (H h); simpl; auto.
  - apply IH; auto. intros x Hx. apply H. simpl; auto.
Qed.

Lemma split_perm : forall vs S, NoDup vs -> NoDup S -> incl S vs ->
  Permutation vs (S ++ minus vs S).
Proof.
  intros vs S HV HS I. apply NoDup_Permutation; auto.
  - apply NoDup_app_intro; auto.
    + now apply minus_nodup.
    + intros x Hx H. apply minus_in in H. tauto.
  - intros x. rewrite in_app_iff, minus_in.
    destruct (in_dec Nat.eq_dec x S) as [K|K]; split; intros H; try tauto.
    apply I. tauto.
Qed.

Section Sums.
Variable card : nat -> nat.
Local Notation valid := (valid card).
Local Notation sumv := (sumv card).

Lemma upd_same : forall a v x, upd a v x v = x.
Proof. intros. unfold upd. now rewrite Nat.eqb_refl. Qed.
Lemma upd_other : forall a v x w, w <> v -> upd a v x w = a w.
Proof. intros. unfold upd. destruct (Nat.eqb_spec w v); congruence. Qed.

Lemma upd_valid : forall a v x, valid a -> x < card v -> valid (upd a v x).
Proof.
  intros a v x H Hx w. unfold upd. destruct (Nat.eqb_spec w v); subst; auto.
Qed.

Lemma sumv_ext_on : forall vs f g a, valid a ->
  (forall b, valid b -> (forall v, ~ In v vs -> b v = a v) -> f b = g b) ->
  sumv vs f a = sumv vs g a.
Proof.
  induction vs as [|v vs IH]; intros f g a Ha H; simpl.
  - apply H; auto.
  - apply qsum_map_ext. intros x Hx. apply in_seq in Hx. apply IH.
    + apply upd_valid; auto. lia.
    + intros b Hb E. apply H; auto. intros w Hw. simpl in Hw.
      rewrite E by tauto. apply upd_other. intros ->. tauto.
Qed.

Lemma sumv_ext : forall vs f g a, valid a ->
  (forall b, valid b -> f b = g b) -> sumv vs f a = sumv vs g a.
Proof. intros. apply sumv_ext_on; auto. Qed.

Lemma sumv_dep_arg : forall V vs f a b, dep V f ->
  (forall v, In v V -> ~ In v vs -> a v = b v) -> sumv vs f a = sumv vs f b.
Proof.
  intros V vs f. induction vs as [|v vs IH]; intros a b HD H; simpl.
  - apply HD. intros v Hv. apply H; auto.
  - apply qsum_map_ext. intros x _. apply IH; auto. intros w Hw Hn.
    unfold upd. destruct (Nat.eqb_spec w v); auto. apply H; auto. simpl.
    intros [E|E]; [congruence|tauto].
Qed.

Lemma sumv_dep : forall V vs f, dep V f -> dep (minus V vs) (sumv vs f).
Proof.
  intros V vs f HD a b E. apply (sumv_dep_arg V); auto. intros v H1 H2. apply E.
  apply minus_in; auto.
Qed.

Lemma sumv_ext_arg : forall vs f a b, ext f -> (forall v, a v = b v) ->
  sumv vs f a = sumv vs f b.
Proof.
  induction vs as [|v vs IH]; intros f a b HE H; simpl; auto.
  apply qsum_map_ext. intros x _. apply IH; auto.
  intros w. unfold upd. destruct (Nat.eqb w v); auto.
Qed.

Lemma sumv_is_ext : forall vs f, ext f -> ext (sumv vs f).
Proof. intros vs f H a b E. now apply sumv_ext_arg. Qed.

Lemma sumv_app : forall vs ws f a, sumv (vs ++ ws) f a = sumv vs (sumv ws f) a.
Proof.
  induction vs as [|v vs IH]; intros ws f a; simpl; auto.
  apply qsum_map_ext. intros x _. apply IH.
Qed.

Lemma sumv_perm : forall vs ws f a, Permutation vs ws -> ext f ->
  sumv vs f a = sumv ws f a.
Proof.
  intros vs ws f a H HE. revert a. induction H as [|v vs ws H IH|v w l|]; intros a; simpl; auto.
  - apply qsum_map_ext. intros x _. apply IH.
  - destruct (Nat.eq_dec v w) as [->|N]; auto.
    rewrite qsum_swap. apply qsum_map_ext. intros x _. apply qsum_map_ext. intros y _.
    apply sumv_ext_arg; auto. intros u. unfold upd.
    destruct (Nat.eqb_spec u v), (Nat.eqb_spec u w); congruence.
  - now rewrite IHPermutation1.
Qed.

Lemma sumv_comm : forall vs ws f a, ext f -> sumv vs (sumv ws f) a = sumv ws (sumv vs f) a.
Proof.
  intros vs ws f a H. rewrite <- !sumv_app. apply sumv_perm; auto. apply Permutation_app_comm.
Qed.

Lemma sumv_scale_gen : forall vs g f a,
  (forall b, (forall v, ~ In v vs -> b v = a v) -> g b = g a) ->
  sumv vs (fun b => g b * f b)%Qc a = (g a * sumv vs f a)%Qc.
Proof.
  induction vs as [|v vs IH]; intros g f a H; simpl; auto.
  rewrite <- qsum_map_scale. apply qsum_map_ext. intros x _.
  assert (E : g (upd a v x) = g a).
  { apply H. intros w Hw. apply upd_other. intros ->. simpl in Hw. tauto. }
  rewrite IH.
  - now rewrite E.
  - intros b Hb. rewrite E. apply H. intros w Hw. simpl in Hw. rewrite Hb by tauto.
    apply upd_other. intros ->. tauto.
Qed.

Lemma sumv_scale : forall V vs g f a, dep V g -> (forall v, In v V -> ~ In v vs) ->
  sumv vs (fun b => g b * f b)%Qc a = (g a * sumv vs f a)%Qc.
Proof.
  intros V vs g f a HD H. apply sumv_scale_gen. intros b Hb. apply HD. intros v Hv.
  apply Hb. auto.
Qed.

Lemma sumv_plus : forall vs f g a,
  sumv vs (fun b => f b + g b)%Qc a = (sumv vs f a + sumv vs g a)%Qc.
Proof.
  induction vs as [|v vs IH]; intros f g a; simpl; auto.
  rewrite <- qsum_map_plus. apply qsum_map_ext. intros x _. apply IH.
Qed.

Lemma sumv_nonneg : forall vs f a, valid a -> (forall b, valid b -> (0 <= f b)%Qc) ->
  (0 <= sumv vs f a)%Qc.
Proof.
  induction vs as [|v vs IH]; intros f a Ha H; simpl; auto.
  apply qsum_nonneg. intros y Hy. apply in_map_iff in Hy. destruct Hy as (x & <- & Hx).
  apply in_seq in Hx. apply IH; auto. apply upd_valid; auto. lia.
Qed.

Lemma sumv_zero : forall vs f a, valid a ->
  (forall b, valid b -> (forall v, ~ In v vs -> b v = a v) -> f b = 0%Qc) ->
  sumv vs f a = 0%Qc.
Proof.
  intros vs f a Ha H. rewrite (sumv_ext_on vs f (fun _ => 0 * 0)%Qc a); auto.
  rewrite (sumv_scale_gen vs (fun _ => 0%Qc)); auto. ring.
Qed.

Lemma sumv_zero_inv : forall vs f a, valid a -> ext f ->
  (forall b, valid b -> (0 <= f b)%Qc) -> sumv vs f a = 0%Qc -> f a = 0%Qc.
Proof.
  induction vs as [|v vs IH]; intros f a Ha HE H HZ; simpl in HZ; auto.
  assert (K : sumv vs f (upd a v (a v)) = 0%Qc).
  { apply (qsum_zero_inv _) with (x := sumv vs f (upd a v (a v))) in HZ; auto.
    - intros y Hy. apply in_map_iff in Hy. destruct Hy as (x & <- & Hx).
      apply in_seq in Hx. apply sumv_nonneg; auto. apply upd_valid; auto. lia.
    - apply in_map_iff. exists (a v). split; auto. apply in_seq. specialize (Ha v). lia. }
  apply IH in K; auto.
  - rewrite <- K. apply HE. intros w. unfold upd. destruct (Nat.eqb_spec w v); congruence.
  - apply upd_valid; auto.
Qed.

(** Sums over all multi-indices are sums over assignments. *)
Lemma sum_all_ix : forall vs (g : list nat -> Qc) a, NoDup vs -> valid a ->
  qsum (map g (all_ix (map card vs))) = sumv vs (fun b => g (map b vs)) a.
Proof.
  induction vs as [|v vs IH]; intros g a HN Ha; simpl.
  - ring.
  - inversion HN as [|? ? Hv HN']; subst.
    assert (E : forall (h : list nat -> Qc) l d,
      qsum (map h (flat_map (fun t => map (fun i => i :: t) (seq 0 d)) l)) =
      qsum (map (fun t => qsum (map (fun i => h (i :: t)) (seq 0 d))) l)).
    { intros h l d. induction l as [|t l IHl]; simpl; auto.
      rewrite map_app, qsum_app, IHl, map_map. reflexivity. }
    rewrite E, qsum_swap. apply qsum_map_ext. intros x Hx. apply in_seq in Hx.
    rewrite (IH (fun t => g (x :: t)) (upd a v x)); auto.
    + apply sumv_ext_on.
      * apply upd_valid; auto. lia.
      * intros b Hb Hout. rewrite (Hout v) by auto. now rewrite upd_same.
    + apply upd_valid; auto. lia.
Qed.

Lemma valid_ix_map : forall vs a, valid a -> valid_ix (map card vs) (map a vs).
Proof. intros vs a H. induction vs; simpl; constructor; auto. Qed.

Lemma pick : forall S (h : (nat -> nat) -> Qc) a a0, NoDup S -> valid a -> valid a0 -> ext h ->
  (forall v, ~ In v S -> a0 v = a v) ->
  sumv S (fun b => if ix_eqb (map b S) (map a S) then h b else 0%Qc) a0 = h a.
Proof.
  induction S as [|v S IH]; intros h a a0 HN Ha Ha0 HE Hout.
  - simpl. unfold ix_eqb. destruct (list_eq_dec Nat.eq_dec [] []); [|congruence].
    apply HE. intros v. apply Hout. auto.
  - inversion HN as [|? ? Hv HN']; subst. cbn [AssignSpec.sumv].
    rewrite (qsum_map_ext _ _ (fun x => if Nat.eqb x (a v) then h a else 0%Qc)).
    + rewrite <- qsum_filter.
      assert (F : filter (fun x => Nat.eqb x (a v)) (seq 0 (card v)) = [a v]).
      { specialize (Ha v). revert Ha. generalize (a v) as k, (card v) as n. clear.
        intros k n H. assert (G : forall n s, s <= k < s + n ->
          filter (fun x => Nat.eqb x k) (seq s n) = [k]).
        { clear. induction n as [|n IH]; intros s H; [lia|]. simpl.
          destruct (Nat.eqb_spec s k) as [->|N].
          - f_equal. assert (Z : forall n s, k < s -> filter (fun x => Nat.eqb x k) (seq s n) = []).
            { clear. induction n as [|n IH]; intros s H; auto. simpl.
              destruct (Nat.eqb_spec s k); [lia|]. apply IH; lia. }
            apply Z; lia.
          - apply IH; lia. }
        apply G; lia. }
      rewrite F. simpl. ring.
    + intros x Hx. apply in_seq in Hx.
      assert (Hu : valid (upd a0 v x)) by (apply upd_valid; auto; lia).
      destruct (Nat.eqb_spec x (a v)) as [E|N].
      * rewrite <- (IH h a (upd a0 v x)); auto.
        -- apply sumv_ext_on; auto. intros b Hb Hbo. cbn [map].
           assert (Ev : b v = a v) by (rewrite Hbo by auto; now rewrite upd_same).
           unfold ix_eqb. destruct (list_eq_dec Nat.eq_dec (b v :: map b S) (a v :: map a S)) as [E1|N1];
             destruct (list_eq_dec Nat.eq_dec (map b S) (map a S)) as [E2|N2]; auto; congruence.
        -- intros w Hw. unfold upd. destruct (Nat.eqb_spec w v) as [->|Nw]; [congruence|].
           apply Hout. simpl. intros [K|K]; [congruence|tauto].
      * apply sumv_zero; auto. intros b Hb Hbo. cbn [map].
        assert (Ev : b v = x) by (rewrite Hbo by auto; now rewrite upd_same).
        unfold ix_eqb. destruct (list_eq_dec Nat.eq_dec (b v :: map b S) (a v :: map a S)) as [E1|]; auto.
        inversion E1. congruence.
Qed.

(** Mathematical marginal of a table, in terms of assignments. *)
Lemma marg_sumv : forall vs S p m a, table card vs p -> NoDup S -> incl S vs -> valid a ->
  (forall b, sel m (map b vs) = map b S) ->
  marg p m (map a S) = sumv (minus vs S) (den vs p) a.
Proof.
  intros vs S p m a (HN & HW & HD) HS HI Ha Hm.
  rewrite marg_as_if, HD.
  rewrite (sum_all_ix vs _ a) by auto.
  rewrite (sumv_perm vs (S ++ minus vs S)).
  - rewrite sumv_app.
    rewrite <- (pick S (sumv (minus vs S) (den vs p)) a a) at 1; auto.
    + apply sumv_ext; auto. intros b Hb.
      rewrite (sumv_ext_on _ _ (fun c => (if ix_eqb (map b S) (map a S) then 1%Qc else 0%Qc) * den vs p c)%Qc b); auto.
      * rewrite sumv_scale_gen; auto. destruct (ix_eqb _ _); ring.
      * intros c Hc Hco. rewrite Hm.
        assert (E : map c S = map b S).
        { apply map_ext_in. intros v Hv. apply Hco. rewrite minus_in. tauto. }
        rewrite E. unfold den. destruct (ix_eqb _ _); ring.
    + apply sumv_is_ext. apply (dep_ext vs). apply den_dep.
  - now apply split_perm.
  - intros b c E. assert (E1 : map b vs = map c vs) by (apply map_ext; auto). now rewrite E1.
Qed.

Lemma total_sumv : forall vs p a, table card vs p -> valid a ->
  total p = sumv vs (den vs p) a.
Proof.
  intros vs p a (HN & HW & HD) Ha. unfold total. rewrite HD. now apply sum_all_ix.
Qed.

Lemma den_nonneg : forall vs p a, table card vs p -> nonneg p -> valid a -> (0 <= den vs p a)%Qc.
Proof.
  intros vs p a (HN & (HP & HL & _) & HD) H Ha. unfold den, cell. unfold nonneg in H.
  rewrite Forall_forall in H. apply H. apply nth_In. rewrite HL. apply flat_lt.
  rewrite HD. now apply valid_ix_map.
Qed.

(** Every cell of a table is its value at some assignment. *)
Lemma ix_assignment : forall vs ix a0, NoDup vs -> valid a0 -> valid_ix (map card vs) ix ->
  exists a, valid a /\ map a vs = ix /\ forall v, ~ In v vs -> a v = a0 v.
Proof.
  induction vs as [|v vs IH]; intros ix a0 HN Ha H; simpl in H.
  - exists a0. inversion H; subst. auto.
  - inversion H as [|x d ix' ds Hx H' E1 E2]; subst. inversion HN as [|? ? Hv HN']; subst.
    destruct (IH ix' a0 HN' Ha H') as (a & Va & Ea & Oa).
    exists (upd a v x). split; [|split].
    + apply upd_valid; auto.
    + simpl. rewrite upd_same. f_equal. rewrite <- Ea. apply map_ext_in.
      intros w Hw. apply upd_other. intros ->. auto.
    + intros w Hw. rewrite upd_other.
      * apply Oa. intros K. apply Hw. simpl. auto.
      * intros ->. apply Hw. simpl. auto.
Qed.

Lemma valid_zero : (forall v, 0 < card v) -> valid (fun _ => 0).
Proof. intros H v. apply H. Qed.

Lemma nonneg_den : forall vs p, (forall v, 0 < card v) -> table card vs p ->
  (forall a, valid a -> (0 <= den vs p a)%Qc) -> nonneg p.
Proof.
  intros vs p HC (HN & HW & HD) H. unfold nonneg. apply Forall_forall. intros x Hx.
  apply (In_nth _ _ 0%Qc) in Hx. destruct Hx as (k & Hk & <-).
  rewrite (wf_data_length _ HW) in Hk. rewrite <- cell_unflat by auto.
  destruct HW as (HP & HW').
  assert (V : valid_ix (map card vs) (unflat (dims p) k)).
  { rewrite <- HD. apply unflat_valid. auto. }
  destruct (ix_assignment vs _ (fun _ => 0) HN (valid_zero HC) V) as (a & Va & Ea & _).
  rewrite <- Ea. apply H. auto.
Qed.

Lemma table_eq : forall vs p q, (forall v, 0 < card v) -> table card vs p -> table card vs q ->
  (forall a, valid a -> den vs p a = den vs q a) -> p = q.
Proof.
  intros vs p q HC (HN & HW & HD) (_ & HW2 & HD2) H. apply pot_ext; auto; try congruence.
  intros ix V. rewrite HD in V.
  destruct (ix_assignment vs _ (fun _ => 0) HN (valid_zero HC) V) as (a & Va & Ea & _).
  rewrite <- Ea. apply H. auto.
Qed.

End Sums.

(** ** Products *)
Lemma qprod_app : forall a b, qprod (a ++ b) = (qprod a * qprod b)%Qc.
Proof. induction a; intros; simpl; try rewrite IHa; ring. Qed.

Lemma qprod_perm : forall a b, Permutation a b -> qprod a = qprod b.
Proof. induction 1; simpl; try congruence; ring. Qed.

Lemma qprod_map_ext : forall A (f g : A -> Qc) l,
  (forall x, In x l -> f x = g x) -> qprod (map f l) = qprod (map g l).
Proof. intros. f_equal. apply map_ext_in; auto. Qed.

Lemma qprod_map_mul : forall A (f g : A -> Qc) l,
  qprod (map (fun x => (f x * g x)%Qc) l) = (qprod (map f l) * qprod (map g l))%Qc.
Proof. induction l; simpl; try rewrite IHl; ring. Qed.

Lemma Qcinv_0 : (/ 0 = 0)%Qc.
Proof. apply Qc_is_canon; reflexivity. Qed.

Lemma Qcinv_mul : forall a b, (/ (a * b) = / a * / b)%Qc.
Proof.
  intros a b. destruct (Qc_eq_dec a 0%Qc) as [->|Ha].
  { rewrite Qcinv_0. replace (0 * b)%Qc with 0%Qc by ring. rewrite Qcinv_0. ring. }
  destruct (Qc_eq_dec b 0%Qc) as [->|Hb].
  { rewrite Qcinv_0. replace (a * 0)%Qc with 0%Qc by ring. rewrite Qcinv_0. ring. }
  assert (Hab : (a * b <> 0)%Qc).
  { intros E. apply Qcmult_integral in E. tauto. }
  field. auto.
Qed.

Lemma qprod_inv : forall A (f : A -> Qc) l,
  qprod (map (fun x => (/ f x)%Qc) l) = (/ qprod (map f l))%Qc.
Proof.
  induction l; simpl.
  - reflexivity.
  - rewrite IHl, Qcinv_mul. reflexivity.
Qed.

Lemma qprod_nonneg : forall l, (forall x, In x l -> (0 <= x)%Qc) -> (0 <= qprod l)%Qc.
Proof.
  induction l as [|x l IH]; intros H; simpl.
  - discriminate.
  - apply Qc_mul_nonneg; [apply H; simpl; auto | apply IH; intros; apply H; simpl; auto].
Qed.

Lemma qprod_zero : forall l, In 0%Qc l -> qprod l = 0%Qc.
Proof.
  induction l as [|x l IH]; simpl; intros H; [contradiction|].
  destruct H as [->|H]; [ring|]. rewrite IH by auto. ring.
Qed.
