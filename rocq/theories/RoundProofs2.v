(** * The format double rounds with relative error at most 2^-53 *)
From Coq Require Import ZArith QArith Qcanon Field Lia.
From Verif Require Import Base BaseProofs RoundSpec RoundProofs.
Open Scope Z_scope.

Lemma nearest_ok : forall a b, 0 < b -> 2 * Z.abs (nearest a b * b - a) <= b.
Proof.
  intros a b H. unfold nearest. pose proof (Z.div_mod a b ltac:(lia)) as E.
  pose proof (Z.mod_pos_bound a b H) as B. set (q := a / b) in *. set (r := a mod b) in *.
  destruct (Z.ltb_spec (2 * r) b); [nia|]. destruct (Z.ltb_spec b (2 * r)); [nia|].
  destruct (Z.even q); nia.
Qed.

Lemma pow2_pos : forall k, 0 <= k -> 0 < 2 ^ k.
Proof. intros. apply Z.pow_pos_nonneg; lia. Qed.

Lemma binade_ok : forall n d, 0 < n -> 0 < d ->
  let b := binade n d in d * 2 ^ Z.max 0 b <= n * 2 ^ Z.max 0 (- b) < 2 * (d * 2 ^ Z.max 0 b).
Proof.
  intros n d Hn Hd. unfold binade. cbv zeta.
  pose proof (Z.log2_spec n Hn) as (N1 & N2). pose proof (Z.log2_spec d Hd) as (D1 & D2).
  pose proof (Z.log2_nonneg n). pose proof (Z.log2_nonneg d).
  set (ln := Z.log2 n) in *. set (ld := Z.log2 d) in *. rewrite Z.pow_succ_r in N2, D2 by lia.
  assert (P : 2 ^ ld * 2 ^ Z.max 0 (ln - ld) = 2 ^ ln * 2 ^ Z.max 0 (- (ln - ld))).
  { rewrite <- !Z.pow_add_r by lia. f_equal. lia. }
  pose proof (pow2_pos (Z.max 0 (ln - ld)) ltac:(lia)). pose proof (pow2_pos (Z.max 0 (- (ln - ld))) ltac:(lia)).
  set (A := 2 ^ Z.max 0 (ln - ld)) in *. set (B := 2 ^ Z.max 0 (- (ln - ld))) in *.
  set (u := 2 ^ ln) in *. set (w := 2 ^ ld) in *.
  destruct (Z.leb_spec (d * A) (n * B)) as [C|C].
  - fold A B. split; auto. apply Z.lt_le_trans with (2 * u * B); [nia|]. nia.
  - assert (Q : 2 ^ Z.max 0 (- (ln - ld - 1)) * A = 2 * 2 ^ Z.max 0 (ln - ld - 1) * B).
    { unfold A, B. rewrite <- Z.pow_succ_r by lia. rewrite <- !Z.pow_add_r by lia. f_equal. lia. }
    pose proof (pow2_pos (Z.max 0 (ln - ld - 1)) ltac:(lia)). pose proof (pow2_pos (Z.max 0 (- (ln - ld - 1))) ltac:(lia)).
    set (A' := 2 ^ Z.max 0 (ln - ld - 1)) in *. set (B' := 2 ^ Z.max 0 (- (ln - ld - 1))) in *.
    assert (L : d * A < 2 * n * B) by nia.
    split.
    + apply Z.mul_le_mono_pos_r with A; [lia|]. replace (n * B' * A) with (n * (B' * A)) by ring. rewrite Q. nia.
    + apply Z.mul_lt_mono_pos_r with A; [lia|]. replace (n * B' * A) with (n * (B' * A)) by ring. rewrite Q. nia.
Qed.

Lemma mantissa_ok : forall n d, 0 < n -> 0 < d -> let e := binade n d - 52 in
  2 ^ 52 * (d * 2 ^ Z.max 0 e) <= n * 2 ^ Z.max 0 (- e) < 2 ^ 53 * (d * 2 ^ Z.max 0 e).
Proof.
  intros n d Hn Hd e. destruct (binade_ok n d Hn Hd) as (L & U). set (b := binade n d) in *.
  assert (Q : 2 ^ Z.max 0 (- e) * 2 ^ Z.max 0 b = 2 ^ 52 * 2 ^ Z.max 0 (- b) * 2 ^ Z.max 0 e).
  { rewrite <- !Z.pow_add_r by lia. f_equal. unfold e. lia. }
  pose proof (pow2_pos (Z.max 0 b) ltac:(lia)). pose proof (pow2_pos (Z.max 0 e) ltac:(lia)).
  change (2 ^ 53) with (2 * 2 ^ 52). pose proof (pow2_pos 52 ltac:(lia)).
  set (P := 2 ^ 52) in *. set (X := 2 ^ Z.max 0 b) in *. set (Y := 2 ^ Z.max 0 e) in *.
  set (W := 2 ^ Z.max 0 (- e)) in *. set (V := 2 ^ Z.max 0 (- b)) in *.
  split.
  - apply Z.mul_le_mono_pos_r with X; [lia|]. replace (n * W * X) with (n * (W * X)) by ring. rewrite Q.
    replace (n * (P * V * Y)) with ((P * Y) * (n * V)) by ring. replace (P * (d * Y) * X) with ((P * Y) * (d * X)) by ring.
    apply Z.mul_le_mono_nonneg_l; nia.
  - apply Z.mul_lt_mono_pos_r with X; [lia|]. replace (n * W * X) with (n * (W * X)) by ring. rewrite Q.
    replace (n * (P * V * Y)) with ((P * Y) * (n * V)) by ring.
    replace (2 * P * (d * Y) * X) with ((P * Y) * (2 * (d * X))) by ring. apply Z.mul_lt_mono_pos_l; nia.
Qed.

Lemma quotient_close : forall (n M : Z) (d D K : positive),
  Zpos K * Z.abs (M * Zpos d - n * Zpos D) <= n * Zpos D ->
  ((n # d) - (1 # K) * (n # d) <= M # D)%Q /\ (M # D <= (n # d) + (1 # K) * (n # d))%Q.
Proof.
  intros n M d D K H. unfold Qle, Qminus, Qopp, Qplus, Qmult. cbn [Qnum Qden]. rewrite !Pos2Z.inj_mul.
  set (d' := Zpos d) in *. set (D' := Zpos D) in *. set (K' := Zpos K) in *.
  assert (0 < d') by reflexivity. assert (0 < K') by reflexivity. split.
  - replace ((n * (K' * d') + - (1 * n) * d') * D') with (d' * (K' * (n * D') - n * D')) by ring.
    replace (M * (d' * (K' * d'))) with (d' * (K' * (M * d'))) by ring.
    apply Z.mul_le_mono_nonneg_l; [lia|]. nia.
  - replace ((n * (K' * d') + 1 * n * d') * D') with (d' * (K' * (n * D') + n * D')) by ring.
    replace (M * (d' * (K' * d'))) with (d' * (K' * (M * d'))) by ring.
    apply Z.mul_le_mono_nonneg_l; [lia|]. nia.
Qed.

Lemma double_rounding : rounding unit_roundoff double.
Proof.
  intros x y Hx E. unfold double in E. destruct (qzero x) eqn:Z0.
  - apply qzero_true in Z0. subst. inversion E; subst. split; discriminate.
  - apply qzero_false in Z0. destruct x as [[n d] Hc]. cbn [this Qnum Qden] in E.
    assert (Hn : 0 < n).
    { assert (0 <= n) by (unfold Qcle, Qle in Hx; cbn in Hx; lia).
      assert (n <> 0); [|lia]. intros ->. apply Z0. apply Qc_is_canon. unfold Qeq. reflexivity. }
    destruct (Z.ltb_spec n 0) as [?|_]; [lia|]. rewrite (Z.abs_eq n) in E by lia.
    set (e := binade n (Zpos d) - 52) in *. set (a := n * 2 ^ Z.max 0 (- e)) in *.
    set (b := Zpos d * 2 ^ Z.max 0 e) in *. set (m := nearest a b) in *.
    destruct ((e <? -1074) || (971 <? e) || ((e =? 971) && (m =? 2 ^ 53)))%Z%bool; [discriminate|].
    inversion E; subst y. clear E.
    destruct (mantissa_ok n (Zpos d) Hn ltac:(lia)) as (L & _). fold e a b in L.
    assert (Hb : 0 < b) by (unfold b; apply Z.mul_pos_pos; [reflexivity|apply pow2_pos; lia]).
    pose proof (nearest_ok a b Hb) as C. fold m in C.
    assert (P : 0 < 2 ^ Z.max 0 (- e)) by (apply pow2_pos; lia).
    set (D := Z.to_pos (2 ^ Z.max 0 (- e))). assert (ED : Zpos D = 2 ^ Z.max 0 (- e)) by (unfold D; now apply Z2Pos.id).
    destruct (quotient_close n (m * 2 ^ Z.max 0 e) d D (2 ^ 53)) as (Q1 & Q2).
    { rewrite ED. fold a. replace (m * 2 ^ Z.max 0 e * Zpos d) with (m * b) by (unfold b; ring).
      change (Zpos (2 ^ 53)) with (2 * 2 ^ 52). pose proof (pow2_pos 52 ltac:(lia)).
      set (T := 2 ^ 52) in *. nia. }
    unfold scaled. fold D. unfold unit_roundoff.
    split; unfold Qcle; cbn [this Q2Qc Qcminus Qcplus Qcopp Qcmult]; rewrite !Qred_correct; assumption.
Qed.

(** What is returned has 53 bits. *)
Lemma double_format : forall x y, (0 < x)%Qc -> double x = Ok y ->
  exists m e, y = scaled m e /\ 2 ^ 52 <= m <= 2 ^ 53 /\ -1074 <= e <= 971 /\ (e = 971 -> m < 2 ^ 53).
Proof.
  intros x y Hx E. unfold double in E. destruct (qzero x) eqn:Z0.
  - apply qzero_true in Z0. subst. now apply Qclt_not_eq in Hx.
  - destruct x as [[n d] Hc]. cbn [this Qnum Qden] in E.
    assert (Hn : 0 < n) by (unfold Qclt, Qlt in Hx; cbn in Hx; lia).
    destruct (Z.ltb_spec n 0) as [?|_]; [lia|]. rewrite (Z.abs_eq n) in E by lia.
    set (e := binade n (Zpos d) - 52) in *. set (a := n * 2 ^ Z.max 0 (- e)) in *.
    set (b := Zpos d * 2 ^ Z.max 0 e) in *. set (m := nearest a b) in *.
    destruct ((e <? -1074) || (971 <? e) || ((e =? 971) && (m =? 2 ^ 53)))%Z%bool eqn:T; [discriminate|].
    inversion E; subst y. clear E. exists m, e. split; auto.
    destruct (mantissa_ok n (Zpos d) Hn ltac:(lia)) as (L & U). fold e a b in L, U.
    assert (Hb : 0 < b) by (unfold b; apply Z.mul_pos_pos; [reflexivity|apply pow2_pos; lia]).
    pose proof (nearest_ok a b Hb) as C. fold m in C.
    apply Bool.orb_false_iff in T. destruct T as (T & T3). apply Bool.orb_false_iff in T. destruct T as (T1 & T2).
    assert (B : 2 ^ 52 <= m <= 2 ^ 53).
    { change (2 ^ 53) with (2 * 2 ^ 52) in *. set (K := 2 ^ 52) in *. nia. }
    repeat split; lia.
Qed.
