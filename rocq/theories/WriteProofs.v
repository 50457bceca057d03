(** * Proofs: printed numbers *)
From Coq Require Import String Ascii QArith.QArith QArith.Qcanon Field.
From Verif Require Import Base BaseProofs StringSpec VariableModel JoinTreeModel NipModel ParseModel
  SeriesFileModel NetLexModel NetGrammarModel NetSpec WriteModel WriteSpec.
Import ListNotations.
Open Scope nat_scope.
Local Notation chars := list_ascii_of_string.

Add Field Qcfield_write : Qcft.

(** ** Digits *)
Lemma decimal_snoc : forall l d, decimal (l ++ [d]) = (10 * decimal l + Z.of_nat d)%Z.
Proof. intros. unfold decimal. now rewrite fold_left_app. Qed.
Lemma decimal_app : forall b a, decimal (a ++ b) = (decimal a * 10 ^ Z.of_nat (length b) + decimal b)%Z.
Proof.
  induction b as [|d b IH] using rev_ind; intros a.
  - rewrite app_nil_r. cbn. lia.
  - rewrite app_assoc, !decimal_snoc, IH, app_length. cbn [length].
    rewrite Nat2Z.inj_add, Z.pow_add_r by lia. change (10 ^ Z.of_nat 1)%Z with 10%Z. ring.
Qed.

Lemma decimal_digits_ok : forall fuel z, (0 <= z < 2 ^ Z.of_nat fuel)%Z -> fuel <> 0 ->
  decimal (decimal_digits fuel z) = z /\ Forall (fun d => d < 10) (decimal_digits fuel z) /\
  decimal_digits fuel z <> [] /\ length (decimal_digits fuel z) <= fuel.
Proof.
  induction fuel as [|fuel IH]; intros z Hz HF; [congruence|]. cbn [decimal_digits].
  destruct (z <? 10)%Z eqn:E.
  - apply Z.ltb_lt in E. split; [|split; [|split]].
    + unfold decimal. cbn [fold_left]. lia.
    + constructor; [lia|constructor].
    + discriminate.
    + cbn. lia.
  - apply Z.ltb_ge in E. rewrite Nat2Z.inj_succ, Z.pow_succ_r in Hz by lia.
    destruct (Nat.eq_dec fuel 0) as [->|NZ]; [cbn in Hz; lia|].
    assert (B : (0 <= z / 10 < 2 ^ Z.of_nat fuel)%Z).
    { split; [apply Z.div_pos; lia|]. apply Z.div_lt_upper_bound; lia. }
    destruct (IH (z / 10)%Z B NZ) as (A1 & A2 & A3 & A4). assert (M := Z.mod_pos_bound z 10 ltac:(lia)). repeat split.
    + rewrite decimal_snoc, A1, Z2Nat.id by lia. rewrite (Z.div_mod z 10) at 3 by lia. lia.
    + apply Forall_app. split; auto. constructor; [lia|constructor].
    + intros K. now apply app_eq_nil in K.
    + rewrite app_length. cbn. lia.
Qed.

Lemma print_nat_digits : forall z, (0 <= z)%Z -> exists l, print_nat z = digits l /\ decimal l = z /\
  Forall (fun d => d < 10) l /\ l <> [] /\ ((z <= INT_MAX)%Z -> length l <= 31) /\ ((z <= 1)%Z -> length l <= 1).
Proof.
  intros z Hz. unfold print_nat, digits. set (fuel := S (Z.to_nat (Z.log2 z))).
  exists (decimal_digits fuel z). split; [reflexivity|].
  assert (B : (0 <= z < 2 ^ Z.of_nat fuel)%Z).
  { split; auto. unfold fuel. rewrite Nat2Z.inj_succ, Z2Nat.id by apply Z.log2_nonneg.
    destruct (Z.eq_dec z 0) as [->|NZ]; [reflexivity|]. apply Z.log2_spec. lia. }
  destruct (decimal_digits_ok fuel z B ltac:(discriminate)) as (A1 & A2 & A3 & A4). repeat (split; auto).
  - intros HI. assert (L : (Z.log2 z <= Z.log2 INT_MAX)%Z) by now apply Z.log2_le_mono.
    change (Z.log2 INT_MAX) with 30%Z in L. assert (F : fuel = S (Z.to_nat (Z.log2 z))) by reflexivity.
    assert (P := Z.log2_nonneg z). apply Nat2Z.inj_le. lia.
  - intros HI. unfold fuel. cbn [decimal_digits]. replace (z <? 10)%Z with true by (symmetry; apply Z.ltb_lt; lia). reflexivity.
Qed.

Lemma fixed_digits_ok : forall n z, (0 <= z < 10 ^ Z.of_nat n)%Z ->
  decimal (fixed_digits n z) = z /\ Forall (fun d => d < 10) (fixed_digits n z) /\ length (fixed_digits n z) = n.
Proof.
  induction n as [|n IH]; intros z Hz; cbn [fixed_digits].
  - cbn in *. repeat split; auto. lia.
  - rewrite Nat2Z.inj_succ, Z.pow_succ_r in Hz by lia.
    assert (B : (0 <= z / 10 < 10 ^ Z.of_nat n)%Z).
    { split; [apply Z.div_pos; lia|]. apply Z.div_lt_upper_bound; lia. }
    destruct (IH (z / 10)%Z B) as (A1 & A2 & A4). assert (M := Z.mod_pos_bound z 10 ltac:(lia)). repeat split.
    + rewrite decimal_snoc, A1, Z2Nat.id by lia. rewrite (Z.div_mod z 10) at 3 by lia. lia.
    + apply Forall_app. split; auto. constructor; [lia|constructor].
    + rewrite app_length. cbn. lia.
Qed.

(** ** Words made of digits *)
Lemma digit_word : forall d, d < 10 -> word_char (digit d) /\ digit d <> percent /\ digit d <> zero /\ digit d <> end_of_line.
Proof. intros d Hd. do 10 (destruct d as [|d]; [repeat split; try reflexivity; discriminate|]). lia. Qed.
Definition plain_char (c : ascii) : Prop := word_char c /\ c <> percent /\ c <> zero /\ c <> end_of_line.
Lemma digits_plain : forall l, Forall (fun d => d < 10) l -> Forall plain_char (digits l).
Proof. intros l H. unfold digits. induction H; constructor; auto. now apply digit_word. Qed.

Lemma print_d_ok : forall z, (0 <= z <= INT_MAX)%Z -> numeral (print_d z) (Q2Qc (inject_Z z)) /\
  Forall plain_char (print_d z) /\ print_d z <> [] /\ length (print_d z) <= 31.
Proof.
  intros z Hz. unfold print_d. replace (z <? 0)%Z with false by (symmetry; apply Z.ltb_ge; lia).
  destruct (print_nat_digits z ltac:(lia)) as (l & -> & D & F & NE & L & _). repeat split.
  - assert (N := numeral_of false [] l [] [] [] 0%Z). cbn [app length] in N.
    rewrite !app_nil_r in N. rewrite D in N. cbn [signed] in N.
    replace (Q2Qc (inject_Z z)) with (Q2Qc (inject_Z z) * power_of_ten (0 - Z.of_nat 0))%Qc.
    + apply N; auto. * cbn. auto. * constructor.
    + unfold power_of_ten. cbn. ring_simplify. reflexivity.
  - now apply digits_plain.
  - destruct l; [congruence|discriminate].
  - unfold digits. rewrite map_length. apply L. lia.
Qed.

(** ** Six decimals *)
Lemma millionths_near : forall q, (0 <= q)%Qc -> (0 <= millionths q)%Z /\
  (2 * Zpos (Qden (this q)) * millionths q <= 2 * 1000000 * Qnum (this q) + Zpos (Qden (this q)))%Z /\
  (2 * 1000000 * Qnum (this q) <= 2 * Zpos (Qden (this q)) * millionths q + Zpos (Qden (this q)))%Z.
Proof.
  intros q Hq. assert (P : (0 <= Qnum (this q))%Z).
  { unfold Qcle in Hq. cbn in Hq. unfold Qle in Hq. cbn in Hq. lia. }
  unfold millionths. rewrite Z.abs_eq by auto. set (n := (Qnum (this q) * 1000000)%Z). set (d := Zpos (Qden (this q))).
  assert (DP : (0 < d)%Z) by (unfold d; lia).
  assert (E := Z.div_mod n d ltac:(lia)). assert (B := Z.mod_pos_bound n d DP). assert (NN : (0 <= n / d)%Z) by (apply Z.div_pos; unfold n; lia).
  fold n d. assert (NE : (2 * 1000000 * Qnum (this q) = 2 * n)%Z) by (unfold n; lia). rewrite !NE.
  set (k := (n / d)%Z) in *. set (r := (n mod d)%Z) in *.
  destruct (Z.compare_spec (2 * r) d) as [C|C|C]; [destruct (Z.even k)|..]; repeat split; nia.
Qed.

Lemma Qc_le_Z : forall a b : Z, (a <= b)%Z -> (Q2Qc (inject_Z a) <= Q2Qc (inject_Z b))%Qc.
Proof. intros a b H. unfold Qcle. cbn [this Q2Qc]. rewrite !Qred_correct. now rewrite <- Zle_Qle. Qed.

Lemma Q2Qc_mul : forall a b : Z, (Q2Qc (inject_Z (a * b)) = Q2Qc (inject_Z a) * Q2Qc (inject_Z b))%Qc.
Proof. intros. apply Qc_is_canon. cbn [this Q2Qc Qcmult]. rewrite !Qred_correct. now rewrite inject_Z_mult. Qed.
Lemma Q2Qc_add : forall a b : Z, (Q2Qc (inject_Z (a + b)) = Q2Qc (inject_Z a) + Q2Qc (inject_Z b))%Qc.
Proof. intros. apply Qc_is_canon. cbn [this Q2Qc Qcplus]. rewrite !Qred_correct. now rewrite inject_Z_plus. Qed.

Lemma Qc_num_den : forall q : Qc, (q * Q2Qc (inject_Z (Zpos (Qden (this q)))) = Q2Qc (inject_Z (Qnum (this q))))%Qc.
Proof.
  intros q. apply Qc_is_canon. cbn [this Q2Qc Qcmult]. rewrite !Qred_correct. destruct (this q) as [n d]. cbn [Qnum Qden].
  unfold Qeq, Qmult, inject_Z. cbn [Qnum Qden]. lia.
Qed.

Lemma rounded_of : forall q k, (0 <= q)%Qc ->
  (2 * Zpos (Qden (this q)) * k <= 2 * 1000000 * Qnum (this q) + Zpos (Qden (this q)))%Z ->
  (2 * 1000000 * Qnum (this q) <= 2 * Zpos (Qden (this q)) * k + Zpos (Qden (this q)))%Z ->
  forall y, (y * million = Q2Qc (inject_Z k))%Qc -> rounded q y.
Proof.
  intros q k Hq H1 H2 y Hy. assert (N := Qc_num_den q). set (n := Qnum (this q)) in *. set (d := Zpos (Qden (this q))) in *.
  assert (DP : (0 < Q2Qc (inject_Z d))%Qc).
  { unfold Qclt. cbn [this Q2Qc]. rewrite !Qred_correct. unfold d. reflexivity. }
  split; [exists k; auto|].
  apply Qc_le_Z in H1. apply Qc_le_Z in H2. rewrite !Q2Qc_add, !Q2Qc_mul, <- N, <- Hy in H1, H2.
  change (Q2Qc (inject_Z 1000000)) with million in *.
  replace (Q2Qc (inject_Z 2)) with (1 + 1)%Qc in * by (apply Qc_is_canon; reflexivity).
  split; apply (Qcmult_lt_0_le_reg_r _ _ _ DP); apply Qcle_minus_iff.
  - apply Qcle_minus_iff in H1. match type of H1 with (0 <= ?x)%Qc => match goal with |- (0 <= ?z)%Qc => replace z with x by ring end end. exact H1.
  - apply Qcle_minus_iff in H2. match type of H2 with (0 <= ?x)%Qc => match goal with |- (0 <= ?z)%Qc => replace z with x by ring end end. exact H2.
Qed.

Definition round6 (q : Qc) : Qc := (Q2Qc (inject_Z (millionths q)) * power_of_ten (0 - Z.of_nat 6))%Qc.
Lemma print_f_ok : forall q, (0 <= q)%Qc -> (q <= 1)%Qc -> numeral (print_f q) (round6 q) /\ rounded q (round6 q) /\
  Forall plain_char (print_f q) /\ print_f q <> [] /\ length (print_f q) <= 8.
Proof.
  intros q H0 H1. destruct (millionths_near q H0) as (K0 & K1 & K2). unfold print_f. set (k := millionths q) in *.
  assert (P : (0 <= Qnum (this q))%Z). { unfold Qcle in H0. cbn in H0. unfold Qle in H0. cbn in H0. lia. }
  replace (Qnum (this q) <? 0)%Z with false by (symmetry; apply Z.ltb_ge; lia). cbn [app].
  assert (KB : (k <= 1000000)%Z).
  { assert (Qnum (this q) <= Zpos (Qden (this q)))%Z. { unfold Qcle in H1. cbn in H1. unfold Qle in H1. cbn in H1. lia. } nia. }
  destruct (print_nat_digits (k / 1000000) ltac:(apply Z.div_pos; lia)) as (l & -> & D & F & NE & _ & L).
  assert (M := Z.mod_pos_bound k 1000000 ltac:(lia)).
  destruct (fixed_digits_ok 6 (k mod 1000000) ltac:(change (10 ^ Z.of_nat 6)%Z with 1000000%Z; lia)) as (G1 & G2 & G3).
  set (fp := fixed_digits 6 (k mod 1000000)) in *. change (map digit_char fp) with (digits fp). change (str ".") with (chars ".").
  assert (L1 : length l <= 1) by (apply L; apply Z.div_le_upper_bound; lia).
  unfold round6. fold k. split; [|split; [|split; [|split]]].
  - assert (N := numeral_of false [] l fp (chars ".") [] 0%Z). rewrite G3 in N. rewrite app_nil_r in N. cbn [app signed] in N.
    rewrite decimal_app, D, G1, G3 in N. change (10 ^ Z.of_nat 6)%Z with 1000000%Z in N.
    rewrite (Z.mul_comm (k / 1000000)), <- Z.div_mod in N by lia. apply N; auto.
    + cbn. auto. + apply Forall_app. auto. + intros K. apply app_eq_nil in K. tauto. + constructor.
  - apply (rounded_of q k H0 K1 K2). rewrite <- Qcmult_assoc.
    replace (power_of_ten (0 - Z.of_nat 6) * million)%Qc with 1%Qc; [ring|]. apply Qc_is_canon. reflexivity.
  - apply Forall_app. split; [now apply digits_plain|]. apply Forall_app. split; [|now apply digits_plain].
    repeat constructor; try reflexivity; discriminate.
  - destruct l; [congruence|discriminate].
  - unfold digits. rewrite !app_length, !map_length. fold fp. rewrite G3. cbn. lia.
Qed.
