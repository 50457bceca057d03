(** * A data file that contradicts itself *)
From Coq Require Import String Ascii QArith Qcanon Lqa.
From Verif Require Import Base StringSpec PotentialModel PotentialSpec VariableModel AssignSpec NipSpec SliceSpec SeriesFileModel SeriesFileSpec ParseModel ParseSpec
  ParseCheck ParseProofs10 NetLexModel NetGrammarModel NetSpec NetCheck NetProofs3 WriteSpec ToolModel ToolSpec ToolSpec3 ToolCheck BaseProofs SliceProofs4.
Import ListNotations.
Open Scope nat_scope.
Local Notation len := List.length.
Add Field Qcfield_toolcheck3 : Qcft.

Definition cx_data : list ascii := join ["Y"; "low"; ""; "high"; ""; "low"]%string.
Definition cx_low : series := mkSeries [1; 2] [0] 1 [[0]]%Z.
Definition cx_high : series := mkSeries [1; 2] [0] 1 [[1]]%Z.
Definition cx_series : list series := [cx_low; cx_high; cx_low].
Lemma cx_data_file : data_file px_net cx_data tx_cols cx_series.
Proof.
  exists (map list_ascii_of_string ["Y"]%string),
    (map (map list_ascii_of_string) [["low"]; []; ["high"]; []; ["low"]; []])%string.
  split. { split; [vm_compute; intuition discriminate|]. vm_compute. repeat constructor. }
  split. { exists 0. split; [vm_compute; reflexivity|discriminate]. }
  split; [reflexivity|]. split; [repeat constructor; intros []|]. vm_compute. reflexivity.
Qed.

(** No tables make both records probable. *)
Lemma cx_contradicts : forall u, same_network px_net u -> proper u -> positive_tables u ->
  (0 <= probability u [cx_low])%Qc /\ (0 <= probability u [cx_high])%Qc /\ (probability u [cx_low] + probability u [cx_high] <= 1)%Qc.
Proof.
  intros [nodes ds] (E1 & E2 & E3) PR PT. cbn [n_nodes n_potentials] in *. subst nodes.
  destruct ds as [|d0 [|d1 [|d2 [|]]]]; try discriminate E2. injection E2 as C0 C1 C2. injection E3 as P0 P1 P2.
  destruct d0 as [c0 p0 v0], d1 as [c1 p1 v1], d2 as [c2 p2 v2]. cbn [pd_child pd_parents] in *. subst c0 p0 c1 p1 c2 p2.
  set (t := mkNet _ _) in *. set (d0 := mkDecl "X0"%string _ _) in *. set (d1 := mkDecl "X"%string _ _) in *. set (d2 := mkDecl "Y"%string _ _) in *.
  set (q0 := ParseSpec.table_of t d0) in *. set (q1 := ParseSpec.table_of t d1) in *. set (q2 := ParseSpec.table_of t d2) in *.
  set (r0 := fun b => cell q0 [b]). set (r1 := fun x b => cell q1 [x; b]). set (r2 := fun y x => cell q2 [y; x]).
  assert (S : forall y a, y < 3 -> course t (mkSeries [1; 2] [0] 1 [[Z.of_nat y]]) 1 1 a =
      given (Nat.eqb (a 0) y) (Qcmult (r0 (a 2)) (Qcmult (r1 (a 1) (a 2)) (r2 (a 0) (a 1))))).
  { intros y a Hy. destruct y as [|[|[|y]]]; [| | |lia]; unfold course; cbn -[cell Qcmult Q2Qc]; unfold given.
    all: change (den (family_of t d0) (ParseSpec.table_of t d0) (at_step t a 0)) with (r0 (a 2));
      change (den (family_of t d1) (ParseSpec.table_of t d1) (at_step t a 0)) with (r1 (a 1) (a 2));
      change (den (family_of t d2) (ParseSpec.table_of t d2) (at_step t a 0)) with (r2 (a 0) (a 1)).
    all: rewrite andb_true_r. all: change (Pos.to_nat 1) with 1; change (Pos.to_nat 2) with 2.
    all: match goal with |- context [if ?b then _ else _] => destruct b end; ring. }
  set (w := fun x => Qcplus (Qcmult (r1 x 0) (r0 0)) (Qcmult (r1 x 1) (r0 1))).
  assert (L : forall y, y < 2 -> probability t [mkSeries [1; 2] [0] 1 [[Z.of_nat y]]] = Qcplus (Qcmult (r2 y 0) (w 0)) (Qcmult (r2 y 1) (w 1))).
  { intros y Hy. unfold probability, evidence, ToolSpec.total. cbn [map qprod fold_right s_length].
    change (ParseSpec.size t) with 3. cbn [Nat.mul Nat.add seq].
    rewrite (SliceProofs.sumv_ext_free _ _ _ (fun a => given (Nat.eqb (a 0) y) (Qcmult (r0 (a 2)) (Qcmult (r1 (a 1) (a 2)) (r2 (a 0) (a 1))))))
      by (intros; apply S; lia).
    cbn [sumv]. change (card_in t (0 mod 3)) with 3. change (card_in t (1 mod 3)) with 2. change (card_in t (2 mod 3)) with 2.
    unfold w. destruct y as [|[|y]]; [| |lia]; cbn -[Qcmult Qcplus Q2Qc r0 r1 r2]; ring. }
  set (at3 := fun y x b v => nth v [y; x; b] 0).
  assert (Z : forall y x b, y < 3 -> x < 2 -> b < 2 -> valid (card_in t) (at3 y x b)).
  { intros y x b Hy Hx Hb v. destruct v as [|[|[|v]]]; cbn; try lia. destruct v; cbn; lia. }
  assert (N0 : forall b, b < 2 -> (0 <= r0 b)%Qc) by (intros b Hb; apply Qclt_le_weak; exact (PT 2 (at3 0 0 b) ltac:(cbn; lia) ltac:(apply Z; lia))).
  assert (N1 : forall x b, x < 2 -> b < 2 -> (0 <= r1 x b)%Qc)
    by (intros x b Hx Hb; apply Qclt_le_weak; exact (PT 1 (at3 0 x b) ltac:(cbn; lia) ltac:(apply Z; lia))).
  assert (N2 : forall y x, y < 3 -> x < 2 -> (0 <= r2 y x)%Qc)
    by (intros y x Hy Hx; apply Qclt_le_weak; exact (PT 0 (at3 y x 0) ltac:(cbn; lia) ltac:(apply Z; lia))).
  assert (U0 : Qcplus (r0 0) (Qcplus (r0 1) 0%Qc) = 1%Qc) by exact (PR d0 (at3 0 0 0) ltac:(cbn; tauto) ltac:(apply Z; lia)).
  assert (U1 : forall b, b < 2 -> Qcplus (r1 0 b) (Qcplus (r1 1 b) 0%Qc) = 1%Qc) by (intros b Hb; exact (PR d1 (at3 0 0 b) ltac:(cbn; tauto) ltac:(apply Z; lia))).
  assert (U2 : forall x, x < 2 -> Qcplus (r2 0 x) (Qcplus (r2 1 x) (Qcplus (r2 2 x) 0%Qc)) = 1%Qc)
    by (intros x Hx; exact (PR d2 (at3 0 x 0) ltac:(cbn; tauto) ltac:(apply Z; lia))).
  assert (W : forall x, x < 2 -> (0 <= w x)%Qc).
  { intros x Hx. unfold w. rewrite <- (Qcplus_0_r 0). apply Qcplus_le_compat; apply Qc_mul_nonneg; auto. }
  assert (W1 : Qcplus (w 0) (w 1) = 1%Qc).
  { unfold w. assert (A := U1 0 ltac:(lia)). assert (B := U1 1 ltac:(lia)).
    transitivity (Qcplus (Qcmult (Qcplus (r1 0 0) (Qcplus (r1 1 0) 0%Qc)) (r0 0)) (Qcmult (Qcplus (r1 0 1) (Qcplus (r1 1 1) 0%Qc)) (r0 1))); [ring|].
    rewrite A, B, !Qcmult_1_l. rewrite <- U0. ring. }
  change cx_low with (mkSeries [1; 2] [0] 1 [[Z.of_nat 0]]). change cx_high with (mkSeries [1; 2] [0] 1 [[Z.of_nat 1]]). rewrite !L by lia.
  assert (NN : forall y, y < 3 -> Qcle 0%Qc (Qcplus (Qcmult (r2 y 0) (w 0)) (Qcmult (r2 y 1) (w 1)))).
  { intros y Hy. rewrite <- (Qcplus_0_r 0). apply Qcplus_le_compat; apply Qc_mul_nonneg; auto. }
  split; [apply NN; lia|]. split; [apply NN; lia|].
  rewrite <- W1. assert (A := U2 0 ltac:(lia)). assert (B := U2 1 ltac:(lia)).
  assert (E : Qcplus (w 0) (w 1) = Qcplus (Qcplus (Qcplus (Qcmult (r2 0 0) (w 0)) (Qcmult (r2 0 1) (w 1))) (Qcplus (Qcmult (r2 1 0) (w 0)) (Qcmult (r2 1 1) (w 1))))
      (Qcplus (Qcmult (r2 2 0) (w 0)) (Qcmult (r2 2 1) (w 1)))).
  { transitivity (Qcplus (Qcmult (Qcplus (r2 0 0) (Qcplus (r2 1 0) (Qcplus (r2 2 0) 0%Qc))) (w 0)) (Qcmult (Qcplus (r2 0 1) (Qcplus (r2 1 1) (Qcplus (r2 2 1) 0%Qc))) (w 1))); [|ring].
    rewrite A, B. ring. }
  rewrite E. rewrite <- (Qcplus_0_r (Qcplus (Qcplus (Qcmult (r2 0 0) _) _) _)) at 1. apply Qcplus_le_compat; [apply Qcle_refl|apply NN; lia].
Qed.

Lemma square_nonneg : forall p : Q, (0 <= p * p)%Q.
Proof. intros [p q]. unfold Qle, Qmult. cbn [Qnum Qden]. rewrite Z.mul_0_l. apply Z.mul_nonneg_nonneg; [apply Z.square_nonneg|lia]. Qed.
Lemma quarter_product : forall p q : Q, (0 <= p)%Q -> (0 <= q)%Q -> (p + q <= 1)%Q -> (p * q <= 1 # 4)%Q.
Proof.
  intros p q X Y H. assert (S := square_nonneg (p - q)).
  assert (K : (0 <= (1 - (p + q)) * (1 + (p + q)))%Q) by (apply Qmult_le_0_compat; lra).
  nra.
Qed.
Lemma half_product : forall x y : Qc, (0 <= x)%Qc -> (0 <= y)%Qc -> (x + y <= 1)%Qc -> (x * y < Q2Qc (1 # 2))%Qc.
Proof.
  intros x y X Y H. apply Qcle_lt_trans with (Q2Qc (1 # 4)); [|reflexivity].
  unfold Qcle, Qclt in *. cbn [this Q2Qc Qcplus Qcmult] in *. rewrite Qred_correct in *. change (Qred (1 # 4)) with (1 # 4). change (Qred 0) with 0%Q in *. change (Qred 1) with 1%Q in *.
  now apply quarter_product.
Qed.

Lemma cx_pair : forall u, same_network px_net u -> proper u -> positive_tables u -> (probability u [cx_low; cx_high] < Q2Qc (1 # 2))%Qc.
Proof.
  intros u S PR PT. destruct (cx_contradicts u S PR PT) as (A & B & C).
  replace (probability u [cx_low; cx_high]) with (probability u [cx_low] * probability u [cx_high])%Qc; [now apply half_product|].
  unfold probability. cbn [map qprod fold_right]. ring.
Qed.
Lemma cx_all : forall u, same_network px_net u -> proper u -> positive_tables u -> (probability u cx_series < Q2Qc (1 # 2))%Qc.
Proof.
  intros u S PR PT. destruct (cx_contradicts u S PR PT) as (A & B & C). assert (D := cx_pair u S PR PT).
  assert (A1 : (probability u [cx_low] <= 1)%Qc).
  { eapply Qcle_trans; [|exact C]. rewrite <- (Qcplus_0_r (probability u [cx_low])) at 1. apply Qcplus_le_compat; [apply Qcle_refl|exact B]. }
  assert (P2 : (0 <= probability u [cx_low; cx_high])%Qc).
  { replace (probability u [cx_low; cx_high]) with (probability u [cx_low] * probability u [cx_high])%Qc; [now apply Qc_mul_nonneg|].
    unfold probability. cbn [map qprod fold_right]. ring. }
  replace (probability u cx_series) with (probability u [cx_low] * probability u [cx_low; cx_high])%Qc.
  - eapply Qcle_lt_trans; [|exact D]. rewrite <- (Qcmult_1_l (probability u [cx_low; cx_high])) at 2. now apply Qcmult_le_compat_r.
  - unfold probability, cx_series. cbn [map qprod fold_right]. ring.
Qed.
