(** * Rounded arithmetic: one message *)
From Coq Require Import ZArith QArith Qcanon Field Lia Permutation.
From Verif Require Import Base BaseProofs PotentialModel PotentialSpec PotentialProofs PotentialProofs2
  PotentialProofs3 VariableModel VariableProofs JoinTreeModel AssignSpec AssignProofs JoinTreeSpec
  JoinTreeProofs RoundModel RoundSpec RoundProofs RoundProofs3.
Import ListNotations.
Open Scope nat_scope.
Local Open Scope res_scope.
Add Field QcfieldRound4 : Qcft.

Section Messages.
Variable u : Qc.
Variable fl : Qc -> Qc.
Hypothesis Hu0 : (0 <= u)%Qc.
Hypothesis Hu1 : (u < 1)%Qc.
Hypothesis Hfl : forall x, (0 <= x)%Qc -> near u 1 x (fl x).
Variable card : nat -> nat.
Variable N : nat.
Local Notation valid := (valid card).
Local Notation sumv := (sumv card).
Local Notation shape_ok := (shape_ok card).

Lemma near_sumv : forall k vs f g a, valid a -> (forall b, valid b -> near u k (f b) (g b)) ->
  near u k (sumv vs f a) (sumv vs g a).
Proof.
  induction vs as [|v vs IH]; intros f g a Ha H; cbn [AssignSpec.sumv]; auto.
  apply near_qsum; auto. intros x Hx. apply in_seq in Hx. apply IH; auto. apply upd_valid; auto. lia.
Qed.

Lemma r_marginalise_table : forall C S src dst m, (forall v, 0 < card v) ->
  table card C src -> nonneg src -> prod (map card C) <= N -> table card S dst -> incl S C ->
  length S <= length C -> Forall (fun k => k < length C) m ->
  (forall b : nat -> nat, sel m (map b C) = map b S) ->
  exists dst', r_general_marginalise (rt fl) src dst m = Ok (dst', NO_ERROR) /\
    table card S dst' /\
    forall a, valid a -> near u N (sumv (minus C S) (den C src) a) (den S dst' a).
Proof.
  intros C S src dst m HC TC HP HN TS HI HL HF Hm.
  assert (TC' := TC). destruct TC' as (NC & WC & DC). destruct TS as (NS & WS & DS).
  destruct (r_general_marginalise_ok u fl Hu0 Hu1 Hfl src dst m) as (dst' & E & D & W & H); auto.
  - split.
    + rewrite DC, map_length. auto.
    + rewrite DC, DS. apply Hm.
  - unfold dimensionality. rewrite DC, DS, !map_length. auto.
  - exists dst'. split; [exact E|]. split; [repeat split; auto; try congruence; apply W|].
    intros a Ha. unfold den at 2. rewrite <- (marg_sumv card C S src m a); auto.
    apply near_le with (length (data src)); auto.
    + rewrite (wf_data_length src WC), DC. exact HN.
    + apply H. rewrite DS. now apply valid_ix_map.
Qed.

Lemma r_absorb_table : forall C S num den0 target m,
  (forall v, 0 < card v) -> nonneg target -> nonneg num -> nonneg den0 -> table card C target -> table card S num -> table card S den0 ->
  length S <= length C -> length m = length S -> Forall (fun k => k < length C) m ->
  (forall b : nat -> nat, sel m (map b C) = map b S) ->
  exists t', r_update_potential (rt fl) (Some num) (Some den0) target m = Ok (t', NO_ERROR) /\
    table card C t' /\
    forall a, valid a -> near u 2 (den C target a * den S num a / den S den0 a)%Qc (den C t' a).
Proof.
  intros C S num den0 target m HC0 PT PN PD TC TN TD.
  assert (TC' := TC). assert (TN' := TN). assert (TD' := TD). revert TC' TN' TD'.
  intros (NC & WC & DC) (NS & WS & DS) (_ & WS2 & DS2) HL Hlm HF Hm.
  destruct (r_update_potential_ok fl (Some num) (Some den0) target m) as (t' & E & D & W & H); auto.
  - left. discriminate.
  - cbn. split; auto. split.
    + rewrite DC, map_length. auto.
    + rewrite DC, DS. apply Hm.
  - cbn. split; auto. split.
    + rewrite DC, map_length. auto.
    + rewrite DC, DS2. apply Hm.
  - unfold dimensionality. rewrite DC, map_length. lia.
  - exists t'. split; [exact E|]. split; [repeat split; auto; try congruence; apply W|].
    intros a Ha. unfold den. rewrite H by (rewrite DC; now apply valid_ix_map). cbn [option_map]. rewrite Hm.
    assert (P : forall vs q, table card vs q -> nonneg q -> (0 <= cell q (map a vs))%Qc).
    { intros vs q T Q. now apply (den_nonneg card vs q a). }
    replace (cell target (map a C) * cell num (map a S) / cell den0 (map a S))%Qc
      with (absorb1 (Some (cell num (map a S))) (Some (cell den0 (map a S))) (cell target (map a C))).
    + apply (absorb1_near u fl Hu0 Hu1 Hfl (Some _) (Some _)); auto.
      * intros y Ey. inversion Ey; subst. now apply P.
      * intros y Ey. inversion Ey; subst. now apply P.
    + unfold absorb1. destruct (qzero (cell den0 (map a S))) eqn:Z; auto.
      apply qzero_true in Z. rewrite Z. symmetry. apply Qcdiv_zero_r.
Qed.

(** Effect of one message with rounding. *)
Record rmp (jt : jtree) (c1 s c2 : nat) (jt' : jtree) : Prop := {
  rm_shape : same_shape jt jt';
  rm_ok : shape_ok jt';
  rm_marks : forall i, c_mark (clq jt' i) = c_mark (clq jt i);
  rm_psi : forall a, valid a ->
    near u N (sumv (minus (c_vars (clq jt c1)) (s_vars (sep jt s))) (phi jt c1) a) (psi jt' s a);
  rm_phi : forall a, valid a ->
    near u 2 (phi jt c2 a * psi jt' s a / psi jt s a)%Qc (phi jt' c2 a);
  rm_clq : forall i, i <> c2 -> clq jt' i = clq jt i;
  rm_sep : forall k, k <> s -> sep jt' k = sep jt k
}.

Lemma r_message_pass_ok : forall jt c1 s c2, shape_ok jt -> tables_nonneg jt -> cliques_within card jt N -> s < length (sps jt) ->
  joins jt s c1 c2 ->
  exists jt', r_message_pass (rt fl) jt c1 s c2 = Ok (jt', NO_ERROR) /\ rmp jt c1 s c2 jt'.
Proof.
  intros jt c1 s c2 HS HNN HW Hs HJ. assert (HS0 := HS).
  destruct (joins_incl card jt s c1 c2 HS Hs HJ) as (I1 & I2 & L1 & L2 & N12).
  assert (HS' := HS). destruct HS' as (HC & HCl & HSp).
  destruct (HSp s Hs) as (To & Tn & _).
  destruct (HCl c1 L1) as (T1 & _). destruct (HCl c2 L2) as (T2 & _).
  unfold r_message_pass. rewrite rd_sep by auto. cbn [bind].
  set (sp := sep jt s) in *.
  rewrite put_sepset_ok by auto. cbn [bind].
  set (jt1 := mkJT (cls jt) (set_nth (sps jt) s (set_old_new sp (s_new sp) (s_old sp)))).
  assert (E1 : rd (cls jt1) c1 = Ok (clq jt c1)) by (now apply (rd_clq jt)).
  rewrite E1. cbn [bind].
  rewrite (table_dim card _ _ T1), (table_dim card _ _ To).
  destruct (mapper_vars (c_vars (clq jt c1)) (s_vars sp)) as (m1 & M1 & ML1 & MLL1 & MF1 & MS1);
    [apply T1|apply To|auto|].
  rewrite M1. cbn [bind].
  destruct (r_marginalise_table (c_vars (clq jt c1)) (s_vars sp) (c_p (clq jt c1)) (s_old sp) (unarr m1))
    as (nw & G & TN & HN); auto.
  { apply HNN; auto. }
  assert (NNw : nonneg nw).
  { apply (nonneg_den card (s_vars sp)); auto. intros a Ha. eapply near_nonneg; [exact Hu0|exact Hu1|]. apply (HN a Ha). }
  rewrite G. cbn [bind].
  rewrite put_sepset_ok by (unfold jt1; cbn; now rewrite set_nth_length). cbn [bind is_err].
  unfold jt1 at 1. cbn [cls sps].
  unfold jt1. cbn [cls sps]. rewrite set_nth_twice.
  rewrite (rd_clq jt) by auto. cbn [bind].
  rewrite (table_dim card _ _ T2), (table_dim card _ _ TN).
  destruct (mapper_vars (c_vars (clq jt c2)) (s_vars sp)) as (m2 & M2 & ML2 & MLL2 & MF2 & MS2);
    [apply T2|apply To|auto|].
  rewrite M2. cbn [bind].
  destruct (r_absorb_table (c_vars (clq jt c2)) (s_vars sp) nw (s_new sp) (c_p (clq jt c2)) (unarr m2))
    as (p' & U & TP & HP); auto.
  { apply HNN; auto. } { apply HNN; auto. }
  rewrite U. cbn [bind].
  rewrite put_clique_ok by auto. cbn [bind cls sps].
  eexists. split; [reflexivity|].
  set (jt' := mkJT _ _).
  assert (Qc2 : clq jt' c2 = set_p (clq jt c2) p').
  { unfold jt'. rewrite clq_set by auto. now rewrite Nat.eqb_refl. }
  assert (Qco : forall i, i <> c2 -> clq jt' i = clq jt i).
  { intros i Hi. unfold jt'. rewrite clq_set by auto. destruct (Nat.eqb_spec i c2); [congruence|].
    reflexivity. }
  assert (Qs : sep jt' s = set_old_new sp (s_new sp) nw).
  { unfold jt'. rewrite sep_set by auto. now rewrite Nat.eqb_refl. }
  assert (Qso : forall k, k <> s -> sep jt' k = sep jt k).
  { intros k Hk. unfold jt'. rewrite sep_set by auto. destruct (Nat.eqb_spec k s); [congruence|].
    reflexivity. }
  assert (SH : same_shape jt jt').
  { split; [unfold jt'; cbn; apply set_nth_length|].
    split; [unfold jt'; cbn; apply set_nth_length|]. split.
    - intros i. destruct (Nat.eq_dec i c2) as [->|N0]; [rewrite Qc2|rewrite Qco by auto]; auto.
    - intros k. destruct (Nat.eq_dec k s) as [->|N0]; [rewrite Qs|rewrite Qso by auto]; auto. }
  split; auto.
  - apply (shape_ok_change card jt); auto.
    + intros i Hi. destruct (Nat.eq_dec i c2) as [->|N0]; [rewrite Qc2|rewrite Qco by auto]; auto.
      now apply HCl.
    + intros k Hk. destruct (Nat.eq_dec k s) as [->|N0]; [rewrite Qs|rewrite Qso by auto]; auto.
      now apply HSp.
    + intros k Hk. destruct (Nat.eq_dec k s) as [->|N0]; [rewrite Qs|rewrite Qso by auto]; auto.
      now apply HSp.
  - intros i. destruct (Nat.eq_dec i c2) as [->|N0]; [rewrite Qc2|rewrite Qco by auto]; auto.
  - intros a Ha. unfold psi. rewrite Qs. cbn. now apply HN.
  - intros a Ha. unfold phi at 2, psi at 1. rewrite Qc2, Qs. cbn. now apply HP.
Qed.

Lemma r_mp_nonneg : forall jt c1 s c2 jt', shape_ok jt -> s < length (sps jt) -> joins jt s c1 c2 ->
  tables_nonneg jt -> rmp jt c1 s c2 jt' -> tables_nonneg jt'.
Proof.
  intros jt c1 s c2 jt' HS Hs HJ HN M.
  destruct (joins_incl card jt s c1 c2 HS Hs HJ) as (I1 & I2 & L1 & L2 & N12).
  assert (HS' := rm_ok _ _ _ _ _ M).
  destruct (rm_shape _ _ _ _ _ M) as (E1 & E2 & _).
  assert (P : forall a, valid a -> (0 <= psi jt' s a)%Qc).
  { intros a Ha. eapply near_nonneg; [exact Hu0|exact Hu1|]. apply (rm_psi _ _ _ _ _ M a Ha). }
  apply (nonneg_intro card); auto.
  - intros i a Hi Ha. rewrite E1 in Hi. destruct (Nat.eq_dec i c2) as [->|N0].
    + eapply near_nonneg; [exact Hu0|exact Hu1|]. apply (rm_phi _ _ _ _ _ M a Ha).
    + unfold phi. rewrite (rm_clq _ _ _ _ _ M) by auto. now apply (phi_nonneg card).
  - intros k a Hk Ha. rewrite E2 in Hk. destruct (Nat.eq_dec k s) as [->|N0]; auto.
    unfold psi. rewrite (rm_sep _ _ _ _ _ M) by auto. now apply (psi_nonneg card).
Qed.

Lemma r_mp_joint : forall jt c1 s c2 jt', shape_ok jt -> s < length (sps jt) -> joins jt s c1 c2 ->
  tables_nonneg jt -> rmp jt c1 s c2 jt' ->
  forall a, valid a -> near u 2 (joint jt a) (joint jt' a).
Proof.
  intros jt c1 s c2 jt' HS Hs HJ HN M a Ha.
  destruct (joins_incl card jt s c1 c2 HS Hs HJ) as (I1 & I2 & L1 & L2 & N12).
  destruct (rm_shape _ _ _ _ _ M) as (E1 & E2 & _).
  unfold joint. rewrite E1, E2.
  destruct (qprod_change1 card (fun i => phi jt' i a) (fun i => phi jt i a) (length (cls jt)) c2)
    as (r & R1 & R2); auto.
  { intros i Hi. unfold phi. now rewrite (rm_clq _ _ _ _ _ M). }
  destruct (qprod_change1 card (fun i => psi jt' i a) (fun i => psi jt i a) (length (sps jt)) s)
    as (q & Q1 & Q2); auto.
  { intros i Hi. unfold psi. now rewrite (rm_sep _ _ _ _ _ M). }
  assert (HN' := r_mp_nonneg jt c1 s c2 jt' HS Hs HJ HN M).
  assert (Sh := rm_ok _ _ _ _ _ M).
  assert (PS : (0 <= / psi jt' s a)%Qc) by (apply Qc_inv_nonneg, (psi_nonneg card); auto; lia).
  assert (P1 : forall j, shape_ok j -> tables_nonneg j ->
    (0 <= qprod (map (fun i => phi j i a) (seq 0 (length (cls j)))))%Qc).
  { intros j Hj Nj. apply qprod_nonneg. intros x Hx. apply in_map_iff in Hx.
    destruct Hx as (i & <- & Hi). apply in_seq in Hi. apply (phi_nonneg card); auto. lia. }
  assert (P2 : forall j, shape_ok j -> tables_nonneg j ->
    (0 <= qprod (map (fun i => psi j i a) (seq 0 (length (sps j)))))%Qc).
  { intros j Hj Nj. apply qprod_nonneg. intros x Hx. apply in_map_iff in Hx.
    destruct Hx as (i & <- & Hi). apply in_seq in Hi. apply (psi_nonneg card); auto. lia. }
  pose proof (rm_phi _ _ _ _ _ M a Ha) as F2. pose proof (rm_psi _ _ _ _ _ M a Ha) as F1.
  destruct (Qc_eq_dec (psi jt' s a) 0%Qc) as [Z|NZ].
  - (* the message is zero: clique c1 is zero there *)
    assert (F : phi jt c1 a = 0%Qc).
    { apply (near_zero u Hu0 Hu1) in F1. apply F1 in Z.
      apply (sumv_zero_inv card) in Z; auto.
      - apply (dep_ext _ _ (phi_dep jt c1)).
      - intros b Hb. now apply (phi_nonneg card). }
    rewrite Z in F2. replace (phi jt c2 a * 0 / psi jt s a)%Qc with 0%Qc in F2 by (unfold Qcdiv; ring).
    apply (near_zero u Hu0 Hu1) in F2. apply near_eq; auto.
    + apply Qc_div_nonneg; auto.
    + assert (R0 : qprod (map (fun i => phi jt i a) (seq 0 (length (cls jt)))) = 0%Qc).
      { apply qprod_zero. rewrite <- F. apply (in_map (fun i => phi jt i a)). apply in_seq. lia. }
      rewrite R0, R1. replace (phi jt' c2 a) with 0%Qc by (symmetry; now apply F2). unfold Qcdiv. ring.
  - (* otherwise only the receiving clique is rounded *)
    assert (Pq : (0 <= q)%Qc).
    { replace q with (psi jt' s a * q * / psi jt' s a)%Qc by (field; auto).
      apply Qc_mul_nonneg; auto. rewrite <- Q1, <- E2. now apply P2. }
    rewrite R1, R2, Q1, Q2. unfold Qcdiv. rewrite !Qcinv_mul.
    destruct (Qc_eq_dec (phi jt c2 a) 0%Qc) as [Zc|Nc].
    + rewrite Zc in *. replace (0 * psi jt' s a / psi jt s a)%Qc with 0%Qc in F2 by (unfold Qcdiv; ring).
      apply (near_zero u Hu0 Hu1) in F2. rewrite (proj1 F2 eq_refl). apply near_eq; auto; [|ring].
      replace (0 * r * (/ psi jt s a * / q))%Qc with 0%Qc by ring. discriminate.
    + assert (Pr : (0 <= r)%Qc).
      { replace r with (phi jt c2 a * r * / phi jt c2 a)%Qc by (field; auto).
        apply Qc_mul_nonneg; auto; [rewrite <- R2; now apply P1|].
        apply Qc_inv_nonneg. now apply (phi_nonneg card). }
      replace (phi jt c2 a * r * (/ psi jt s a * / q))%Qc
        with (phi jt c2 a * psi jt' s a / psi jt s a * (r * (/ psi jt' s a * / q)))%Qc.
      * replace (phi jt' c2 a * r * (/ psi jt' s a * / q))%Qc with (phi jt' c2 a * (r * (/ psi jt' s a * / q)))%Qc by ring.
        apply near_mul_r; auto. apply Qc_mul_nonneg; auto. apply Qc_mul_nonneg; auto.
        now apply Qc_inv_nonneg.
      * unfold Qcdiv. replace (phi jt c2 a * psi jt' s a * / psi jt s a * (r * (/ psi jt' s a * / q)))%Qc
          with (phi jt c2 a * / psi jt s a * r * / q * (psi jt' s a * / psi jt' s a))%Qc by ring.
        rewrite Qcmult_inv_r by auto. ring.
Qed.

End Messages.
Arguments rm_shape {u card N jt c1 s c2 jt'}.
Arguments rm_ok {u card N jt c1 s c2 jt'}.
Arguments rm_marks {u card N jt c1 s c2 jt'}.
Arguments rm_psi {u card N jt c1 s c2 jt'}.
Arguments rm_phi {u card N jt c1 s c2 jt'}.
Arguments rm_clq {u card N jt c1 s c2 jt'}.
Arguments rm_sep {u card N jt c1 s c2 jt'}.
