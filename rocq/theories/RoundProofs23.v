(** * Rounded arithmetic: rounds of learning *)
From Coq Require Import ZArith QArith Qcanon Field Lia Permutation String.
From Verif Require Import Base BaseProofs PotentialModel PotentialSpec PotentialProofs PotentialProofs2
  PotentialProofs3 VariableModel VariableProofs JoinTreeModel AssignSpec AssignProofs JoinTreeSpec
  JoinTreeProofs JoinTreeProofs2 JoinTreeProofs3 JoinTreeProofs4 JoinTreeProofs5 JoinTreeProofs6 JoinTreeProofs7
  NipModel NipSpec NipProofs NipProofs2 NipProofs3 NipProofs4 GatherProofs GatherProofs2 SliceModel SliceSpec
  SliceProofs SliceProofs2 SliceProofs3 SliceProofs4 SliceProofs5 LearnModel LearnSpec LearnProofs LearnProofs2 LearnProofs3
  LearnProofs4 LearnProofs5
  RoundModel RoundModel2 RoundModel3 RoundSpec RoundSpec2 RoundSpec3 RoundProofs RoundProofs3 RoundProofs4 RoundProofs8
  RoundProofs10 RoundProofs12 RoundProofs18 RoundProofs19 RoundProofs20 RoundProofs21 RoundProofs22.
Import ListNotations.
Open Scope nat_scope.
Local Open Scope list_scope.
Local Open Scope res_scope.
Add Field QcfieldRound23 : Qcft.

Lemma card_within : forall card m N v, learnable card m -> cliques_within card (m_jt m) N -> v < length (m_vars m) -> card v <= N.
Proof.
  intros card m N v HL HW Hv.
  destruct (family_mapping_ok card m v (so_model _ _ (le_slices _ _ HL)) Hv (le_family _ _ HL v Hv))
    as (_ & k & _ & _ & _ & _ & _ & _ & _ & _ & _ & Hk & HI & _).
  apply Nat.le_trans with (prod (map card (c_vars (clq (m_jt m) k)))); [|now apply HW].
  assert (P := prod_incl card [v] (c_vars (clq (m_jt m) k)) (card_pos card m HL)).
  cbn [map prod fold_right] in P. rewrite Nat.mul_1_r in P. apply P.
  - repeat constructor; auto.
  - destruct (mo_shape _ _ (so_model _ _ (le_slices _ _ HL))) as (_ & HC & _). apply (HC k Hk).
  - intros w [<-|[]]. apply HI. now left.
Qed.

Lemma within_structure : forall card m m' N, same_structure m m' -> cliques_within card (m_jt m) N -> cliques_within card (m_jt m') N.
Proof. intros card m m' N (L & V & _) H i Hi. rewrite V. apply H. lia. Qed.

Lemma count_error_same : forall m m' s N, same_structure m m' -> length (sps (m_jt m')) = length (sps (m_jt m)) ->
  count_error m' s N = count_error m s N.
Proof.
  intros m m' s N (_ & _ & L & _ & I & _) S. unfold count_error, learn_error, slice_error. now rewrite L, I, S.
Qed.

Section Rounds.
Variable u : Qc.
Variable rnd : Qc -> res Qc.
Hypothesis Hu0 : (0 <= u)%Qc.
Hypothesis Hu1 : (u < 1)%Qc.
Hypothesis HR : rounding u rnd.
Context {L : Type}.
Variable A : account L.
Variable J : judge L.
Variable card : nat -> nat.
Variable N : nat.

(** ** The E-steps of all series *)
Lemma r_e_steps_ok : forall ts m ps l m' ps' l' e, learnable card m -> cliques_within card (m_jt m) N ->
  Forall (series_ok m) ts -> params_ok card m ps ->
  r_e_steps rnd A J m ts ps l = Ok (m', ps', l', e) ->
  model_ok card m' /\ same_model m m' /\
  (e = BAD_LUCK \/
   (e = NO_ERROR /\ (forall s, In s ts -> likelihood card m s <> 0%Qc) /\ params_ok card m ps' /\
    forall v ix, v < length (m_vars m) -> valid_ix (map card (family m v)) ix ->
      near u (list_sum (map (fun s => count_error m s N) ts))
        (cell (param ps v) ix + total_expected card m ts v ix)%Qc (cell (param ps' v) ix))).
Proof.
  induction ts as [|s ts IH]; intros m ps l m' ps' l' e HL HW HT HP E; cbn [r_e_steps] in E.
  - injection E as <- <- <- <-. split; [apply HL|]. split; [apply same_model_refl|]. right. split; auto. split; [intros s []|].
    split; auto. intros v ix Hv Hix. unfold total_expected. cbn [map qsum]. rewrite Qcplus_0_r. apply near_refl; auto.
    apply nonneg_cell. now apply HP.
  - inversion HT as [|? ? HT1 HT2]; subst.
    destruct (r_e_step rnd A m s ps) as [(((m1 & ps1) & probe) & e1)| |] eqn:E1; try discriminate. cbn [bind] in E.
    destruct (C88_counts_lemma u rnd L A card N m s ps m1 ps1 probe e1 Hu0 Hu1 HR (le_slices _ _ HL) HT1 (le_family _ _ HL) HP HW E1)
      as (M1 & S1 & [(-> & ->)|(-> & NZ & P1 & C1)]); cbn [is_err] in E.
    + injection E as <- <- <- <-. auto.
    + destruct (negb (j_sound J probe)); [discriminate|].
      destruct (j_sum J l probe) as [l1| |] eqn:EL; try discriminate. cbn [bind] in E.
      assert (L1 : learnable card m1) by (eapply learnable_same; eauto).
      assert (SS := same_structure_model _ _ S1).
      assert (SP : length (sps (m_jt m1)) = length (sps (m_jt m))) by apply S1.
      assert (LL : length (m_vars m1) = length (m_vars m)) by apply S1.
      destruct (IH m1 ps1 l1 m' ps' l' e) as (M2 & S2 & H2); auto.
      { eapply within_structure; eauto. } { eapply series_structure; eauto. } { eapply params_same; eauto. }
      split; auto. split; [eapply same_model_trans; eauto|]. destruct H2 as [H2|(-> & K1 & K2 & K3)]; auto.
      right. split; auto. split.
      { intros x [<-|Hx]; auto. rewrite <- (likelihood_same card m m1 x S1). auto. }
      split. { destruct K2 as (X & Y). split; [congruence|]. intros v Hv. rewrite <- (family_same m m1 v S1). apply Y. lia. }
      intros v ix Hv Hix. cbn [map]. change (list_sum (?a :: ?b)) with (a + list_sum b).
      assert (K := K3 v ix ltac:(lia) ltac:(now rewrite (family_same m m1 v S1))).
      replace (map (fun s0 => count_error m1 s0 N) ts) with (map (fun s0 => count_error m s0 N) ts) in K
        by (apply map_ext; intros; symmetry; now apply count_error_same).
      unfold total_expected in *. cbn [map qsum].
      rewrite (qsum_map_ext _ (fun s0 => expected card m1 s0 v ix) (fun s0 => expected card m s0 v ix)) in K by (intros; now apply expected_same).
      eapply (near_trans u Hu0 Hu1); [|exact K]. rewrite Qcplus_assoc. apply near_add; auto.
      apply near_refl; auto. apply qsum_nonneg. intros x Hx. apply in_map_iff in Hx. destruct Hx as (s0 & <- & _).
      apply qsum_nonneg. intros y Hy. apply in_map_iff in Hy. destruct Hy as (t & <- & _). apply given_nonneg.
      apply family_at_nonneg, HL.
Qed.

(** ** One round *)
Variable m0 : model.
Variable ts : list time_series.

(** An exact state and a computed one. *)
Record close (k : nat) (me : model) (pse : list potential) (mr : model) (psr : list potential) : Prop := {
  cl_e : learnable card me;
  cl_r : learnable card mr;
  cl_s0 : same_structure m0 me;
  cl_s : same_structure me mr;
  cl_sps : length (sps (m_jt mr)) = length (sps (m_jt m0));
  cl_pe : params_ok card me pse;
  cl_pr : params_ok card mr psr;
  cl_col : columns_positive card me pse;
  cl_near : params_near u k card me pse psr;
  cl_ts : Forall (series_ok me) ts;
  cl_within : cliques_within card (m_jt me) N
}.

Lemma model_near_of : forall k me pse mr psr mi me' ps1, close k me pse mr psr ->
  same_structure me me' -> learnable card me' -> installed card me pse me' ->
  r_m_step rnd mr psr = Ok (mi, ps1, NO_ERROR) ->
  learnable card mi /\ same_structure mr mi /\ length (sps (m_jt mi)) = length (sps (m_jt m0)) /\ params_ok card mr ps1 /\
  (exists ko kp, ko + length (m_indep me') * kp <= model_error m0 N k /\ kp <= install_error N k /\
    (forall a, valid card a -> near u ko (original me' a) (original mi a)) /\
    (forall v a, In v (m_indep me') -> valid card a ->
      near u kp (at_state (match v_prior (var me' v) with Some l => l | None => [] end) v a)
                (at_state (match v_prior (var mi v) with Some l => l | None => [] end) v a))) /\
  model_near u (model_error m0 N k) card me' mi.
Proof.
  intros k me pse mr psr mi me' ps1 C SE LE IE ER.
  pose proof (totalised_near u rnd Hu0 Hu1 HR) as Hfl.
  apply (le_r_m_step rnd _ (totalised_le rnd)) in ER.
  assert (LR := cl_r _ _ _ _ _ C). assert (S := cl_s _ _ _ _ _ C). assert (HN := cl_near _ _ _ _ _ C).
  assert (C0 := card_pos card me (cl_e _ _ _ _ _ C)).
  assert (Ln : length (m_vars mr) = length (m_vars me)) by apply S.
  assert (WR : cliques_within card (m_jt mr) N) by (eapply within_structure; [exact S|apply C]).
  assert (CP := columns_near u Hu0 Hu1 card me mr S pse psr k HN (cl_col _ _ _ _ _ C)).
  destruct (r_m_step_ok u _ Hu0 Hu1 Hfl card mr N LR (fun v Hv => card_within card mr N v LR WR Hv) psr (cl_pr _ _ _ _ _ C))
    as (mi' & ps1' & E1 & L1 & S1 & SP1 & P1 & D1 & O1 & K1 & R1).
  { intros v Hv _. apply CP; auto. }
  rewrite ER in E1. injection E1 as <- <-.
  split; auto. split; auto. split. { rewrite SP1. apply C. } split; auto.
  assert (CN := cond_near u Hu0 Hu1 card me mr S pse psr k HN).
  assert (HPS : forall v, has_parents mr v = has_parents me v).
  { intros v. unfold has_parents. destruct S as (_ & _ & _ & SV & _). destruct (SV v) as (_ & -> & _). reflexivity. }
  assert (FE : filter (has_parents mr) (seq 0 (length (m_vars mr))) = filter (has_parents me) (seq 0 (length (m_vars me)))).
  { rewrite Ln. now apply filter_ext. }
  set (F := filter (has_parents me) (seq 0 (length (m_vars me)))) in *.
  assert (NI : length (m_indep me) = length (filter (fun v => negb (has_parents me v)) (seq 0 (length (m_vars me))))).
  { apply Permutation_length, (roots_perm card me (cl_e _ _ _ _ _ C)). }
  assert (NF : length F + length (m_indep me) = length (m_vars me)).
  { rewrite NI. unfold F. rewrite <- (app_length (filter (has_parents me) (seq 0 (length (m_vars me))))).
    rewrite <- (Permutation_length (filter_split nat (has_parents me) (seq 0 (length (m_vars me))))). apply seq_length. }
  assert (L0 : length (m_vars me) = length (m_vars m0)) by apply (cl_s0 _ _ _ _ _ C).
  assert (HO : forall a, valid card a -> near u (length F * install_error N k) (original me' a) (original mi a)).
  { intros a Ha. destruct IE as (I1 & _). rewrite I1 by auto. fold F. assert (X := O1 a Ha). rewrite FE in X.
    apply near_le with (length F * (2 * k) + length F * (N + 2)); auto.
    { unfold install_error. rewrite <- Nat.mul_add_distr_l. apply Nat.mul_le_mono_l. lia. }
    eapply (near_trans u Hu0 Hu1); [|exact X]. apply (product_near u Hu0 Hu1 card me mr S pse psr k HN); auto.
    unfold F. intros v Hv. apply filter_In in Hv. tauto. }
  assert (IND : m_indep me' = m_indep me) by apply SE.
  assert (PR : forall v, In v (m_indep me') -> exists le li, v_prior (var me' v) = Some le /\ v_prior (var mi v) = Some li /\
     length li = card v /\ length le = card v /\ forall a, valid card a -> near u (install_error N k) (at_state le v a) (at_state li v a)).
  { intros v Hv. rewrite IND in Hv. assert (Hv' : v < length (m_vars me)).
    { apply (mo_indep _ _ (so_model _ _ (le_slices _ _ (cl_e _ _ _ _ _ C)))). auto. }
    assert (EP : v_parents (var me v) = []) by (apply (le_roots _ _ (cl_e _ _ _ _ _ C)); auto).
    destruct IE as (_ & _ & I3). destruct (I3 v Hv' EP) as (le & X1 & X2).
    assert (EP' : v_parents (var mr v) = []) by (destruct S as (_ & _ & _ & SV & _); destruct (SV v) as (_ & -> & _); auto).
    destruct (R1 v ltac:(lia) EP') as (li & Y1 & Y2 & Y3). exists le, li. split; auto. split; auto. split; auto. split.
    { rewrite <- IND in Hv. destruct (mo_indep _ _ (so_model _ _ (le_slices _ _ LE))) as (_ & Q). destruct (Q v Hv) as (_ & (l2 & Z1 & (Z2 & _) & _)).
      rewrite X1 in Z1. injection Z1 as <-. exact Z2. }
    intros a Ha. rewrite X2 by auto. apply near_le with (2 * k + (2 * N + 1)); auto. { unfold install_error. lia. }
    eapply (near_trans u Hu0 Hu1); [|now apply Y3]. now apply CN. }
  assert (PR' : forall v a, In v (m_indep me') -> valid card a ->
      near u (install_error N k) (at_state (match v_prior (var me' v) with Some l => l | None => [] end) v a)
                (at_state (match v_prior (var mi v) with Some l => l | None => [] end) v a)).
  { intros v a Hv Ha. destruct (PR v Hv) as (le & li & -> & -> & _ & _ & X). auto. }
  split.
  { exists (length F * install_error N k), (install_error N k). split; [|auto]. rewrite IND. unfold model_error. rewrite <- L0, <- NF.
    rewrite Nat.mul_add_distr_r. lia. }
  assert (LE1 : length F * install_error N k <= model_error m0 N k).
  { unfold model_error. apply Nat.mul_le_mono_r. lia. }
  split; [|split; [|split]].
  - eapply same_structure_trans; [|exact S1]. 
    assert (Sr : same_structure me mr) by exact S.
    destruct SE as (a1 & a2 & a3 & a4 & a5 & a6 & a7 & a8 & a9 & a10), Sr as (b1 & b2 & b3 & b4 & b5 & b6 & b7 & b8 & b9 & b10).
    unfold same_structure. split; [congruence|]. split; [intros i; now rewrite a2, b2|]. split; [congruence|].
    split; [|rewrite a5, a6, a7, a8, a9, a10; auto 10]. intros v. destruct (a4 v) as (-> & -> & -> & ->). apply b4.
  - intros a Ha. eapply near_le; [exact Hu0|exact Hu1|exact LE1|]. now apply HO.
  - intros i a Hi Ha. assert (Lc : length (cls (m_jt me')) = length (cls (m_jt me))) by apply SE.
    assert (Lr : length (cls (m_jt mr)) = length (cls (m_jt me))) by apply S.
    assert (Vi : c_vars (clq (m_jt mi) i) = c_vars (clq (m_jt me') i)).
    { destruct S1 as (_ & V1 & _), S as (_ & V2 & _), SE as (_ & V3 & _). now rewrite V1, V2, V3. }
    destruct IE as (_ & I2 & _). rewrite I2 by auto.
    assert (X := K1 i a ltac:(lia) Ha). rewrite Vi in X.
    rewrite (housed_structure me mr _ _ S), Ln in X.
    rewrite (housed_structure me me' _ _ SE). replace (length (m_vars me')) with (length (m_vars me)) by (symmetry; apply SE).
    set (H := housed me i (seq 0 (length (m_vars me)))) in *.
    assert (HF : length H <= length (m_vars me)).
    { apply Nat.le_trans with (length (seq 0 (length (m_vars me)))); [|now rewrite seq_length]. unfold H, housed. clear.
      induction (seq 0 (length (m_vars me))) as [|x l IH]; [auto|]. cbn [filter].
      match goal with |- context [if ?b then _ else _] => destruct b end; cbn [length]; lia. }
    apply near_le with (length H * (2 * k) + length H * (N + 2)); auto.
    { unfold model_error, install_error. rewrite <- Nat.mul_add_distr_l. apply Nat.mul_le_mono; lia. }
    eapply (near_trans u Hu0 Hu1); [|exact X].
    rewrite <- list_sum_const. apply (near_qprod u Hu0 Hu1 nat (fun _ => 2 * k)). intros v Hv. apply CN; auto.
    unfold H, housed in Hv. apply filter_In in Hv. destruct Hv as (Hv & _). apply in_seq in Hv. lia.
  - intros v Hv. destruct (PR v Hv) as (le & li & X1 & X2 & X3 & X4 & X5). exists le, li. split; auto. split; auto.
    assert (Hv' : v < length (m_vars me)). { rewrite IND in Hv. apply (mo_indep _ _ (so_model _ _ (le_slices _ _ (cl_e _ _ _ _ _ C)))). auto. }
    assert (LI : install_error N k <= model_error m0 N k).
    { unfold model_error. rewrite <- L0. rewrite <- (Nat.mul_1_l (install_error N k)) at 1. apply Nat.mul_le_mono_r. lia. }
    assert (Q : forall j, j < card v -> near u (model_error m0 N k) (nth j le 0%Qc) (nth j li 0%Qc)).
    { intros j Hj. apply near_le with (install_error N k); auto.
      assert (Va : valid card (upd (fun _ => 0) v j)) by (apply upd_valid; auto).
      assert (Y := X5 _ Va). unfold at_state, upd in Y. rewrite Nat.eqb_refl in Y. exact Y. }
    clear - Q X3 X4. revert li X3 X4 Q. generalize (card v). intros c. revert c. induction le as [|x le IH]; intros c li X3 X4 Q.
    + destruct li; [constructor|cbn in *; lia].
    + destruct li as [|y li]; [cbn in *; lia|]. constructor; [apply (Q 0); cbn in *; lia|].
      apply (IH (c - 1)); cbn in *; try lia. intros j Hj. apply (Q (S j)). lia.
Qed.

Lemma r_round : forall k me pse mr psr mr' psr' l e, close k me pse mr psr ->
  r_em_iteration rnd A J ts (mr, psr) = Ok ((mr', psr'), l, e) ->
  exists me', same_structure me me' /\ learnable card me' /\ installed card me pse me' /\
    model_near u (model_error m0 N k) card me' mr' /\ learnable card mr' /\
    ((e = BAD_LUCK) \/
     (e = NO_ERROR /\ exists le pse', em_round card ts me pse le me' pse' /\
        close (round_error m0 ts N k) me' pse' mr' psr')).
Proof.
  intros k me pse mr psr mr' psr' l e C E. unfold r_em_iteration in E.
  assert (LR := cl_r _ _ _ _ _ C). assert (S := cl_s _ _ _ _ _ C).
  assert (C0 := card_pos card me (cl_e _ _ _ _ _ C)).
  destruct (em_iteration_ok card ts me pse (cl_e _ _ _ _ _ C) (cl_pe _ _ _ _ _ C) (cl_col _ _ _ _ _ C) (cl_ts _ _ _ _ _ C))
    as (me' & pse' & le & ee & Ee & LE & SE & IE & CE & PE & HE).
  destruct (r_m_step rnd mr psr) as [((mi & ps1) & e1)| |] eqn:E1; try discriminate. cbn [bind] in E.
  assert (e1 = NO_ERROR).
  { apply (le_r_m_step rnd _ (totalised_le rnd)) in E1.
    assert (WR : cliques_within card (m_jt mr) N) by (eapply within_structure; [exact S|apply C]).
    assert (CP := columns_near u Hu0 Hu1 card me mr S pse psr k (cl_near _ _ _ _ _ C) (cl_col _ _ _ _ _ C)).
    destruct (r_m_step_ok u _ Hu0 Hu1 (totalised_near u rnd Hu0 Hu1 HR) card mr N LR (fun v Hv => card_within card mr N v LR WR Hv) psr (cl_pr _ _ _ _ _ C))
      as (mx & px & Ex & _).
    { intros v Hv _. apply CP; auto. }
    rewrite E1 in Ex. now injection Ex. }
  subst e1. cbn [is_err] in E.
  destruct (model_near_of k me pse mr psr mi me' ps1 C SE LE IE E1) as (L1 & S1 & SP1 & P1 & (ko & kp & KB & _ & HO & HP) & MN).
  assert (Lm : length (m_vars mi) = length (m_vars mr)) by apply S1.
  assert (P1' : params_ok card mi ps1).
  { destruct P1 as (X & Y). split; [congruence|]. intros v Hv. rewrite (structure_family mr mi v S1). apply Y. lia. }
  destruct (ones_params card mi ps1 L1 P1') as (ps2 & E2 & P2 & O2). rewrite E2 in E. cbn [bind] in E.
  destruct (r_e_steps rnd A J mi ts ps2 (j_zero J)) as [(((m3 & ps3) & l3) & e3)| |] eqn:E3; try discriminate. cbn [bind] in E.
  injection E as <- <- <- <-.
  assert (SI : same_structure me' mi) by apply MN.
  destruct (r_e_steps_ok ts mi ps2 (j_zero J) m3 ps3 l3 e3 L1) as (M3 & S3 & H3); auto.
  { eapply within_structure; [exact SI|]. eapply within_structure; [exact SE|apply C]. }
  { eapply series_structure; [exact SI|]. eapply series_structure; [exact SE|apply C]. }
  exists me'. split; auto. split; auto. split; auto.
  assert (S3' := same_structure_model _ _ S3).
  split.
  { destruct MN as (N1 & N2 & N3 & N4). split; [eapply same_structure_trans; eauto|]. split.
    - intros a Ha. rewrite (same_original mi m3 a S3). auto.
    - split.
      + intros i a Hi Ha. destruct S3 as ((_ & _ & SC & _) & _). destruct (SC i) as (_ & _ & ->). auto.
      + intros v Hv. destruct (N4 v Hv) as (x & y & X1 & X2 & X3). exists x, y. split; auto. split; auto. rewrite <- X2. apply S3. }
  assert (L3 : learnable card m3) by (eapply learnable_same; eauto).
  split; auto.
  destruct H3 as [->|(-> & NZ & P3 & K3)]; [left; auto|]. right. split; auto.
  assert (HE' : ee = NO_ERROR /\ (forall s, In s ts -> likelihood card me' s <> 0%Qc) /\
      le = total_likelihood card me' ts /\ columns_positive card me' pse' /\
      forall v ix, v < length (m_vars me) -> valid_ix (map card (family me v)) ix ->
        cell (param pse' v) ix = (1 + total_expected card me' ts v ix)%Qc).
  { destruct HE as [(_ & s & Hs & Z)|HE]; auto. exfalso. apply (NZ s Hs).
    exact (proj1 (near_zero u Hu0 Hu1 _ _ _ (likelihood_near u Hu0 Hu1 card me' mi C0 SI ko kp HO HP s)) Z). }
  destruct HE' as (_ & Q1 & Q2 & Q3 & Q4).
  exists le, pse'. split.
  { split; auto. split; auto. }
  assert (Lv : length (m_vars me') = length (m_vars me)) by apply SE.
  assert (Li : length (m_vars mi) = length (m_vars me')) by apply SI.
  split; auto.
  - eapply same_structure_trans; [apply C|exact SE].
  - eapply same_structure_trans; eauto.
  - rewrite <- SP1. apply S3.
  - eapply params_same; eauto.
  - intros v ix Hv Hix. rewrite Q4 by (rewrite <- ?(structure_family me me' v SE); auto; lia).
    assert (X := K3 v ix ltac:(lia) ltac:(now rewrite (structure_family me' mi v SI))).
    rewrite O2 in X by (rewrite ?(structure_family me' mi v SI); auto; lia).
    replace (map (fun s => count_error mi s N) ts) with (map (fun s => count_error m0 s N) ts) in X.
    2:{ apply map_ext. intros s. symmetry. apply count_error_same; auto. eapply same_structure_trans; [apply C|].
        eapply same_structure_trans; [exact SE|exact SI]. }
    unfold round_error. rewrite Nat.add_comm. eapply (near_trans u Hu0 Hu1); [|exact X].
    apply near_add; auto. { apply near_refl; auto. discriminate. }
    eapply near_le; [exact Hu0|exact Hu1| |apply (total_expected_near u Hu0 Hu1 card me' mi C0 SI ko kp HO HP)].
    apply Nat.mul_le_mono_l, Nat.mul_le_mono_l, KB.
  - eapply series_structure; [exact SE|apply C].
  - eapply within_structure; [exact SE|apply C].
Qed.
End Rounds.
