(** * Rounded arithmetic: the M-step *)
From Coq Require Import ZArith QArith Qcanon Field Lia Permutation String.
From Verif Require Import Base BaseProofs PotentialModel PotentialSpec PotentialProofs PotentialProofs2
  PotentialProofs3 VariableModel VariableProofs JoinTreeModel AssignSpec AssignProofs JoinTreeSpec
  JoinTreeProofs JoinTreeProofs2 JoinTreeProofs3 JoinTreeProofs4 JoinTreeProofs5 JoinTreeProofs6 JoinTreeProofs7
  NipModel NipSpec NipProofs NipProofs2 NipProofs3 NipProofs4 GatherProofs GatherProofs2 SliceModel SliceSpec
  SliceProofs SliceProofs2 SliceProofs3 SliceProofs4 SliceProofs5 LearnModel LearnSpec LearnProofs LearnProofs2 LearnProofs3
  RoundModel RoundModel3 RoundSpec RoundProofs RoundProofs3 RoundProofs8 RoundProofs19.
Import ListNotations.
Open Scope nat_scope.
Local Open Scope list_scope.
Local Open Scope res_scope.
Add Field QcfieldRound20 : Qcft.

Section Mstep.
Variable u : Qc.
Variable fl : Qc -> Qc.
Hypothesis Hu0 : (0 <= u)%Qc.
Hypothesis Hu1 : (u < 1)%Qc.
Hypothesis Hfl : forall x, (0 <= x)%Qc -> near u 1 x (fl x).
Local Notation rt := (rt fl).
Variable card : nat -> nat.
Variable m0 : model.
Variable N : nat.
Hypothesis HL : learnable card m0.
Local Notation n := (length (m_vars m0)).
Hypothesis HN : forall v, v < n -> card v <= N.
Let HM : model_ok card m0 := so_model _ _ (le_slices _ _ HL).

Lemma r_normalise_params : forall ps, params_ok card m0 ps ->
  exists ps', for_up 0 n
      (fun i l =>
         let* p := rd l i in
         let* (p, _) := r_normalise_cpd rt (Some p) in
         match p with None => UB | Some p => wr l i p end) ps = Ok ps' /\
    params_ok card m0 ps' /\
    forall v a, v < n -> valid card a -> near u (S N) (cond card m0 ps v a) (den (family m0 v) (param ps' v) a).
Proof.
  intros ps HP. assert (HP' := HP). destruct HP' as (LP & HPv).
  match goal with |- context [for_up 0 ?k ?b ?s] =>
    destruct (for_up_inv (list potential) (fun i l => length l = n /\
      (forall v, v < n -> wf (param l v) /\ dims (param l v) = map card (family m0 v)) /\
      (forall v, i <= v -> param l v = param ps v) /\
      (forall v a, v < i -> valid card a -> near u (S N) (cond card m0 ps v a) (den (family m0 v) (param l v) a))) b 0 k s)
      as (ps' & E & A1 & A2 & A3 & A4) end.
  { lia. }
  { split; auto. split. { intros v Hv. destruct (HPv v Hv) as (? & ? & ?); auto. } split; auto. intros; lia. }
  { intros i l Hi (B1 & B2 & B3 & B4). assert (Hi' : i < n) by lia.
    rewrite (rd_ok _ l i (mkPot [] [])) by lia. cbn [bind]. fold (param l i).
    destruct (B2 i Hi') as (W & D).
    destruct (r_normalise_cpd_ok u fl Hu0 Hu1 Hfl (param l i) W) as (p' & Ep & Dp & Wp & Hp).
    { rewrite (B3 i) by lia. now apply HPv. }
    { unfold dimensionality. rewrite D. cbn. lia. }
    rewrite Ep. cbn [bind]. rewrite wr_ok by lia. eexists. split; [reflexivity|].
    assert (Q : forall v, param (set_nth l i p') v = if Nat.eqb v i then p' else param l v).
    { intros v. unfold param. rewrite nth_set_nth by lia. reflexivity. }
    split; [now rewrite set_nth_length|]. split.
    { intros v Hv. rewrite Q. destruct (Nat.eqb_spec v i) as [->|]; [split; [auto|congruence]|auto]. }
    split. { intros v Hv. rewrite Q. destruct (Nat.eqb_spec v i); [lia|apply B3; lia]. }
    intros v a Hv Ha. rewrite Q. destruct (Nat.eqb_spec v i) as [->|]; [|apply B4; auto; lia].
    assert (HC : hd 0 (dims (param l i)) = card i) by (rewrite D; reflexivity). rewrite HC in Hp.
    apply near_le with (S (card i)); auto. { specialize (HN i Hi'). lia. }
    assert (Hp1 := Hp (a i) (map a (v_parents (var m0 i)))).
    change (den (family m0 i) p' a) with (cell p' (a i :: map a (v_parents (var m0 i)))).
    assert (V : valid_ix (dims (param l i)) (a i :: map a (v_parents (var m0 i)))).
    { rewrite D; apply (valid_ix_map card (family m0 i) a Ha). }
    specialize (Hp1 V). rewrite (B3 i) in Hp1 by lia. rewrite <- (column_colsum card m0 HL) in Hp1 by auto. unfold cond.
    change (cell (param ps i) (a i :: map a (v_parents (var m0 i)))) with (den (family m0 i) (param ps i) a) in Hp1.
    destruct (qzero (column card m0 ps i a)) eqn:Z; auto.
    apply qzero_true in Z. rewrite Z.
    assert (K : den (family m0 i) (param ps i) a = 0%Qc).
    { apply (sumv_zero_inv card [i] (den (family m0 i) (param ps i)) a); auto.
      - apply (dep_ext (family m0 i)), den_dep.
      - intros; now apply (param_nonneg card m0 HL). }
    rewrite K in *. replace (0 / 0)%Qc with 0%Qc by (unfold Qcdiv; ring). exact Hp1. }
  exists ps'. split; auto.
  assert (FIN : forall v a, v < n -> valid card a -> near u (S N) (cond card m0 ps v a) (den (family m0 v) (param ps' v) a)) by auto.
  split; auto. split; auto. intros v Hv. destruct (A2 v Hv) as (W & D). split; auto. split; auto.
  apply nonneg_cells; auto. intros ix Hix. rewrite D in Hix.
  destruct (ix_assignment card (family m0 v) ix (fun _ => 0)) as (a & Va & Ea & _); auto.
  { now apply (le_family _ _ HL). } { apply (zero_ok card m0 HL). }
  rewrite <- Ea. change (0 <= den (family m0 v) (param ps' v) a)%Qc. exact (proj2 (near_nonneg u Hu0 Hu1 _ _ _ (FIN v a Hv Va))).
Qed.

Lemma r_m_step_ok : forall ps, params_ok card m0 ps ->
  (forall v, v < n -> v_parents (var m0 v) = [] -> column card m0 ps v (fun _ => 0) <> 0%Qc) ->
  exists m' ps', r_m_step rt m0 ps = Ok (m', ps', NO_ERROR) /\ learnable card m' /\ same_structure m0 m' /\
    length (sps (m_jt m')) = length (sps (m_jt m0)) /\ params_ok card m0 ps' /\
    (forall v a, v < n -> valid card a -> near u (S N) (cond card m0 ps v a) (den (family m0 v) (param ps' v) a)) /\
    (forall a, valid card a -> near u (length (filter (has_parents m0) (seq 0 n)) * (N + 2))
        (product_cond card m0 ps (filter (has_parents m0) (seq 0 n)) a) (original m' a)) /\
    (forall j a, j < length (cls (m_jt m0)) -> valid card a ->
        near u (length (housed m0 j (seq 0 n)) * (N + 2))
          (qprod (map (fun v => cond card m0 ps v a) (housed m0 j (seq 0 n))))
          (den (c_vars (clq (m_jt m') j)) (c_orig (clq (m_jt m') j)) a)) /\
    (forall v, v < n -> v_parents (var m0 v) = [] -> exists l, v_prior (var m' v) = Some l /\ length l = card v /\
        forall a, valid card a -> near u (2 * N + 1) (cond card m0 ps v a) (at_state l v a)).
Proof.
  intros ps HP HR. unfold r_m_step.
  destruct (r_normalise_params ps HP) as (ps' & E0 & P' & D'). rewrite E0. cbn [bind].
  destruct (r_total_reset_ok u fl Hu0 Hu1 Hfl card m0 HM) as (m1 & E1 & M1 & S1 & SL1 & Pr1 & J1 & KO1). rewrite E1. cbn [bind].
  match goal with |- context [for_up 0 ?k ?b ?s] =>
    destruct (for_up_inv (model * code) (fun i '(m, e) => e = NO_ERROR /\ model_ok card m /\ same_structure m0 m /\
      length (sps (m_jt m)) = length (sps (m_jt m0)) /\
      (forall a, valid card a -> near u (length (filter (has_parents m0) (seq 0 i)) * (N + 2))
         (product_cond card m0 ps (filter (has_parents m0) (seq 0 i)) a) (original m a)) /\
      (forall j a, j < length (cls (m_jt m0)) -> valid card a ->
         near u (length (housed m0 j (seq 0 i)) * (N + 2))
         (qprod (map (fun v => cond card m0 ps v a) (housed m0 j (seq 0 i))))
         (den (c_vars (clq (m_jt m) j)) (c_orig (clq (m_jt m) j)) a)) /\
      (forall v, v < i -> v_parents (var m0 v) = [] -> exists l, v_prior (var m v) = Some l /\ length l = card v /\
        forall a, valid card a -> near u (2 * N + 1) (cond card m0 ps v a) (at_state l v a))) b 0 k s)
      as ((m', e) & E & A0 & A1 & A2 & AS & A3 & AF & A4) end.
  { lia. }
  { split; auto. split; auto. split; auto. split; auto. split.
    { intros a Ha. rewrite J1 by auto. apply near_refl; auto. discriminate. }
    split. { intros j a Hj Ha. rewrite KO1 by auto. apply near_refl; auto. discriminate. }
    intros; lia. }
  { intros i (m, e) Hi (B0 & B1 & B2 & BS & B3 & BF & B4). subst e. cbn [is_err].
    assert (Li : length (m_vars m) = n) by apply B2. assert (Hi' : i < n) by lia.
    rewrite rd_var by lia. cbn [bind]. rewrite (rd_ok _ ps' i (mkPot [] [])) by (destruct P' as (-> & _); lia). cbn [bind].
    fold (param ps' i).
    assert (Pi : v_parents (var m i) = v_parents (var m0 i)) by apply B2. rewrite Pi.
    assert (TP := param_table card m0 HL ps' i P' Hi').
    assert (NP : nonneg (param ps' i)) by now apply P'.
    assert (SEQ : seq 0 (S i) = seq 0 i ++ [i]) by (rewrite seq_S; reflexivity).
    destruct (v_parents (var m0 i)) as [|q qs] eqn:EP; cbn [length Nat.ltb Nat.leb].
    - (* a variable without parents *)
      assert (FAM : family m0 i = [i]) by (unfold family; now rewrite EP).
      assert (IND : In i (m_indep m)). { destruct B2 as (_ & _ & _ & _ & -> & _). now apply (le_roots _ _ HL). }
      destruct (mo_indep _ _ B1) as (_ & PO). destruct (PO i IND) as (_ & (l0 & El0 & (Ll0 & _) & _)).
      rewrite El0. rewrite FAM in TP.
      destruct (r_total_marginalise_ok u fl Hu0 Hu1 Hfl (param ps' i) l0 0) as (l & El & Ll & Hl & _).
      { apply TP. } { auto. } { unfold dimensionality. destruct TP as (_ & _ & ->). cbn. lia. }
      { destruct TP as (_ & _ & ->). cbn. lia. }
      change (Z.of_nat 0) with 0%Z in El. rewrite El. cbn [bind]. rewrite put_var_ok by lia. cbn [bind].
      eexists. split; [reflexivity|]. cbv beta iota.
      assert (LD : length (data (param ps' i)) = card i).
      { destruct TP as (_ & W & D). rewrite (wf_data_length _ W), D. cbn. lia. }
      assert (AT : forall a, valid card a -> near u (2 * N + 1) (cond card m0 ps i a) (at_state l i a)).
      { intros a Ha. unfold at_state.
        assert (Hl1 := Hl (a i)). rewrite LD in Hl1.
        assert (X : a i < nth 0 (dims (param ps' i)) 0) by (destruct TP as (_ & _ & ->); cbn; apply Ha).
        specialize (Hl1 X).
        replace (marg (param ps' i) [0] [a i]) with (den (family m0 i) (param ps' i) a) in Hl1.
        - apply near_le with (S N + card i); auto. { specialize (HN i Hi'). lia. }
          eapply (near_trans u Hu0 Hu1); [|exact Hl1]. now apply D'.
        - rewrite FAM. symmetry.
          etransitivity; [apply (marg_sumv card [i] [i] (param ps' i) [0] a TP); auto|].
          + repeat constructor; auto.
          + intros w Hw; auto.
          + replace (minus [i] [i]) with (@nil nat); [reflexivity|]. unfold minus. cbn. rewrite Nat.eqb_refl. reflexivity. }
      assert (VL : vector_ok card i l).
      { split; [congruence|]. apply Forall_forall. intros x Hx. apply In_nth with (d := 0%Qc) in Hx. destruct Hx as (j & Hj & <-).
        assert (Va : valid card (upd (fun _ => 0) i j)) by (apply upd_valid; [apply (zero_ok card m0 HL)|lia]).
        replace (nth j l 0%Qc) with (at_state l i (upd (fun _ => 0) i j)).
        - exact (proj2 (near_nonneg u Hu0 Hu1 _ _ _ (AT _ Va))).
        - unfold at_state, upd. now rewrite Nat.eqb_refl. }
      assert (FRm : forall w, var (putv m i (set_prior (var m i) (Some l))) w =
                    if Nat.eqb w i then set_prior (var m i) (Some l) else var m w) by (intros w; apply var_putv; lia).
      assert (MOK : model_ok card (putv m i (set_prior (var m i) (Some l)))).
      { destruct B1 as [H1 H2 H3 H4 H5 H6 H7 H8]. split; auto; rewrite ?putv_len; auto.
        - intros w Hw. rewrite FRm. destruct (Nat.eqb_spec w i) as [->|]; [|now apply H7].
          destruct (H7 i Hw) as (X1 & X2 & X3 & X4 & X5). split; auto.
        - destruct H8 as (NX & H8). split; auto. intros w Hw. destruct (H8 w Hw) as (X & Y). split; auto.
          rewrite FRm. destruct (Nat.eqb_spec w i) as [->|]; auto. exists l. split; [reflexivity|]. split; auto.
          assert (SUM := cond_sum card m0 HL ps i (fun _ => 0) HP Hi' (HR i Hi' EP)).
          destruct (Exists_dec (fun y => (0 < y)%Qc) l) as [Z|Z].
          { intros y. destruct (Qclt_le_dec 0 y) as [|W]; [left; auto|right; intros Y'; now apply (Qclt_not_le _ _ Y')]. }
          + apply Exists_exists in Z. exact Z.
          + exfalso. assert (Z0 : sumv card [i] (cond card m0 ps i) (fun _ => 0) = 0%Qc).
            { cbn [sumv]. apply qsum_zeros. intros y Hy. apply in_map_iff in Hy. destruct Hy as (x & <- & Hx). apply in_seq in Hx.
              assert (Va : valid card (upd (fun _ => 0) i x)) by (apply upd_valid; [apply (zero_ok card m0 HL)|lia]).
              apply (near_zero u Hu0 Hu1 _ _ _ (AT _ Va)).
              apply Qcle_antisym; [|exact (proj2 (near_nonneg u Hu0 Hu1 _ _ _ (AT _ Va)))].
              apply Qcnot_lt_le. intros W. apply Z. apply Exists_exists. exists (at_state l i (upd (fun _ => 0) i x)). split; auto.
              apply nth_In. rewrite Ll, Ll0. apply Va. }
            rewrite SUM in Z0. discriminate. }
      split; auto. split; auto. split.
      { eapply same_structure_trans; [exact B2|]. unfold same_structure. split; auto. split; auto. split; [apply putv_len|].
        split; [|auto 10]. intros w. rewrite FRm. destruct (Nat.eqb_spec w i) as [->|]; auto. }
      split; [exact BS|].
      assert (FI : filter (has_parents m0) (seq 0 (S i)) = filter (has_parents m0) (seq 0 i)).
      { rewrite SEQ, filter_app. cbn [filter]. unfold has_parents at 2. rewrite EP. apply app_nil_r. }
      assert (HI : forall k, housed m0 k (seq 0 (S i)) = housed m0 k (seq 0 i)).
      { intros k. unfold housed. rewrite SEQ, filter_app. cbn [filter]. unfold has_parents at 2. rewrite EP. apply app_nil_r. }
      rewrite FI. split; [exact B3|]. split; [intros k a Hk Ha; rewrite HI; now apply BF|].
      intros v Hv Hp. rewrite FRm. destruct (Nat.eqb_spec v i) as [->|]; [|apply B4; auto; lia]. exists l. split; auto. split; auto. congruence.
    - (* a variable with parents *)
      assert (Fi : family m i = family m0 i) by (apply structure_family; auto).
      destruct (family_mapping_ok card m i B1) as (m2 & c & m3 & r & F1 & F2 & M3 & S3 & J3 & L3 & N3 & Hc & HI & HF & Hr).
      { lia. } { rewrite Fi. now apply (le_family _ _ HL). }
      rewrite F1. cbn [bind]. rewrite F2. cbn [bind]. rewrite J3. rewrite rd_clq by auto. cbn [bind].
      set (k := clq (m_jt m) c) in *. rewrite Fi in HI, Hr.
      assert (SH := mo_shape _ _ M3). rewrite J3 in SH. destruct SH as (C0 & HCl & HSp).
      destruct (HCl c Hc) as (T1 & T2 & _). fold k in T1, T2.
      assert (SEL := sel_family (c_vars k) r (family m0 i) HF Hr).
      assert (DP : 0 < dimensionality (param ps' i)). { unfold dimensionality. destruct TP as (_ & _ & ->). rewrite map_length. cbn. lia. }
      assert (MAP : forall p, table card (c_vars k) p -> map_ok r (dims p) (dims (param ps' i))).
      { intros p (_ & _ & Dq). rewrite Dq. destruct TP as (_ & _ & ->). split.
        - rewrite map_length. auto.
        - now apply SEL. }
      assert (INIT : forall p, table card (c_vars k) p -> nonneg p ->
         exists p', r_init_potential rt (param ps' i) p r = Ok (p', NO_ERROR) /\ table card (c_vars k) p' /\ nonneg p' /\
           forall a, valid card a -> near u (N + 2) (den (c_vars k) p a * cond card m0 ps i a)%Qc (den (c_vars k) p' a)).
      { intros p T NN. destruct (r_init_potential_ok fl (param ps' i) p r) as (p' & Ei & Di & Wi & Hi2); auto.
        { apply T. } { apply TP. }
        assert (DD : forall a, valid card a -> near u (N + 2) (den (c_vars k) p a * cond card m0 ps i a)%Qc (den (c_vars k) p' a)).
        { intros a Ha. unfold den at 2. rewrite Hi2 by (destruct T as (_ & _ & ->); now apply valid_ix_map).
          rewrite SEL. fold (den (c_vars k) p a) (den (family m0 i) (param ps' i) a).
          replace (N + 2) with (S (S N)) by lia. apply (near_fl u fl Hu0 Hu1 Hfl). apply near_mul_l; auto.
          eapply den_nonneg; eauto. }
        assert (TT : table card (c_vars k) p') by (destruct T as (X & Y & Z); split; auto; split; auto; congruence).
        exists p'. split; auto. split; auto. split; auto.
        apply nonneg_cells; auto. intros ix Hix. rewrite (proj2 (proj2 TT)) in Hix.
        destruct (ix_assignment card (c_vars k) ix (fun _ => 0)) as (a & Va & Ea & _); auto.
        { apply TT. }
        rewrite <- Ea. change (0 <= den (c_vars k) p' a)%Qc. exact (proj2 (near_nonneg u Hu0 Hu1 _ _ _ (DD a Va))). }
      destruct (INIT (c_p k) T1) as (p1 & I1 & I2 & I3 & I4). { apply (proj1 (mo_nonneg _ _ B1)); auto. }
      destruct (INIT (c_orig k) T2) as (o1 & O1 & O2 & O3 & O4). { now apply (mo_orig _ _ B1). }
      rewrite I1. cbn [bind]. rewrite O1. cbn [bind]. rewrite put_clique_ok by auto. cbn [bind orb is_err].
      eexists. split; [reflexivity|]. cbv beta iota. split; auto.
      set (k' := set_orig (set_p k p1) o1). fold (putc (m_jt m) c k'). rewrite <- J3.
      assert (Hc3 : c < length (cls (m_jt m3))) by (rewrite J3; auto).
      assert (Ek : clq (m_jt m3) c = k) by (rewrite J3; reflexivity).
      assert (MK : model_ok card (set_jt m3 (putc (m_jt m3) c k'))) by (apply replace_model; auto; rewrite ?Ek; auto).
      split; [exact MK|].
      split. { eapply same_structure_trans; [exact B2|]. eapply same_structure_trans; [apply same_structure_model, S3|].
        apply replace_structure; auto. rewrite Ek. reflexivity. }
      split. { cbn [m_jt set_jt putc sps]. rewrite J3. exact BS. }
      assert (FI : filter (has_parents m0) (seq 0 (S i)) = filter (has_parents m0) (seq 0 i) ++ [i]).
      { rewrite SEQ, filter_app. cbn [filter]. unfold has_parents at 2. now rewrite EP. }
      rewrite FI. split.
      { intros a Ha. assert (Y := B3 a Ha). unfold product_cond in *. rewrite map_app, qprod_app. cbn [map qprod]. rewrite Qcmult_1_r.
        rewrite app_length. cbn [length]. rewrite Nat.mul_add_distr_r, Nat.mul_1_l.
        set (K := length (filter (has_parents m0) (seq 0 i)) * (N + 2)) in *.
        destruct (qprod_change1_nn
          (fun j => den (c_vars (clq (putc (m_jt m) c k') j)) (c_orig (clq (putc (m_jt m) c k') j)) a)
          (fun j => den (c_vars (clq (m_jt m) j)) (c_orig (clq (m_jt m) j)) a) (length (cls (m_jt m))) c Hc)
          as (rest & R1 & R2 & R3).
        { intros j Hj. rewrite clq_putc by auto. destruct (Nat.eqb_spec j c); [contradiction|reflexivity]. }
        { intros j Hj. apply (den_nonneg card); auto; [apply (mo_shape _ _ B1); auto|apply (mo_orig _ _ B1); auto]. }
        unfold original in Y |- *. cbn [m_jt set_jt]. rewrite J3.
        replace (length (cls (putc (m_jt m) c k'))) with (length (cls (m_jt m))) by (unfold putc; cbn; now rewrite set_nth_length).
        rewrite R1. rewrite R2 in Y. rewrite clq_putc, Nat.eqb_refl by auto. cbn [c_vars c_orig k' set_orig set_p].
        fold k in Y.
        apply (near_trans u Hu0 Hu1) with (y := (den (c_vars k) (c_orig k) a * rest * cond card m0 ps i a)%Qc).
        - apply (near_mul_r u Hu0 Hu1); [now apply (cond_nonneg card m0 HL)|exact Y].
        - replace (den (c_vars k) (c_orig k) a * rest * cond card m0 ps i a)%Qc
            with (den (c_vars k) (c_orig k) a * cond card m0 ps i a * rest)%Qc by ring.
          apply near_mul_r; auto. }
      split.
      { intros j a Hj Ha.
        assert (HH : home m0 i = c).
        { rewrite <- (home_structure m0 m i B2). apply home_first. eapply (find_family_first card m i m2 c); eauto. lia. }
        unfold housed. rewrite SEQ, filter_app. fold (housed m0 j (seq 0 i)). cbn [filter].
        replace (has_parents m0 i) with true by (unfold has_parents; now rewrite EP). rewrite HH. cbn [andb].
        cbn [m_jt set_jt]. rewrite clq_putc by auto. rewrite (Nat.eqb_sym j c). destruct (Nat.eqb_spec c j) as [<-|NE].
        - rewrite map_app, qprod_app. cbn [map qprod]. rewrite Qcmult_1_r. cbn [c_vars c_orig k' set_orig set_p].
          rewrite app_length. cbn [length]. rewrite Nat.mul_add_distr_r, Nat.mul_1_l.
          eapply (near_trans u Hu0 Hu1); [|now apply O4].
          apply (near_mul_r u Hu0 Hu1); [now apply (cond_nonneg card m0 HL)|now apply BF].
        - rewrite app_nil_r, J3. now apply BF. }
      intros v Hv Hp. cbn [set_jt]. destruct (Nat.eq_dec v i) as [->|]; [congruence|].
      destruct (B4 v) as (l & X & Y); auto; [lia|]. exists l. split; auto.
      change (v_prior (var m3 v) = Some l). destruct S3 as (_ & _ & SV & _). destruct (SV v) as (_ & -> & _). auto. }
  rewrite E. cbn [bind]. exists m', ps'. subst e. split; auto.
  split; [eapply learnable_structure; eauto|]. auto 10.
Qed.
End Mstep.
