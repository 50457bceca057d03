(** * Rounded arithmetic: learning *)
From Coq Require Import ZArith QArith Qcanon Field Lia Permutation String.
From Verif Require Import Base BaseProofs PotentialModel PotentialSpec PotentialProofs PotentialProofs2
  PotentialProofs3 VariableModel VariableProofs JoinTreeModel AssignSpec AssignProofs JoinTreeSpec
  JoinTreeProofs JoinTreeProofs2 JoinTreeProofs3 JoinTreeProofs4 JoinTreeProofs5 JoinTreeProofs6 JoinTreeProofs7
  NipModel NipSpec NipProofs NipProofs2 NipProofs3 NipProofs4 GatherProofs GatherProofs2 SliceModel SliceSpec
  SliceProofs SliceProofs2 SliceProofs3 SliceProofs4 SliceProofs5 LearnModel LearnSpec LearnProofs LearnProofs2 LearnProofs3
  LearnProofs4 LearnProofs5
  RoundModel RoundModel2 RoundModel3 RoundSpec RoundSpec2 RoundSpec3 RoundProofs RoundProofs3 RoundProofs4 RoundProofs8
  RoundProofs10 RoundProofs12 RoundProofs18 RoundProofs19 RoundProofs20 RoundProofs21 RoundProofs22 RoundProofs23.
Import ListNotations.
Open Scope nat_scope.
Local Open Scope list_scope.
Local Open Scope res_scope.
Add Field QcfieldRound24 : Qcft.

(** ** The first parameters *)
Section Initial.
Variable u : Qc.
Variable fl : Qc -> Qc.
Hypothesis Hu0 : (0 <= u)%Qc.
Hypothesis Hu1 : (u < 1)%Qc.
Hypothesis Hfl : forall x, (0 <= x)%Qc -> near u 1 x (fl x).
Variable card : nat -> nat.
Variable m : model.
Variable N : nat.
Hypothesis HL : learnable card m.
Hypothesis HW : cliques_within card (m_jt m) N.
Let HM := so_model _ _ (le_slices _ _ HL).
Notation n := (length (m_vars m)).

Lemma r_initial_ok : forall random ps, initial_ok card m random -> params_ok card m ps ->
  exists ps0 m' ps', r_initial_parameters (rt fl) m random ps = Ok (m', ps', NO_ERROR) /\ model_ok card m' /\ same_model m m' /\
    params_ok card m ps0 /\ columns_positive card m ps0 /\ starts_from card m random ps0 /\
    params_ok card m ps' /\ params_near u (start_error random N) card m ps0 ps'.
Proof.
  intros random ps HI HP. destruct (initial_parameters_ok card m HL random ps HI HP) as (mx & ps0 & E0 & X1 & X2 & X3 & X4 & X5).
  exists ps0. destruct random as [rn|].
  { exists mx, ps0. split; auto. split; auto. split; auto. split; auto. split; auto. split; auto. split; auto.
    intros v ix Hv Hix. apply near_refl; auto. apply nonneg_cell. now apply X3. }
  clear E0 X1 X2 mx. cbn [r_initial_parameters start_error]. destruct HP as (LP & HP).
  match goal with |- context [for_up 0 ?k ?b ?s] =>
    destruct (for_up_inv (model * list potential * code) (fun i '(m', l, e) => e = NO_ERROR /\ model_ok card m' /\
        same_model m m' /\ m_jt m' = m_jt m /\ length l = n /\
        (forall v, v < n -> wf (param l v) /\ dims (param l v) = map card (family m v) /\ nonneg (param l v)) /\
        (forall v, v < i -> let q := clq (m_jt m) (home m v) in forall a, valid card a ->
           near u N (sumv card (minus (c_vars q) (family m v)) (den (c_vars q) (c_orig q)) a) (den (family m v) (param l v) a))) b 0 k s)
        as (((m', l), e) & E & A0 & A1 & A2 & A3 & A4 & A5 & A7) end.
  { lia. } { split; auto. split; auto. split; [apply same_model_refl|]. split; auto. split; auto. split; auto. intros; lia. }
  { intros i ((m1, l), e) Hi (B0 & B1 & B2 & B3 & B4 & B5 & B7). subst e. cbn [is_err]. assert (Hi' : i < n) by lia.
    assert (Ln : length (m_vars m1) = n) by apply B2. assert (Fi := family_same m m1 i B2).
    destruct (family_mapping_ok card m1 i B1) as (m2 & c & m3 & r & F1 & F2 & M3 & S3 & J3 & _ & _ & Hc & HIn & HF & Hr).
    { lia. } { rewrite Fi. now apply (le_family _ _ HL). }
    rewrite F1. cbn [bind]. rewrite F2. cbn [bind]. rewrite J3. rewrite rd_clq by auto. cbn [bind].
    rewrite (rd_ok _ l i (mkPot [] [])) by lia. cbn [bind]. fold (param l i). rewrite B3 in *. rewrite Fi in HIn, Hr.
    set (C := c_vars (clq (m_jt m) c)) in *. assert (SH := mo_shape _ _ HM). destruct SH as (C0 & HCl & _).
    destruct (HCl c Hc) as (_ & TO & _). fold C in TO. assert (NF := le_family _ _ HL i Hi').
    destruct (B5 i Hi') as (Wi & Di & _).
    destruct (r_marginalise_table u fl Hu0 Hu1 Hfl card N C (family m i) (c_orig (clq (m_jt m) c)) (param l i) r C0 TO)
      as (p & Ep & Tp & Hp); auto.
    { apply (mo_orig _ _ HM). auto. } { apply HW. auto. }
    { split; auto. } { now apply NoDup_incl_length. } { now apply sel_family. }
    rewrite Ep. cbn [bind]. rewrite wr_ok by lia. cbn [bind]. eexists. split; [reflexivity|]. cbv beta iota.
    split; auto. split; auto. split; [eapply same_model_trans; eauto|]. split; [exact J3|].
    split; [now rewrite set_nth_length|].
    assert (Q : forall v, param (set_nth l i p) v = if Nat.eqb v i then p else param l v).
    { intros v. unfold param. now rewrite nth_set_nth by lia. }
    assert (NN : nonneg p).
    { apply (nonneg_den card (family m i)); auto. intros a Ha. eapply near_nonneg; [exact Hu0|exact Hu1|]. apply (Hp a Ha). }
    split.
    - intros v Hv. rewrite Q. destruct (Nat.eqb_spec v i) as [->|]; auto. split; [apply Tp|]. split; [apply Tp|auto].
    - intros v Hv. rewrite Q. destruct (Nat.eqb_spec v i) as [->|]; [|apply B7; lia].
      assert (HH : home m i = c).
      { rewrite <- (home_structure m m1 i (same_structure_model _ _ B2)). apply home_first. eapply (find_family_first card m1 i m2 c); eauto. lia. }
      cbv zeta. rewrite HH. exact Hp. }
  exists m', l. rewrite E. subst e. split; auto. split; auto. split; auto. split; auto. split; auto. split; auto.
  split; [split; auto|]. intros v ix Hv Hix.
  destruct (ix_assignment card (family m v) ix (fun _ => 0)) as (a & Va & Ea & _); auto.
  { now apply (le_family _ _ HL). } { intros w. apply (card_pos card m HL). }
  assert (Y := A7 v Hv a Va). cbv zeta in Y. assert (Z := X5 v Hv a Va). cbv zeta in Z. rewrite <- Z in Y.
  unfold den in Y. rewrite Ea in Y. exact Y.
Qed.
End Initial.

Section Learn.
Variable u : Qc.
Variable rnd : Qc -> res Qc.
Hypothesis Hu0 : (0 <= u)%Qc.
Hypothesis Hu1 : (u < 1)%Qc.
Hypothesis HR : rounding u rnd.
Context {L : Type}.
Variable A : account L.
Variable J : judge L.
Variable card : nat -> nat.
Variable N : nat.
Variable m0 : model.
Variable ts : list time_series.

Lemma r_loop_ok : forall mx fuel k me pse mr psr old i curve s' c' d e, close u card N m0 ts k me pse mr psr ->
  r_em_loop J (r_em_iteration rnd A J ts) mx fuel (mr, psr) old i curve = Ok (s', (c', d, e)) ->
  exists ls lr me1 ps1 ms, em_rounds card ts me pse ls me1 ps1 /\ same_structure me1 ms /\ learnable card ms /\
    installed card me1 ps1 ms /\
    model_near u (model_error m0 N (rounds_error m0 ts N k (length ls))) card ms (fst s') /\ learnable card (fst s') /\
    c' = curve ++ lr /\ length lr <= fuel /\
    (forall j, S j < length lr -> j_bad J (nth j (old :: lr) old) (nth j lr old) = false /\
       (i + S j < 3 \/ (j_better J (nth j (old :: lr) old) (nth j lr old) = true /\ (Z.of_nat (i + S j) < mx)%Z))) /\
    ((length lr = S (length ls) /\ (exists l ps2, em_round card ts me1 ps1 l ms ps2) /\
      let j := length lr - 1 in
      ((e = BAD_LUCK /\ d = None /\ j_bad J (nth j (old :: lr) old) (nth j lr old) = true) \/
       (e = NO_ERROR /\ 3 <= i + length lr /\ j_bad J (nth j (old :: lr) old) (nth j lr old) = false /\
        ((d = Some DELTA /\ j_better J (nth j (old :: lr) old) (nth j lr old) = false) \/
         (d = Some ITERATIONS /\ j_better J (nth j (old :: lr) old) (nth j lr old) = true /\ (mx <= Z.of_nat (i + length lr))%Z))))) \/
     (length lr = length ls /\ e = BAD_LUCK /\ d = None)).
Proof.
  intros mx. induction fuel as [|f IH]; intros k me pse mr psr old i curve s' c' d e C E; [discriminate|].
  cbn [r_em_loop] in E. destruct (r_em_iteration rnd A J ts (mr, psr)) as [(((mr' & psr') & l) & e1)| |] eqn:E1; try discriminate.
  cbn [bind] in E.
  destruct (r_round u rnd Hu0 Hu1 HR A J card N m0 ts k me pse mr psr mr' psr' l e1 C E1)
    as (me' & S1 & L1 & I1 & N1 & LR & [->|(-> & le & pse' & RD & C')]).
  { injection E as <- <- <- <-. exists [], [], me, pse, me'. split; [constructor|]. split; auto. split; auto. split; auto.
    split; auto. split; auto. split; [now rewrite app_nil_r|]. split; [cbn; lia|]. split; [cbn; intros; lia|]. right. auto. }
  assert (ONE : j_bad J old l = true \/ j_bad J old l = false -> True) by auto. clear ONE.
  assert (BASE : forall P : Prop, P -> (s', (c', d, e)) = ((mr', psr'), (curve ++ [l], d, e)) ->
    ((e = BAD_LUCK /\ d = None /\ j_bad J old l = true) \/
       (e = NO_ERROR /\ 3 <= i + 1 /\ j_bad J old l = false /\
        ((d = Some DELTA /\ j_better J old l = false) \/
         (d = Some ITERATIONS /\ j_better J old l = true /\ (mx <= Z.of_nat (i + 1))%Z)))) ->
    exists ls lr me1 ps1 ms, em_rounds card ts me pse ls me1 ps1 /\ same_structure me1 ms /\ learnable card ms /\
    installed card me1 ps1 ms /\
    model_near u (model_error m0 N (rounds_error m0 ts N k (length ls))) card ms (fst s') /\ learnable card (fst s') /\
    c' = curve ++ lr /\ length lr <= S f /\
    (forall j, S j < length lr -> j_bad J (nth j (old :: lr) old) (nth j lr old) = false /\
       (i + S j < 3 \/ (j_better J (nth j (old :: lr) old) (nth j lr old) = true /\ (Z.of_nat (i + S j) < mx)%Z))) /\
    ((length lr = S (length ls) /\ (exists l ps2, em_round card ts me1 ps1 l ms ps2) /\
      let j := length lr - 1 in
      ((e = BAD_LUCK /\ d = None /\ j_bad J (nth j (old :: lr) old) (nth j lr old) = true) \/
       (e = NO_ERROR /\ 3 <= i + length lr /\ j_bad J (nth j (old :: lr) old) (nth j lr old) = false /\
        ((d = Some DELTA /\ j_better J (nth j (old :: lr) old) (nth j lr old) = false) \/
         (d = Some ITERATIONS /\ j_better J (nth j (old :: lr) old) (nth j lr old) = true /\ (mx <= Z.of_nat (i + length lr))%Z))))) \/
     (length lr = length ls /\ e = BAD_LUCK /\ d = None))).
  { intros _ _ EQ ST. injection EQ as -> ->. exists [], [l], me, pse, me'. split; [constructor|]. split; auto. split; auto. split; auto.
    split; auto. split; auto. split; auto. split; [cbn; lia|]. split; [cbn; intros; lia|]. left. split; auto. split; eauto. }
  assert (STEP : r_em_loop J (r_em_iteration rnd A J ts) mx f (mr', psr') l (i + 1) (curve ++ [l]) = Ok (s', (c', d, e)) ->
    j_bad J old l = false -> (i + 1 < 3 \/ (j_better J old l = true /\ (Z.of_nat (i + 1) < mx)%Z)) ->
    exists ls lr me1 ps1 ms, em_rounds card ts me pse ls me1 ps1 /\ same_structure me1 ms /\ learnable card ms /\
    installed card me1 ps1 ms /\
    model_near u (model_error m0 N (rounds_error m0 ts N k (length ls))) card ms (fst s') /\ learnable card (fst s') /\
    c' = curve ++ lr /\ length lr <= S f /\
    (forall j, S j < length lr -> j_bad J (nth j (old :: lr) old) (nth j lr old) = false /\
       (i + S j < 3 \/ (j_better J (nth j (old :: lr) old) (nth j lr old) = true /\ (Z.of_nat (i + S j) < mx)%Z))) /\
    ((length lr = S (length ls) /\ (exists l ps2, em_round card ts me1 ps1 l ms ps2) /\
      let j := length lr - 1 in
      ((e = BAD_LUCK /\ d = None /\ j_bad J (nth j (old :: lr) old) (nth j lr old) = true) \/
       (e = NO_ERROR /\ 3 <= i + length lr /\ j_bad J (nth j (old :: lr) old) (nth j lr old) = false /\
        ((d = Some DELTA /\ j_better J (nth j (old :: lr) old) (nth j lr old) = false) \/
         (d = Some ITERATIONS /\ j_better J (nth j (old :: lr) old) (nth j lr old) = true /\ (mx <= Z.of_nat (i + length lr))%Z))))) \/
     (length lr = length ls /\ e = BAD_LUCK /\ d = None))).
  { intros E2 B2 B3. destruct (IH _ _ _ _ _ _ _ _ _ _ _ _ C' E2) as (ls & lr & me1 & ps1 & ms & K1 & K2 & K3 & K4 & K5 & K6 & K7 & K8 & K9 & K10).
    exists (le :: ls), (l :: lr), me1, ps1, ms. split; [econstructor; eauto|]. split; auto. split; auto. split; auto. split; auto. split; auto.
    split; [now rewrite K7, <- app_assoc|]. split; [cbn; lia|].
    assert (ND : forall j, j < S (length lr) -> nth j (l :: lr) old = nth j (l :: lr) l).
    { intros j Hj. now apply nth_indep. }
    split.
    - intros j Hj. cbn [length] in Hj. destruct j as [|j].
      + cbn [nth]. replace (i + 1) with (i + 1)%nat in * by lia. auto.
      + destruct (K9 j ltac:(lia)) as (Y1 & Y2).
        change (nth (S j) (old :: l :: lr) old) with (nth j (l :: lr) old). change (nth (S j) (l :: lr) old) with (nth j lr old).
        rewrite (ND j) by lia. rewrite (nth_indep lr old l) by lia.
        replace (i + S (S j)) with (i + 1 + S j) by lia. auto.
    - destruct K10 as [(Y1 & Y2 & Y3)|(Y1 & Y2 & Y3)].
      + left. split; [cbn; lia|]. split; auto. cbv zeta in *. cbn [length].
        replace (S (length lr) - 1) with (S (length lr - 1)) by lia.
        change (nth (S (length lr - 1)) (old :: l :: lr) old) with (nth (length lr - 1) (l :: lr) old).
        change (nth (S (length lr - 1)) (l :: lr) old) with (nth (length lr - 1) lr old).
        rewrite (ND (length lr - 1)) by lia. rewrite (nth_indep lr old l) by lia.
        replace (i + S (length lr)) with (i + 1 + length lr) by lia. exact Y3.
      + right. split; [cbn; lia|]. auto. }
  destruct (j_bad J old l) eqn:EB.
  { injection E as <- <- <- <-. apply (BASE True); auto. }
  destruct (Nat.leb_spec MIN_EM_ITERATIONS (i + 1)) as [HM|HM]; unfold MIN_EM_ITERATIONS in HM.
  2:{ apply STEP; auto. }
  destruct (j_better J old l) eqn:EJ.
  - destruct (Z.leb_spec mx (Z.of_nat (i + 1))).
    + injection E as <- <- <- <-. apply (BASE True); auto. right. auto 10.
    + apply STEP; auto.
  - injection E as <- <- <- <-. apply (BASE True); auto. right. auto 10.
Qed.
End Learn.

Lemma C90_learning_lemma : forall u rnd L (A : account L) (J : judge L) card N m ts random mx first curve m' curve' d e,
  (0 <= u)%Qc -> (u < 1)%Qc -> rounding u rnd ->
  learnable card m -> Forall (series_ok m) ts -> initial_ok card m random -> cliques_within card (m_jt m) N ->
  r_em_learn rnd A J m ts random mx first curve = Ok (m', (curve', d, e)) ->
  exists ps0 ls lr me ps1 ms,
    starts_from card m random ps0 /\ em_rounds card ts m ps0 ls me ps1 /\
    same_structure me ms /\ learnable card ms /\ installed card me ps1 ms /\
    model_near u (model_error m N (rounds_error m ts N (start_error random N) (length ls))) card ms m' /\ learnable card m' /\
    curve' = curve ++ lr /\ length lr <= Nat.max 3 (Z.to_nat mx) /\ goes_on J mx first lr /\
    ((length lr = S (length ls) /\ (exists l ps2, em_round card ts me ps1 l ms ps2) /\ stopped J mx first lr d e) \/
     (length lr = length ls /\ e = BAD_LUCK /\ d = None)).
Proof.
  intros u rnd L A J card N m ts random mx first curve m' curve' d e Hu0 Hu1 HR HL HT HI HW E.
  unfold r_em_learn in E. destruct ts as [|t0 ts0] eqn:ET; [discriminate|]. rewrite <- ET in *.
  destruct (new_parameters_ok card m HL) as (pz & E0 & P0). rewrite E0 in E. cbn [bind] in E.
  destruct (r_initial_ok u (totalised rnd) Hu0 Hu1 (totalised_near u rnd Hu0 Hu1 HR) card m N HL HW random pz HI P0)
    as (ps0 & m1 & ps & E1 & M1 & S1 & P1 & C1 & ST1 & P2 & N2).
  destruct (r_initial_parameters rnd m random pz) as [((m2 & ps2) & e2)| |] eqn:E2; try discriminate.
  assert (E2' := E2). apply (le_r_initial_parameters rnd _ (totalised_le rnd)) in E2'. rewrite E1 in E2'. injection E2' as <- <- <-.
  cbn [bind is_err] in E.
  destruct (r_em_loop J (r_em_iteration rnd A J ts) mx _ (m1, ps) first 0 curve) as [(s' & ((c' & d') & e'))| |] eqn:E3; try discriminate.
  cbn [bind] in E. injection E as <- <- <- <-.
  assert (SS := same_structure_model _ _ S1).
  assert (CL : close u card N m ts (start_error random N) m ps0 m1 ps).
  { split; auto.
    - eapply learnable_same; eauto.
    - apply same_structure_model, same_model_refl.
    - apply S1.
    - eapply params_same; eauto. }
  destruct (r_loop_ok u rnd Hu0 Hu1 HR A J card N m ts _ _ _ _ _ _ _ _ _ _ _ _ _ _ CL E3)
    as (ls & lr & me & ps1 & ms & K1 & K2 & K3 & K4 & K5 & K6 & K7 & K8 & K9 & K10).
  exists ps0, ls, lr, me, ps1, ms. split; [exact ST1|]. split; [exact K1|]. split; [exact K2|]. split; [exact K3|].
  split; [exact K4|]. split; [exact K5|]. split; [exact K6|].
  split; [exact K7|]. split; [exact K8|]. split; [exact K9|]. destruct K10 as [(Y1 & Y2 & Y3)|Y]; auto.
Qed.

(** ** Learning ends *)
Lemma r_e_forward_positive : forall rnd L (A : account L) ts k t m ag ll m' ag' ll',
  l_positive A ll = false -> r_e_forward rnd A ts k t m ag ll = Ok (m', ag', ll', false) -> l_positive A ll' = false.
Proof.
  intros rnd L A ts. induction k as [|k IH]; intros t m ag ll m' ag' ll' H E; cbn [r_e_forward] in E.
  { now injection E as _ _ <-. }
  destruct (r_e_forward_step rnd A ts t m ag ll) as [(((m1 & ag1) & ll1) & bad)| |] eqn:E1; try discriminate. cbn [bind] in E.
  destruct bad; [discriminate|]. apply (IH _ _ _ _ _ _ _) in E; auto. clear E IH.
  unfold r_e_forward_step in E1. cbv zeta in E1.
  repeat match type of E1 with
  | bind ?x _ = _ => destruct x as [?z| |] eqn:?; [|discriminate|discriminate]; cbn [bind] in E1
  | (let '(_, _) := ?z in _) = _ => destruct z
  | match ?z with (_, _) => _ end = _ => destruct z
  | (if ?b then _ else _) = _ => destruct b eqn:?; [discriminate|]
  end.
  injection E1 as _ _ <-.
  match goal with H : (_ || _)%bool = false |- _ => apply Bool.orb_false_iff in H; apply H end.
Qed.

Lemma r_e_step_positive : forall rnd L (A : account L) m ts ps m' ps' ll, l_positive A (l_first A) = false ->
  r_e_step rnd A m ts ps = Ok (m', ps', ll, NO_ERROR) -> l_positive A ll = false.
Proof.
  intros rnd L A m ts ps m' ps' ll H E. unfold r_e_step in E. cbv zeta in E.
  destruct (new_results_like _ _) as [z1| |]; try discriminate. cbn [bind] in E.
  destruct (interface_potential _) as [z2| |]; try discriminate. cbn [bind] in E.
  destruct (r_reset_model _ _) as [z3| |]; try discriminate. cbn [bind] in E.
  destruct (r_use_priors _ _ _) as [z4| |]; try discriminate. cbn [bind] in E.
  destruct (r_e_forward rnd A ts (length (ts_data ts)) 0 z4 (repeat z2 (length (ts_data ts) + 1)) (l_first A))
    as [(((m1 & ag1) & ll1) & bad)| |] eqn:E1; try discriminate. cbn [bind] in E.
  destruct bad; [discriminate|].
  destruct (r_e_backward _ _ _ _ _ _) as [(((m2 & x) & y) & p2)| |]; try discriminate. cbn [bind] in E.
  injection E as _ _ <-. eapply r_e_forward_positive; eauto.
Qed.

Section Ends.
Variable u : Qc.
Variable rnd : Qc -> res Qc.
Hypothesis Hu0 : (0 <= u)%Qc.
Hypothesis Hu1 : (u < 1)%Qc.
Hypothesis HR : rounding u rnd.
Hypothesis HT : forall x, exists y, rnd x = Ok y.
Context {L : Type}.
Variable A : account L.
Variable J : judge L.
Hypothesis HA : forall l x y, exists l', l_add A l x y = Ok l'.
Hypothesis HP0 : l_positive A (l_first A) = false.
Hypothesis HS : forall l, l_positive A l = false -> j_sound J l = true.
Hypothesis HJ : forall l p, exists l', j_sum J l p = Ok l'.
Variable card : nat -> nat.
Variable N : nat.

Lemma r_e_steps_ends : forall ts m ps l, learnable card m -> cliques_within card (m_jt m) N ->
  Forall (series_ok m) ts -> params_ok card m ps ->
  exists m' ps' l' e, r_e_steps rnd A J m ts ps l = Ok (m', ps', l', e).
Proof.
  induction ts as [|s ts IH]; intros m ps l HL HW HTS HP; cbn [r_e_steps]; [eauto 10|].
  inversion HTS as [|? ? T1 T2]; subst.
  destruct (C88_completes_lemma u rnd L A card N m s ps Hu0 Hu1 HR HT HA (le_slices _ _ HL) T1 (le_family _ _ HL) HP HW)
    as (m1 & ps1 & probe & e1 & E1).
  rewrite E1. cbn [bind].
  destruct (C88_counts_lemma u rnd L A card N m s ps m1 ps1 probe e1 Hu0 Hu1 HR (le_slices _ _ HL) T1 (le_family _ _ HL) HP HW E1)
    as (M1 & S1 & [(-> & ->)|(-> & NZ & P1 & C1)]); cbn [is_err]; [eauto 10|].
  rewrite (HS probe (r_e_step_positive _ _ _ _ _ _ _ _ _ HP0 E1)). cbn [negb].
  destruct (HJ l probe) as (l1 & ->). cbn [bind]. apply IH.
  - eapply learnable_same; eauto.
  - eapply within_structure; [apply same_structure_model|]; eauto.
  - eapply series_structure; [apply same_structure_model|]; eauto.
  - eapply params_same; eauto.
Qed.

Variable m0 : model.
Variable ts : list time_series.
Lemma r_round_ends : forall k me pse mr psr, close u card N m0 ts k me pse mr psr ->
  exists s' l e, r_em_iteration rnd A J ts (mr, psr) = Ok (s', l, e).
Proof.
  intros k me pse mr psr C. unfold r_em_iteration.
  assert (LR := cl_r _ _ _ _ _ _ _ _ _ _ C). assert (S := cl_s _ _ _ _ _ _ _ _ _ _ C).
  assert (C0 := card_pos card me (cl_e _ _ _ _ _ _ _ _ _ _ C)).
  assert (WR : cliques_within card (m_jt mr) N) by (eapply within_structure; [exact S|apply C]).
  assert (CP := columns_near u Hu0 Hu1 card me mr S pse psr k (cl_near _ _ _ _ _ _ _ _ _ _ C) (cl_col _ _ _ _ _ _ _ _ _ _ C)).
  destruct (r_m_step_ok u _ Hu0 Hu1 (totalised_near u rnd Hu0 Hu1 HR) card mr N LR (fun v Hv => card_within card mr N v LR WR Hv) psr
    (cl_pr _ _ _ _ _ _ _ _ _ _ C)) as (mi & ps1 & E1 & L1 & S1 & SP1 & P1 & _).
  { intros v Hv _. apply CP; auto. }
  apply (le_r_m_step _ rnd (le_total rnd HT)) in E1. rewrite E1. cbn [bind is_err].
  assert (Lm : length (m_vars mi) = length (m_vars mr)) by apply S1.
  assert (P1' : params_ok card mi ps1).
  { destruct P1 as (X & Y). split; [congruence|]. intros v Hv. rewrite (structure_family mr mi v S1). apply Y. lia. }
  destruct (ones_params card mi ps1 L1 P1') as (ps2 & E2 & P2 & _). rewrite E2. cbn [bind].
  destruct (r_e_steps_ends ts mi ps2 (j_zero J) L1) as (m3 & ps3 & l3 & e3 & E3); auto.
  { eapply within_structure; eauto. }
  { eapply series_structure; [exact S1|]. eapply series_structure; [exact S|apply C]. }
  rewrite E3. cbn [bind]. eauto 10.
Qed.

Lemma r_loop_ends : forall mx fuel k me pse mr psr old i curve, close u card N m0 ts k me pse mr psr ->
  0 < fuel -> Nat.max 3 (Z.to_nat mx) <= i + fuel ->
  exists s' o, r_em_loop J (r_em_iteration rnd A J ts) mx fuel (mr, psr) old i curve = Ok (s', o).
Proof.
  intros mx. induction fuel as [|f IH]; intros k me pse mr psr old i curve C HF HM; [lia|].
  cbn [r_em_loop]. destruct (r_round_ends k me pse mr psr C) as ((mr' & psr') & l & e1 & E1). rewrite E1. cbn [bind].
  destruct (r_round u rnd Hu0 Hu1 HR A J card N m0 ts k me pse mr psr mr' psr' l e1 C E1)
    as (me' & S1 & L1 & I1 & N1 & LR & [->|(-> & le & pse' & RD & C')]); [eauto|].
  destruct (j_bad J old l); [eauto|].
  destruct (Nat.leb_spec MIN_EM_ITERATIONS (i + 1)) as [H3|H3]; unfold MIN_EM_ITERATIONS in H3.
  - destruct (j_better J old l); [|eauto]. destruct (Z.leb_spec mx (Z.of_nat (i + 1))); [eauto|].
    apply (IH _ _ _ _ _ _ _ _ C'); lia.
  - apply (IH _ _ _ _ _ _ _ _ C'); lia.
Qed.
End Ends.

Lemma C90_completes_lemma : forall u rnd L (A : account L) (J : judge L) card N m ts random mx first curve,
  (0 <= u)%Qc -> (u < 1)%Qc -> rounding u rnd -> (forall x, exists y, rnd x = Ok y) ->
  (forall l x y, exists l', l_add A l x y = Ok l') -> l_positive A (l_first A) = false ->
  (forall l, l_positive A l = false -> j_sound J l = true) -> (forall l p, exists l', j_sum J l p = Ok l') ->
  learnable card m -> ts <> [] -> Forall (series_ok m) ts -> initial_ok card m random -> cliques_within card (m_jt m) N ->
  exists m' curve' d e, r_em_learn rnd A J m ts random mx first curve = Ok (m', (curve', d, e)).
Proof.
  intros u rnd L A J card N m ts random mx first curve Hu0 Hu1 HR HT HA HP0 HS HJ HL HN HTS HI HW.
  unfold r_em_learn. destruct ts as [|t0 ts0] eqn:ET; [congruence|]. rewrite <- ET in *.
  destruct (new_parameters_ok card m HL) as (pz & E0 & P0). rewrite E0. cbn [bind].
  destruct (r_initial_ok u (totalised rnd) Hu0 Hu1 (totalised_near u rnd Hu0 Hu1 HR) card m N HL HW random pz HI P0)
    as (ps0 & m1 & ps & E1 & M1 & S1 & P1 & C1 & ST1 & P2 & N2).
  apply (le_r_initial_parameters _ rnd (le_total rnd HT)) in E1. rewrite E1. cbn [bind is_err].
  assert (SS := same_structure_model _ _ S1).
  assert (CL : close u card N m ts (start_error random N) m ps0 m1 ps).
  { split; auto.
    - eapply learnable_same; eauto.
    - apply same_structure_model, same_model_refl.
    - apply S1.
    - eapply params_same; eauto. }
  destruct (r_loop_ends u rnd Hu0 Hu1 HR HT A J HA HP0 HS HJ card N m ts mx (Nat.max MIN_EM_ITERATIONS (Z.to_nat mx)) _ _ _ _ _ first 0 curve CL)
    as (s' & ((c' & d) & e) & E3).
  { unfold MIN_EM_ITERATIONS. lia. } { unfold MIN_EM_ITERATIONS. lia. }
  rewrite E3. cbn [bind]. eauto 10.
Qed.
