(** * Proofs: expected counts, the learning loop, the lottery *)
From Coq Require Import Permutation Field.
From Verif Require Import Base BaseProofs PotentialModel PotentialSpec PotentialProofs
  PotentialProofs2 PotentialProofs3 VariableModel VariableProofs JoinTreeModel
  AssignSpec AssignProofs JoinTreeSpec JoinTreeProofs JoinTreeProofs2 JoinTreeProofs3
  JoinTreeProofs4 JoinTreeProofs5 JoinTreeProofs6 JoinTreeProofs7 NipModel NipSpec NipProofs
  NipProofs2 NipProofs3 NipProofs4 GatherProofs GatherProofs2 SliceModel SliceSpec SliceProofs SliceProofs2 SliceProofs3
  SliceProofs4 SliceProofs5 LearnModel LearnSpec LearnProofs.
Import ListNotations.
Open Scope nat_scope.
Local Open Scope res_scope.

Add Field Qcfield_learn2 : Qcft.

(** ** Likelihoods are at most one *)
Lemma qsum_le_map : forall A (g h : A -> Qc) l, (forall x, In x l -> (g x <= h x)%Qc) ->
  (qsum (map g l) <= qsum (map h l))%Qc.
Proof.
  intros A g h l H. induction l as [|x l IH]; cbn [map qsum]; [apply Qcle_refl|].
  apply Qcplus_le_compat; [apply H; simpl; auto|]. apply IH. intros; apply H; simpl; auto.
Qed.
Lemma sumv_le : forall card vs g h a, valid card a -> (forall b, valid card b -> (g b <= h b)%Qc) ->
  (sumv card vs g a <= sumv card vs h a)%Qc.
Proof.
  intros card vs. induction vs as [|v vs IH]; intros g h a Ha H; cbn [sumv]; auto.
  apply qsum_le_map. intros x Hx. apply in_seq in Hx. apply IH; auto. apply upd_valid; auto. lia.
Qed.

Section Conditional.
Variable card : nat -> nat.
Variable m0 : model.
Variable ts : time_series.
Hypothesis HM : slices_ok card m0.
Hypothesis HTS : series_ok m0 ts.
Hypothesis HC : conditional_slices card m0.
Local Notation T := (length (ts_data ts)).

Lemma zev_zref : forall t, (zev card m0 ts t <= zref card m0 ts t)%Qc.
Proof.
  intros t. rewrite zev_eq, zref_eq by auto. apply sumv_le; [apply (ZV card m0 HM)|]. intros b Hb. rewrite G_eq.
  assert (N : (0 <= sl m0 t b * inflow card m0 ts t b)%Qc).
  { apply Qc_mul_nonneg; [now apply (sl_nonneg card m0 HM)|]. destruct t; cbn [inflow]; [discriminate|].
    apply sumv_nonneg; [apply (ZV card m0 HM)|]. intros d Hd. apply given_nonneg. now apply G_nonneg. }
  destruct (agrees _ _ _ _); cbn [given]; auto. apply Qcle_refl.
Qed.
Lemma zev_le1 : forall t, (zev card m0 ts t <= 1)%Qc.
Proof.
  induction t as [|t IH]; (eapply Qcle_trans; [apply zev_zref|]).
  - rewrite (zref_first card m0 ts HM HC). apply Qcle_refl.
  - rewrite (zref_next card m0 ts HM HC). auto.
Qed.
Lemma rate_zev : forall t, (forall s, s < t -> zev card m0 ts s <> 0%Qc) ->
  rate card m0 ts t = match t with 0 => 1%Qc | S t' => zev card m0 ts t' end.
Proof.
  induction t as [|t IH]; intros H; [reflexivity|]. rewrite rate_S, IH by (intros; apply H; lia). destruct t as [|t].
  - rewrite (zref_first card m0 ts HM HC). field. discriminate.
  - rewrite (zref_next card m0 ts HM HC). field. apply H. lia.
Qed.
Lemma likelihood_zev : likelihood card m0 ts = match T with 0 => 1%Qc | S t' => zev card m0 ts t' end.
Proof. unfold likelihood, zev. cbv zeta. destruct T; reflexivity. Qed.

Lemma stopped_iff : stopped card m0 ts <-> likelihood card m0 ts = 0%Qc.
Proof.
  split.
  - intros (s & Hs & H). destruct (Qc_eq_dec (likelihood card m0 ts) 0%Qc) as [|N]; auto. exfalso.
    assert (K : forall t, t < T -> zev card m0 ts t <> 0%Qc) by (intros t Ht; now apply (possible_zev card m0 ts HM)).
    destruct H as [H|[H|H]].
    + destruct s as [|s].
      * rewrite (zref_first card m0 ts HM HC) in H. discriminate.
      * rewrite (zref_next card m0 ts HM HC) in H. apply (K s); auto. lia.
    + now apply (K s).
    + rewrite rate_zev in H by (intros; apply K; lia). apply (Qclt_not_le _ _ H). apply zev_le1.
  - intros H. rewrite likelihood_zev in H. destruct T as [|t] eqn:E; [discriminate|].
    exists t. split; [lia|]. right. left. auto.
Qed.
Lemma not_stopped : (forall s, s < T -> zev card m0 ts s <> 0%Qc) ->
  rate card m0 ts T = likelihood card m0 ts /\ likelihood card m0 ts <> 0%Qc.
Proof.
  intros H. rewrite likelihood_zev, rate_zev by auto. split; auto. destruct T as [|t] eqn:E; [discriminate|]. apply H. lia.
Qed.
Lemma likelihood_le1 : (likelihood card m0 ts <= 1)%Qc.
Proof. rewrite likelihood_zev. destruct T; [apply Qcle_refl|apply zev_le1]. Qed.
Lemma likelihood_nonneg : (0 <= likelihood card m0 ts)%Qc.
Proof. rewrite likelihood_zev. destruct T; [discriminate|now apply zev_nonneg]. Qed.
End Conditional.

Lemma params_tables : forall card m ps, params_ok card m ps -> tables_for card m ps.
Proof. intros card m ps (L & H). split; auto. intros v Hv. destruct (H v Hv) as (A & B & _). split; auto. Qed.

Lemma nonneg_cells : forall p, wf p -> (nonneg p <-> forall ix, valid_ix (dims p) ix -> (0 <= cell p ix)%Qc).
Proof.
  intros p W. split.
  - intros H ix Hix. unfold cell, nonneg in *. rewrite Forall_forall in H.
    assert (K := flat_lt (dims p) ix Hix). destruct W as (_ & W & _). rewrite <- W in K. apply H. now apply nth_In.
  - intros H. apply Forall_forall. intros x Hx. apply In_nth with (d := 0%Qc) in Hx. destruct Hx as (i & Hi & <-).
    destruct W as (_ & W & _). rewrite W in Hi.
    assert (K : In i (map (flat (dims p)) (all_ix (dims p)))) by (rewrite map_flat_all_ix; apply in_seq; lia).
    apply in_map_iff in K. destruct K as (ix & <- & Kx). apply all_ix_valid in Kx. apply (H ix Kx).
Qed.

Lemma counts_nonneg : forall card m ps ps', tables_for card m ps' -> params_ok card m ps ->
  (forall v ix, v < length (m_vars m) -> valid_ix (map card (family m v)) ix ->
     (cell (param ps v) ix <= cell (param ps' v) ix)%Qc) -> params_ok card m ps'.
Proof.
  intros card m ps ps' (L & H) (L0 & H0) K. split; auto. intros v Hv. destruct (H v Hv) as (A & B). split; auto. split; auto.
  destruct (H0 v Hv) as (A0 & B0 & C0).
  apply nonneg_cells; auto. intros ix Hix. rewrite B in Hix. eapply Qcle_trans; [|apply K; auto].
  apply (nonneg_cells _ A0); auto. now rewrite B0.
Qed.

Lemma C56_lemma : forall card m ts ps, slices_ok card m -> series_ok m ts ->
  (forall v, v < length (m_vars m) -> NoDup (family m v)) -> params_ok card m ps ->
  exists m' ps' ll e, e_step m ts ps = Ok (m', ps', ll, e) /\ model_ok card m' /\ same_model m m' /\
    ((e = BAD_LUCK /\ ps' = ps) \/
     (e = NO_ERROR /\ likelihood card m ts <> 0%Qc /\ params_ok card m ps' /\
      forall v ix, v < length (m_vars m) -> valid_ix (map card (family m v)) ix ->
        cell (param ps' v) ix = (cell (param ps v) ix + expected card m ts v ix)%Qc)) /\
    (conditional_slices card m -> (e = BAD_LUCK <-> likelihood card m ts = 0%Qc) /\
       (e = NO_ERROR -> ll = likelihood card m ts)).
Proof.
  intros card m ts ps HM HT HF HP. assert (TF := params_tables _ _ _ HP).
  destruct (e_step_ok card m ts HM HT HF ps TF) as (m' & ps' & ll & e & E & M' & S' & H).
  exists m', ps', ll, e. split; auto. split; auto. split; auto.
  destruct H as [(-> & -> & H)|(-> & H1 & H2 & H3 & H4 & H5)].
  - split; auto. intros HC. split; [|discriminate]. split; auto. intros _. now apply stopped_iff.
  - split.
    + right. split; auto. split.
      { unfold likelihood. cbv zeta. destruct (length (ts_data ts)) as [|t] eqn:ET; [discriminate|]. apply (H3 t). lia. }
      split; [|intros; now apply H5]. eapply counts_nonneg; eauto. intros; now apply H5.
    + intros HC. destruct (not_stopped card m ts HM HC H3) as (N1 & N2). split; [|intros; congruence].
      split; [discriminate|tauto].
Qed.

(** ** The learning loop *)
Lemma drops_dec : forall growth old l, (Qc_ltb (l * growth) old || Qc_ltb 1 l)%bool = true <-> drops growth old l.
Proof. intros. rewrite orb_true_iff, !Qc_ltb_true. reflexivity. Qed.

Section Loop.
Variable A : Type.
Variable iteration : A -> res (A * Qc * code).
Variable P : A -> Prop.
Hypothesis HP : forall s, P s -> exists s' l e, iteration s = Ok (s', l, e) /\ (e = NO_ERROR -> P s').
Variable growth : Qc.
Variable max_iterations : Z.

(** The iteration number [k] from likelihood [old] to [l] is not the last one. *)
Definition goes_on (k : nat) (old l : Qc) : Prop :=
  ~ drops growth old l /\
  (k < MIN_EM_ITERATIONS \/ (improves growth old l /\ (Z.of_nat k < max_iterations)%Z)).

Definition ends (i : nat) (old : Qc) (s : A) (curve ls : list Qc) (s1 s' : A) (o : outcome) : Prop :=
  (ls <> [] /\ s' = s1 /\ o_curve o = curve ++ ls /\ MIN_EM_ITERATIONS <= i + length ls /\
   let k := length ls - 1 in let x := nth k (old :: ls) 0%Qc in let y := nth k ls 0%Qc in
   o_code o = NO_ERROR /\ ~ drops growth x y /\
   ((o_criterion o = Some DELTA /\ ~ improves growth x y) \/
    (o_criterion o = Some ITERATIONS /\ improves growth x y /\ (max_iterations <= Z.of_nat (i + length ls))%Z))) \/
  (ls <> [] /\ s' = s1 /\ o_curve o = curve ++ ls /\ o_code o = BAD_LUCK /\ o_criterion o = None /\
   let k := length ls - 1 in drops growth (nth k (old :: ls) 0%Qc) (nth k ls 0%Qc)) \/
  (exists l, iteration s1 = Ok (s', l, o_code o) /\ o_code o <> NO_ERROR /\ o_criterion o = None /\
   o_curve o = (match o_code o with BAD_LUCK => curve ++ ls | _ => [] end) /\
   (ls = [] \/ goes_on (i + length ls) (nth (length ls - 1) (old :: ls) 0%Qc) (nth (length ls - 1) ls 0%Qc))).

Lemma em_loop_ok : forall fuel s old i curve, P s -> i < Nat.max MIN_EM_ITERATIONS (Z.to_nat max_iterations) ->
  Nat.max MIN_EM_ITERATIONS (Z.to_nat max_iterations) <= i + fuel ->
  exists s' o ls s1, em_loop iteration growth max_iterations fuel s old i curve = Ok (s', o) /\
    runs iteration s ls s1 /\ i + length ls <= Nat.max MIN_EM_ITERATIONS (Z.to_nat max_iterations) /\
    (forall k, S k < length ls -> goes_on (i + S k) (nth k (old :: ls) 0%Qc) (nth k ls 0%Qc)) /\
    ends i old s curve ls s1 s' o.
Proof.
  induction fuel as [|fuel IH]; intros s old i curve HS Hi HF; [lia|]. cbn [em_loop].
  destruct (HP s HS) as (s1 & l & e & E & HE). rewrite E. cbn [bind].
  assert (STOP : forall o, o_code o = e -> e <> NO_ERROR -> o_criterion o = None ->
     o_curve o = (match e with BAD_LUCK => curve | _ => [] end) ->
     exists ls s2, runs iteration s ls s2 /\ i + length ls <= Nat.max MIN_EM_ITERATIONS (Z.to_nat max_iterations) /\
     (forall k, S k < length ls -> goes_on (i + S k) (nth k (old :: ls) 0%Qc) (nth k ls 0%Qc)) /\
     ends i old s curve ls s2 s1 o).
  { intros o H1 H2 H3 H4. exists [], s. split; [constructor|]. split; [cbn [length]; lia|]. split; [cbn [length]; intros; lia|].
    right. right. exists l. rewrite H1. split; auto. split; auto. split; auto. split; auto. rewrite H4, app_nil_r. reflexivity. }
  destruct e; try (destruct (STOP (mkOutcome [] None _) eq_refl ltac:(discriminate) eq_refl eq_refl) as (ls & s2 & X);
    eexists _, _, ls, s2; split; [reflexivity|exact X]).
  2: { destruct (STOP (mkOutcome curve None BAD_LUCK) eq_refl ltac:(discriminate) eq_refl eq_refl) as (ls & s2 & X).
    eexists _, _, ls, s2; split; [reflexivity|exact X]. }
  clear STOP. specialize (HE eq_refl).
  destruct (Qc_ltb (l * growth) old || Qc_ltb 1 l)%bool eqn:ED.
  { apply drops_dec in ED. exists s1, (mkOutcome (curve ++ [l]) None BAD_LUCK), [l], s1. split; auto.
    split; [econstructor; eauto; constructor|]. split; [cbn [length]; lia|]. split; [cbn [length]; intros; lia|].
    right. left. cbn. split; [discriminate|]. auto 10. }
  assert (ND : ~ drops growth old l) by (intros K; apply drops_dec in K; congruence).
  assert (GO : goes_on (i + 1) old l -> i + 1 < Nat.max MIN_EM_ITERATIONS (Z.to_nat max_iterations) ->
    exists s' o ls s2, em_loop iteration growth max_iterations fuel s1 l (i + 1) (curve ++ [l]) = Ok (s', o) /\
    runs iteration s ls s2 /\ i + length ls <= Nat.max MIN_EM_ITERATIONS (Z.to_nat max_iterations) /\
    (forall k, S k < length ls -> goes_on (i + S k) (nth k (old :: ls) 0%Qc) (nth k ls 0%Qc)) /\
    ends i old s curve ls s2 s' o).
  { intros G1 G2. destruct (IH s1 l (i + 1) (curve ++ [l]) HE G2) as (s' & o & ls & s2 & E2 & R2 & L2 & K2 & N2); [lia|].
    exists s', o, (l :: ls), s2. split; auto. split; [econstructor; eauto|]. cbn [length]. split; [lia|]. split.
    - intros k Hk. destruct k as [|k]; [exact G1|]. change (nth (S k) (old :: l :: ls) 0%Qc) with (nth k (l :: ls) 0%Qc).
      change (nth (S k) (l :: ls) 0%Qc) with (nth k ls 0%Qc). replace (i + S (S k)) with (i + 1 + S k) by lia. apply K2. lia.
    - assert (AP : forall z, curve ++ l :: z = (curve ++ [l]) ++ z) by (intros; now rewrite <- app_assoc).
      assert (NX : ls <> [] -> nth (length (l :: ls) - 1) (old :: l :: ls) 0%Qc = nth (length ls - 1) (l :: ls) 0%Qc /\
                   nth (length (l :: ls) - 1) (l :: ls) 0%Qc = nth (length ls - 1) ls 0%Qc).
      { destruct ls as [|y ls]; [congruence|]. intros _. cbn [length]. now rewrite !Nat.sub_succ, !Nat.sub_0_r. }
      destruct N2 as [(N1 & N2 & N3 & N4 & N5)|[(N1 & N2 & N3 & N4 & N5 & N6)|(l' & N1 & N2 & N3 & N4 & N5)]].
      + left. cbv zeta in N5 |- *. destruct (NX N1) as (-> & ->). split; [discriminate|]. split; auto. split; [now rewrite AP|].
        cbn [length]. split; [lia|]. replace (i + S (length ls)) with (i + 1 + length ls) by lia. exact N5.
      + right. left. cbv zeta in N6 |- *. destruct (NX N1) as (-> & ->). split; [discriminate|]. split; auto. split; [now rewrite AP|].
        auto.
      + right. right. exists l'. split; auto. split; auto. split; auto. split; [rewrite AP; exact N4|]. right.
        destruct ls as [|y ls].
        * exact G1.
        * destruct N5 as [N5|N5]; [discriminate|].
          destruct NX as (-> & ->); [discriminate|]. cbn [length] in *. replace (i + S (S (length ls))) with (i + 1 + S (length ls)) by lia. exact N5. }
  assert (FINE : forall crit, MIN_EM_ITERATIONS <= i + 1 ->
     ((crit = Some DELTA /\ ~ improves growth old l) \/
      (crit = Some ITERATIONS /\ improves growth old l /\ (max_iterations <= Z.of_nat (i + 1))%Z)) ->
     exists ls s2, runs iteration s ls s2 /\ i + length ls <= Nat.max MIN_EM_ITERATIONS (Z.to_nat max_iterations) /\
     (forall k, S k < length ls -> goes_on (i + S k) (nth k (old :: ls) 0%Qc) (nth k ls 0%Qc)) /\
     ends i old s curve ls s2 s1 (mkOutcome (curve ++ [l]) crit NO_ERROR)).
  { intros crit H1 H2. exists [l], s1. split; [econstructor; eauto; constructor|]. split; [cbn [length]; lia|]. split; [cbn [length]; intros; lia|].
    left. cbn. split; [discriminate|]. split; auto. }
  destruct (Nat.leb_spec MIN_EM_ITERATIONS (i + 1)) as [H3|H3].
  - destruct (Qc_ltb (old * growth) l) eqn:EI.
    + apply Qc_ltb_true in EI. destruct (Z.leb_spec max_iterations (Z.of_nat (i + 1))) as [H4|H4].
      * destruct (FINE (Some ITERATIONS) H3) as (ls & s2 & X); auto. eexists _, _, ls, s2. split; [reflexivity|exact X].
      * apply GO; [|lia]. split; auto.
    + apply Qc_ltb_false in EI. destruct (FINE (Some DELTA) H3) as (ls & s2 & X).
      { left. split; auto. unfold improves. intros K. now apply (Qclt_not_le _ _ K). }
      eexists _, _, ls, s2. split; [reflexivity|exact X].
  - apply GO; [|lia]. split; auto.
Qed.
End Loop.

(** ** The lottery *)
Lemma below_S : forall d i, i < length d -> below d (S i) = (below d i + nth i d 0)%Qc.
Proof.
  intros d i Hi. unfold below. rewrite (firstn_S_nth _ d i 0%Qc) by auto. rewrite qsum_app. cbn. ring.
Qed.
Lemma lottery_loop_ok : forall fuel d i r, i <= length d -> length d + 1 <= i + fuel -> 0 < length d ->
  (forall j, 0 < j <= i -> (below d j < r)%Qc) ->
  exists k, lottery_loop fuel d (length d) i (below d i) r = Ok (Z.of_nat k) /\ k < length d /\
    (forall j, 0 < j <= k -> (below d j < r)%Qc) /\
    ((r <= below d (S k))%Qc \/ (k = length d - 1 /\ (below d (length d) < r)%Qc)).
Proof.
  induction fuel as [|fuel IH]; intros d i r Hi HF HN HB; [lia|]. cbn [lottery_loop].
  destruct (Nat.leb_spec (length d) i) as [K|K].
  - exists (length d - 1). split; [f_equal; lia|]. split; [lia|]. split; [intros; apply HB; lia|]. right. split; auto; apply HB; lia.
  - rewrite (rd_ok _ d i 0%Qc) by lia. cbn [bind]. rewrite <- below_S by lia.
    destruct (Qc_ltb (below d (S i)) r) eqn:E.
    + apply Qc_ltb_true in E. rewrite Nat.add_1_r. apply IH; auto; try lia.
      intros j Hj. destruct (Nat.eq_dec j (S i)) as [->|]; auto. apply HB. lia.
    + apply Qc_ltb_false in E. exists i. auto.
Qed.
Lemma lottery_ok : forall d r, 0 < length d ->
  exists k, lottery d (length d) r = Ok (Z.of_nat k) /\ k < length d /\
    (forall j, 0 < j <= k -> (below d j < r)%Qc) /\
    ((r <= below d (S k))%Qc \/ (k = length d - 1 /\ (below d (length d) < r)%Qc)).
Proof. intros d r H. unfold lottery. apply (lottery_loop_ok (length d + 1) d 0 r); try lia; auto. Qed.

Lemma below_mono : forall d i j, Forall (fun x => (0 <= x)%Qc) d -> i <= j -> (below d i <= below d j)%Qc.
Proof.
  intros d i j H L. induction L as [|j L IH]; [apply Qcle_refl|]. eapply Qcle_trans; [exact IH|].
  destruct (Nat.lt_ge_cases j (length d)) as [K|K].
  - rewrite below_S by auto. assert (X : (0 <= nth j d 0)%Qc) by (rewrite Forall_forall in H; apply H, nth_In; auto).
    rewrite <- (Qcplus_0_r (below d j)) at 1. apply Qcplus_le_compat; auto. apply Qcle_refl.
  - unfold below. rewrite !firstn_all2 by lia. apply Qcle_refl.
Qed.
Lemma below_0 : forall d, below d 0 = 0%Qc. Proof. reflexivity. Qed.
Lemma below_all : forall d, below d (length d) = qsum d. Proof. intros. unfold below. now rewrite firstn_all. Qed.

(** With a distribution, and the number inside its total: an exact description. *)
Lemma lottery_iff : forall d r i, Forall (fun x => (0 <= x)%Qc) d -> (0 < r)%Qc -> (r <= qsum d)%Qc ->
  (lottery d (length d) r = Ok (Z.of_nat i) <-> i < length d /\ (below d i < r)%Qc /\ (r <= below d (S i))%Qc).
Proof.
  intros d r i H R0 R1.
  assert (L : 0 < length d) by (destruct d; [exfalso; apply (Qclt_not_le _ _ R0 R1)|cbn; lia]).
  destruct (lottery_ok d r L) as (k & E & Hk & HB & HT).
  assert (T : (r <= below d (S k))%Qc).
  { destruct HT as [|(_ & K)]; auto. rewrite below_all in K. exfalso. apply (Qclt_not_le _ _ K R1). }
  assert (BK : (below d k < r)%Qc) by (destruct k; [rewrite below_0; auto|apply HB; lia]).
  rewrite E. split.
  - intros X. assert (k = i) by (inversion X; lia). subst. auto.
  - intros (Hi & A & B). f_equal. f_equal. destruct (Nat.lt_trichotomy k i) as [K|[K|K]]; auto; exfalso.
    + apply (Qclt_not_le _ _ A). eapply Qcle_trans; [exact T|]. apply below_mono; auto.
    + apply (Qclt_not_le _ _ BK). eapply Qcle_trans; [exact B|]. apply below_mono; auto.
Qed.
Lemma lottery_positive : forall d r i, Forall (fun x => (0 <= x)%Qc) d -> (0 < r)%Qc -> (r <= qsum d)%Qc ->
  lottery d (length d) r = Ok (Z.of_nat i) -> (0 < nth i d 0)%Qc.
Proof.
  intros d r i H R0 R1 E. apply lottery_iff in E; auto. destruct E as (Hi & A & B). rewrite below_S in B by auto.
  assert (X := Qclt_le_trans _ _ _ A B). apply Qclt_minus_iff in X.
  replace (below d i + nth i d 0 + - below d i)%Qc with (nth i d 0)%Qc in X by ring. exact X.
Qed.
