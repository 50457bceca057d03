(** * Proofs: niplikelihood *)
From Coq Require Import String Ascii Permutation Field.
From Verif Require Import Base BaseProofs StringSpec PotentialModel PotentialSpec PotentialProofs VariableModel AssignSpec AssignProofs
  JoinTreeModel JoinTreeSpec JoinTreeProofs NipModel NipSpec NipProofs NipProofs2 NipProofs3 SliceModel SliceSpec SliceProofs SliceProofs2 SliceProofs3 SliceProofs4
  SliceProofs5 LearnModel LearnSpec LearnProofs2 LearnProofs6 LearnProofs8 SeriesFileModel SeriesFileSpec
  GraphModel ParseModel ParseSpec ParseProofs3 ParseProofs6 ParseProofs8 ParseProofs9
  NetLexModel NetGrammarModel NetSpec WriteSpec ToolModel ToolSpec ToolModel2 ToolSpec2 ToolProofs ToolProofs3.
Import ListNotations.
Open Scope nat_scope.
Local Open Scope res_scope.
Local Notation len := List.length.
Add Field Qcfield_tool6 : Qcft.

(** ** Data for some of the variables *)
Definition masked (m : model) (mask v : nat) : bool := negb (Nat.eqb (Nat.land (v_mark (var m v)) mask) 0).
Definition agree1 (m : model) (mask : nat) (ts : time_series) (t : nat) (a : nat -> nat) (j : nat) : bool :=
  let v := nth j (ts_observed ts) 0 in
  (negb (masked m mask v) || (NipSpec.entry ts t j <? 0)%Z || (NipSpec.entry ts t j =? Z.of_nat (a v))%Z)%bool.
Definition agree_on (m : model) (mask : nat) (ts : time_series) (t : nat) (a : nat -> nat) : bool :=
  forallb (agree1 m mask ts t a) (seq 0 (len (ts_observed ts))).

Lemma insert_masked : forall card m mask ts t F, model_ok card m -> series_ok m ts -> t < len (ts_data ts) ->
  represents card m F -> (forall v, v < len (m_vars m) -> masked m mask v = true -> v_lik (var m v) = repeat 1%Qc (card v)) ->
  exists m', insert_ts_step ts (Z.of_nat t) m mask = Ok (m', NO_ERROR) /\ model_ok card m' /\ same_model m m' /\
    represents card m' F /\ (forall v, masked m mask v = false -> v_lik (var m' v) = v_lik (var m v)) /\
    (forall a, valid card a -> NipSpec.evidence m' a = (given (agree_on m mask ts t a) 1 * NipSpec.evidence m a)%Qc).
Proof.
  intros card m mask ts t F HM (ND & HV & HL) Ht HR HN. unfold insert_ts_step.
  replace ((Z.of_nat t <? 0) || (Z.of_nat (len (ts_data ts)) <=? Z.of_nat t))%Z%bool with false.
  2: { symmetry. apply orb_false_iff. split; [apply Z.ltb_ge|apply Z.leb_gt]; lia. }
  rewrite Nat2Z.id.
  set (row := nth t (ts_data ts) []).
  assert (Lr : len row = len (ts_observed ts)).
  { rewrite Forall_forall in HL. apply HL. apply nth_In. auto. }
  match goal with |- context [for_up 0 ?n ?b ?s] =>
    destruct (for_up_inv model (fun i m' => model_ok card m' /\ same_model m m' /\ represents card m' F /\
       (forall v, masked m mask v = false -> v_lik (var m' v) = v_lik (var m v)) /\
       (forall j, i <= j < len (ts_observed ts) -> masked m mask (nth j (ts_observed ts) 0) = true ->
            v_lik (var m' (nth j (ts_observed ts) 0)) = repeat 1%Qc (card (nth j (ts_observed ts) 0))) /\
       forall a, valid card a -> NipSpec.evidence m' a = (given (forallb (agree1 m mask ts t a) (seq 0 i)) 1 * NipSpec.evidence m a)%Qc) b 0 n s)
      as (m1 & E1 & A1 & A2 & A3 & A4 & _ & A5) end.
  { lia. }
  { split; auto. split; [apply same_model_refl|]. split; auto. split; [auto|]. split.
    - intros j Hj. apply HN. apply HV. apply nth_In. lia.
    - intros a Ha. cbn [seq forallb given]. ring. }
  { intros i mi Hi (B1 & B2 & B3 & B6 & B4 & B5).
    assert (Li : len (m_vars mi) = len (m_vars m)) by apply B2.
    rewrite (rd_ok _ (ts_observed ts) i 0) by lia. cbn [bind].
    set (v := nth i (ts_observed ts) 0) in *.
    assert (Hv : v < len (m_vars m)) by (apply HV; apply nth_In; lia).
    rewrite rd_var by lia. cbn [bind].
    assert (Mk : v_mark (var mi v) = v_mark (var m v)).
    { destruct B2 as (_ & _ & SV & _). apply SV. }
    rewrite Mk.
    assert (SQ : forall a, forallb (agree1 m mask ts t a) (seq 0 (S i)) =
       (forallb (agree1 m mask ts t a) (seq 0 i) && agree1 m mask ts t a i)%bool).
    { intros a. rewrite seq_S, forallb_app. simpl. now rewrite andb_true_r. }
    assert (MV : masked m mask v = negb (Nat.eqb (Nat.land (v_mark (var m v)) mask) 0)) by reflexivity.
    destruct (Nat.eqb (Nat.land (v_mark (var m v)) mask) 0) eqn:EM; cbn [negb] in MV.
    { exists mi. split; [reflexivity|]. split; auto. split; auto. split; auto. split; auto.
      split; [intros j Hj; apply B4; lia|]. intros a Ha. rewrite SQ. unfold agree1 at 2. fold v. rewrite MV.
      cbn [negb orb]. rewrite andb_true_r. auto. }
    rewrite (rd_ok _ (ts_data ts) t []) by auto. cbn [bind]. fold row.
    rewrite (rd_ok _ row i 0%Z) by lia. cbn [bind].
    assert (EE : nth i row 0%Z = NipSpec.entry ts t i) by reflexivity. rewrite EE.
    destruct (Z.leb_spec 0 (NipSpec.entry ts t i)) as [P|P].
    2: { exists mi. split; [reflexivity|]. split; auto. split; auto. split; auto. split; auto.
      split; [intros j Hj; apply B4; lia|]. intros a Ha. rewrite SQ. unfold agree1 at 2.
      rewrite (proj2 (Z.ltb_lt _ _) P). rewrite orb_true_r. cbn [orb]. rewrite andb_true_r. auto. }
    rewrite (enter_index_ok card) by (auto; lia).
    set (e := indicator (card v) (NipSpec.entry ts t i)).
    destruct (enter_evidence_ok card mi v e F B1 B3) as (m' & Ee & C1 & C2 & C3 & C4 & C5 & C6); [lia|apply indicator_ok|].
    rewrite Ee. cbn [bind]. exists m'. split; [reflexivity|]. split; auto.
    split; [eapply same_model_trans; eauto|].
    assert (Ones : v_lik (var mi v) = repeat 1%Qc (card v)) by (apply B4; [lia|exact MV]).
    split. { apply C6. intros (k & Hk & K1 & _). rewrite Ones in K1, Hk. rewrite repeat_length in Hk.
      rewrite nth_repeat_lt in K1 by auto. discriminate. }
    split. { intros w Hw. rewrite C3. destruct (Nat.eqb_spec w v) as [->|K]; [congruence|auto]. }
    split. { intros j Hj. rewrite C3. destruct (Nat.eqb_spec (nth j (ts_observed ts) 0) v) as [K|K].
      - unfold v in K. apply (proj1 (NoDup_nth _ 0) ND) in K; lia.
      - apply B4. lia. }
    intros a Ha. rewrite SQ.
    assert (EV : NipSpec.evidence m' a = (at_state e v a * NipSpec.evidence mi a)%Qc).
    { unfold NipSpec.evidence. assert (L' : len (m_vars m') = len (m_vars mi)) by apply C2. rewrite L'.
      rewrite (weight_ext _ (fun w => v_lik (var m' w)) (fun w => if Nat.eqb w v then e else v_lik (var mi w))) by auto.
      destruct (weight_change (len (m_vars mi)) (fun w => v_lik (var mi w)) v e a) as (r & R1 & R2); [lia|].
      rewrite R1, R2. rewrite Ones, at_ones by auto. ring. }
    rewrite EV, B5 by auto. unfold e. rewrite at_indicator by auto.
    assert (AI : agree1 m mask ts t a i = (NipSpec.entry ts t i =? Z.of_nat (a v))%Z).
    { unfold agree1. fold v. rewrite MV. cbn [negb]. now rewrite (proj2 (Z.ltb_ge _ _) P). }
    rewrite AI.
    destruct (forallb (agree1 m mask ts t a) (seq 0 i)), (_ =? _)%Z; cbn [given andb]; ring. }
  rewrite E1. cbn [bind]. exists m1. auto 7.
Qed.

(** ** One step *)
Lemma masked_same : forall m m' mask v, same_model m m' -> masked m' mask v = masked m mask v.
Proof. intros m m' mask v (_ & _ & SV & _). unfold masked. destruct (SV v) as (_ & _ & _ & _ & ->). reflexivity. Qed.
Lemma agree_same : forall m m' mask ts t a, same_model m m' -> agree_on m' mask ts t a = agree_on m mask ts t a.
Proof.
  intros m m' mask ts t a S. unfold agree_on. apply forallb_ext_in. intros j _. unfold agree1. now rewrite (masked_same m m').
Qed.

Section Step.
Variable card : nat -> nat.
Variable m0 : model.
Hypothesis HM : slices_ok card m0.
(** Every variable is in one of the two groups. *)
Hypothesis HG : forall v, v < len (m_vars m0) -> masked m0 MARK_OFF v = negb (masked m0 MARK_ON v).
Local Notation n := (len (m_vars m0)).

Definition weight_of (hist : bool) (a : nat -> nat) : Qc := (original m0 a * slice_priors m0 hist a)%Qc.
Definition mass_of (hist : bool) (p : (nat -> nat) -> bool) : Qc :=
  sumv card (seq 0 n) (fun a => given (p a) (weight_of hist a)) (fun _ => 0).

Lemma consistent_mass : forall m F p, model_ok card m -> same_model m0 m -> represents card m F ->
  (forall a, valid card a -> NipSpec.evidence m a = given (p a) 1%Qc) ->
  exists m1 m2, make_consistent_model m = Ok m1 /\
    model_prob_mass m1 = Ok (m2, sumv card (seq 0 n) (fun a => given (p a) (original m0 a * F a))%Qc (fun _ => 0)) /\
    model_ok card m2 /\ same_model m0 m2 /\ represents card m2 F /\ (forall v, v_lik (var m2 v) = v_lik (var m v)) /\
    (forall a, NipSpec.evidence m2 a = NipSpec.evidence m a).
Proof.
  intros m F p M1 S1 R1 EV. destruct (make_consistent_model_ok card m M1) as (jt' & E & _ & M2 & S2 & C2 & J2).
  destruct (mass_ok card _ M2 C2) as (j2 & E2 & M3 & S3 & C3 & J3). change (set_jt (set_jt m jt') j2) with (set_jt m j2) in *.
  assert (SS : same_model m (set_jt m j2)) by (eapply same_model_trans; eauto).
  eexists. exists (set_jt m j2). split; [exact E|]. split.
  { rewrite E2. do 2 f_equal. unfold sum_all. assert (L : len (m_vars (set_jt m jt')) = n).
    { assert (K : same_model m0 (set_jt m jt')) by (eapply same_model_trans; eauto). apply K. }
    rewrite L. apply sumv_ext; [now apply (zero_valid card m)|]. intros a Ha. cbn [m_jt set_jt].
    rewrite J2, R1, EV, (same_original m0 m a S1) by auto. destruct (p a); cbn [given]; ring. }
  split; auto. split; [eapply same_model_trans; eauto|]. split.
  { apply represents_jt; auto; [apply SS|]. intros a Ha. rewrite J3. cbn [m_jt set_jt]. auto. }
  split; [reflexivity|]. intros a. reflexivity.
Qed.

Lemma step_ok : forall ts t hist m, series_ok m0 ts -> t < len (ts_data ts) -> fresh card m0 hist m ->
  exists m', likelihood_step ts t m = Ok (m', (mass_of hist (agree_on m0 MARK_OFF ts t),
      mass_of hist (fun a => agree_on m0 MARK_OFF ts t a && agree_on m0 MARK_ON ts t a)%bool)) /\
    fresh card m0 true m'.
Proof.
  intros ts t hist m SR Ht (M1 & S1 & N1 & R1). unfold likelihood_step.
  assert (L1 : len (m_vars m) = n) by apply S1.
  assert (SR1 : series_ok m ts). { destruct SR as (A & B & C). split; auto. rewrite L1. auto. }
  destruct (insert_masked card m MARK_OFF ts t _ M1 SR1 Ht R1) as (ma & Ea & Ma & Sa & Ra & La & Va).
  { intros v Hv _. auto. }
  rewrite Ea. cbn [bind]. assert (SA : same_model m0 ma) by (eapply same_model_trans; eauto).
  assert (EA : forall a, valid card a -> NipSpec.evidence ma a = given (agree_on m0 MARK_OFF ts t a) 1%Qc).
  { intros a Ha. rewrite Va, (no_evidence_one card m a N1 Ha), (agree_same m0 m) by auto. ring. }
  destruct (consistent_mass ma _ _ Ma SA Ra EA) as (mb & mc & Eb & Ec & Mc & Sc & Rc & Lc & Vc).
  rewrite Eb. cbn [bind]. rewrite Ec. cbn [bind].
  assert (LC : len (m_vars mc) = n) by apply Sc.
  assert (SRc : series_ok mc ts). { destruct SR as (A & B & C). split; auto. rewrite LC. auto. }
  destruct (insert_masked card mc MARK_ON ts t _ Mc SRc Ht Rc) as (md & Ed & Md & Sd & Rd & Ld & Vd).
  { intros v Hv K. rewrite Lc, La; [apply N1; lia|]. rewrite (masked_same m0 mc) in K by auto. rewrite (masked_same m0 m) by auto.
    rewrite HG by lia. now rewrite K. }
  rewrite Ed. cbn [bind]. assert (SD : same_model m0 md) by (eapply same_model_trans; eauto).
  assert (ED : forall a, valid card a -> NipSpec.evidence md a =
     given (agree_on m0 MARK_OFF ts t a && agree_on m0 MARK_ON ts t a)%bool 1%Qc).
  { intros a Ha. rewrite Vd, Vc, EA, (agree_same m0 mc) by auto.
    destruct (agree_on m0 MARK_OFF ts t a), (agree_on m0 MARK_ON ts t a); cbn [given andb]; ring. }
  destruct (consistent_mass md _ _ Md SD Rd ED) as (me & mf & Ee & Ef & Mf & Sf & Rf & Lf & Vf).
  rewrite Ee. cbn [bind]. rewrite Ef. cbn [bind].
  destruct (next_fresh card m0 HM mf true Mf Sf) as (mg & mh & E1 & E2 & F2). rewrite E1. cbn [bind]. rewrite E2. cbn [bind].
  exists mh. split; [reflexivity|exact F2].
Qed.

Lemma likelihood_all_ok : forall ss m, model_ok card m -> same_model m0 m -> Forall (fun ts => fit_series n ts) ss ->
  exists ls, likelihood_all m ss = Ok ls /\
    Forall2 (fun ts l => len l = s_length ts /\ forall s, s < s_length ts ->
      nth s l (0, 0)%Qc = (mass_of (Nat.ltb 0 s) (agree_on m0 MARK_OFF (to_ts ts) s),
        mass_of (Nat.ltb 0 s) (fun a => agree_on m0 MARK_OFF (to_ts ts) s a && agree_on m0 MARK_ON (to_ts ts) s a)%bool)) ss ls.
Proof.
  induction ss as [|ts ss IH]; intros m M1 S1 FF; cbn [likelihood_all].
  - exists []. auto.
  - inversion FF as [|? ? F FF']; subst. destruct (next_fresh card m0 HM m false M1 S1) as (ma & mb & E1 & E2 & F2).
    rewrite E1. cbn [bind]. rewrite E2. cbn [bind].
    assert (SR : series_ok m0 (to_ts ts)) by (now apply to_ts_ok). assert (LT := to_ts_len _ ts F).
    match goal with |- context [for_up 0 ?k ?b ?s0] =>
      destruct (for_up_inv (model * list (Qc * Qc)) (fun i '(m', l) => fresh card m0 (Nat.ltb 0 i) m' /\ len l = i /\
        forall s, s < i -> nth s l (0, 0)%Qc = (mass_of (Nat.ltb 0 s) (agree_on m0 MARK_OFF (to_ts ts) s),
         mass_of (Nat.ltb 0 s) (fun a => agree_on m0 MARK_OFF (to_ts ts) s a && agree_on m0 MARK_ON (to_ts ts) s a)%bool)) b 0 k s0)
        as ((mc & l) & E3 & F3 & L3 & H3) end.
    { lia. }
    { split; auto. split; auto. intros s Hs. lia. }
    { intros i (mi & l) Hi (Fi & Li & Hl). destruct (step_ok (to_ts ts) i _ mi SR ltac:(lia) Fi) as (mj & Ej & Fj).
      rewrite Ej. cbn [bind]. eexists. split; [reflexivity|]. split; [exact Fj|].
      split; [rewrite app_length; cbn; lia|]. intros s Hs. destruct (Nat.eq_dec s i) as [->|N].
      - rewrite app_nth2 by lia. now rewrite Li, Nat.sub_diag.
      - rewrite app_nth1 by lia. apply Hl. lia. }
    rewrite E3. cbn [bind]. destruct F3 as (M3 & S3 & _). destruct (IH mc M3 S3 FF') as (ls & E4 & H4). rewrite E4. cbn [bind].
    exists (l :: ls). split; auto.
Qed.
End Step.
