(** * Proofs: a batch of niptrain *)
From Coq Require Import String Ascii Permutation QArith.Qcanon Field.
From Verif Require Import Base BaseProofs StringSpec PotentialModel PotentialSpec PotentialProofs VariableModel AssignSpec AssignProofs
  JoinTreeModel JoinTreeSpec JoinTreeProofs NipModel NipSpec NipProofs NipProofs2 SliceModel SliceSpec SliceProofs SliceProofs2 SliceProofs4
  LearnModel LearnSpec LearnProofs2 LearnProofs3 LearnProofs4 LearnProofs5 FactorProofs SeriesFileModel SeriesFileSpec
  GraphModel ParseModel ParseSpec ParseProofs3 ParseProofs5 ParseProofs6 ParseProofs8 ParseProofs9
  NetLexModel NetGrammarModel NetSpec WriteSpec WriteProofs9 LearnProofs8 ToolModel ToolSpec ToolSpec3 ToolProofs ToolProofs9 ToolProofs10.
Import ListNotations.
Open Scope nat_scope.
Local Open Scope res_scope.
Local Notation len := List.length.

Add Field Qcfield_tool11 : Qcft.

Lemma qprod_pos : forall A (f : A -> Qc) l, (forall x, In x l -> (0 < f x)%Qc) -> (0 < qprod (map f l))%Qc.
Proof.
  induction l as [|x l IH]; intros H; [reflexivity|]. cbn [map qprod fold_right]. apply Qc_mul_pos; [apply H; now left|].
  apply IH. intros; apply H; now right.
Qed.
Lemma qprod_zero : forall A (f : A -> Qc) l x, In x l -> f x = 0%Qc -> qprod (map f l) = 0%Qc.
Proof.
  induction l as [|y l IH]; intros x H E; [destruct H|]. destruct H as [->|H]; cbn [map qprod fold_right].
  - rewrite E. ring.
  - change (f y * qprod (map f l) = 0)%Qc. rewrite (IH x) by auto. ring.
Qed.
Lemma qsum_const : forall A (l : list A) c, qsum (map (fun _ => c) l) = (Q2Qc (QArith_base.inject_Z (Z.of_nat (len l))) * c)%Qc.
Proof.
  induction l as [|x l IH]; intros c.
  - change (0 = 0 * c)%Qc. ring.
  - change (qsum (map (fun _ => c) (x :: l))) with (c + qsum (map (fun _ => c) l))%Qc. rewrite IH.
    replace (Q2Qc (QArith_base.inject_Z (Z.of_nat (len (x :: l))))) with (1 + Q2Qc (QArith_base.inject_Z (Z.of_nat (len l))))%Qc; [ring|].
    apply Qc_is_canon. cbn [this Qcplus Q2Qc]. rewrite !Qreduction.Qred_correct.
    change (len (x :: l)) with (S (len l)). rewrite Nat2Z.inj_succ, <- Z.add_1_l, QArith_base.inject_Z_plus. reflexivity.
Qed.
Lemma estimates_more : forall ss u l w, estimates ss u l w -> forall w', next_estimate ss w w' -> estimates ss u (l ++ [probability w' ss]) w'.
Proof.
  induction 1 as [t|t u l w N E IH]; intros w' H; cbn [app].
  - eapply est_next; eauto. apply est_last.
  - eapply est_next; eauto.
Qed.
Lemma estimates_network : forall ss u l w, estimates ss u l w -> same_network u w.
Proof.
  induction 1 as [t|t u l w (N & _) E IH]; [now repeat split|]. destruct N as (A & B & C). destruct IH as (A' & B' & C').
  repeat split; congruence.
Qed.

Section Batch.
Variable t : net.
Hypothesis NO : net_ok t.
Hypothesis CF : children_first t.
Hypothesis TS : two_slices t.
Variable names : list named_variable.
Variable m0 : model.
Hypothesis P : parsed t names m0.
Hypothesis MK : forall v, v < len (m_vars m0) -> v_mark (var m0 v) = MARK_ON.
Local Notation card := (card_in t).
Local Notation n := (ParseSpec.size t).
Local Notation fam v := (family_of t (decl_of t v)).
Local Notation good := (good_tables t).
Local Notation net_of qs := (with_tables t qs).
Local Notation has := (has_tables t m0).
Local Notation same := (same_cond t m0).
Variable ss : list series.
Hypothesis FS : Forall (fit_series n) ss.
Local Notation data := (map to_ts ss).
Let BL := base_learnable t NO CF TS names m0 P.
Let LN := base_len t names m0 P.
Let BF := base_family t NO names m0 P.

Lemma with_same : forall a b, same_network (net_of a) (net_of b).
Proof. intros a b. split; [reflexivity|]. cbn [with_tables n_potentials]. rewrite !map_map. split; reflexivity. Qed.
Lemma total_net : forall qs m, has qs m -> total_likelihood card m data = probability (net_of qs) ss.
Proof.
  intros qs m H. unfold total_likelihood, probability. rewrite map_map. f_equal. apply map_ext_in. intros ts Hts.
  eapply likelihood_net; eauto. rewrite Forall_forall in FS. auto.
Qed.
Lemma expected_all : forall qs m v x, has qs m -> v < n -> valid card x -> total_expected card m data v (map x (fam v)) = expected_count (net_of qs) ss v x.
Proof.
  intros qs m v x H Hv Hx. unfold total_expected, expected_count. rewrite map_map. f_equal. apply map_ext_in. intros ts Hts.
  eapply expected_net; eauto. rewrite Forall_forall in FS. auto.
Qed.
Lemma params_here : forall m ps, same_structure m0 m -> params_ok card m ps -> params_ok card m0 ps.
Proof.
  intros m ps S (A & B). destruct S as (S1 & S2 & S3 & S4 & S5). split; [congruence|]. intros v Hv. destruct (B v) as (B1 & B2 & B3); [lia|].
  unfold family in *. destruct (S4 v) as (_ & E & _). rewrite E in B2. auto.
Qed.
Lemma positive_here : forall m ps, same_structure m0 m -> positive_params t m ps -> positive_params t m0 ps.
Proof.
  intros m ps S B v a Hv Ha. rewrite <- (structure_family m0 m v S). apply B; auto. destruct S as (_ & _ & -> & _). auto.
Qed.
Lemma entry_cond : forall ps qs v x, good qs -> same ps qs -> v < n -> valid card x -> WriteSpec.entry (net_of qs) v x = LearnSpec.cond card m0 ps v x.
Proof.
  intros ps qs v x G S Hv Hx. rewrite <- S by auto. rewrite (good_cond t NO qs G names m0 P) by auto. now apply with_entry.
Qed.

Lemma round_estimate : forall m ps l m1 ps1, em_round card data m ps l m1 ps1 -> same_structure m0 m -> params_ok card m ps -> positive_params t m ps ->
  same_structure m0 m1 /\ params_ok card m1 ps1 /\ positive_params t m1 ps1 /\
  exists qs, has qs m1 /\ same ps qs /\ l = probability (net_of qs) ss /\
    forall qs1, good qs1 -> same ps1 qs1 -> next_estimate ss (net_of qs) (net_of qs1).
Proof.
  intros m ps l m1 ps1 (S1 & I & L & C & HL & P1 & _) S HP PP.
  assert (S01 := same_structure_trans _ _ _ S S1). split; auto. split; auto.
  destruct (gain_tables t NO CF TS names m0 P ps (params_here m ps S HP) (positive_here m ps S PP)) as (qs & G & SC).
  assert (H : has qs m1). { split; auto. split; auto. split; auto. exact (installed_here t names m0 P m ps qs m1 S S01 SC I). }
  assert (CE : forall v a, v < n -> valid card a -> den (fam v) (param ps1 v) a = (1 + expected_count (net_of qs) ss v a)%Qc).
  { intros v a Hv Ha. unfold den. rewrite (C v (map a (fam v))).
    - now rewrite (expected_all qs m1).
    - destruct S as (_ & _ & -> & _). now rewrite LN.
    - rewrite (structure_family m0 m v S), BF by auto. unfold valid_ix. clear -Ha. induction (fam v); cbn; constructor; auto. }
  assert (EP : forall v a, v < n -> valid card a -> (0 <= expected_count (net_of qs) ss v a)%Qc).
  { intros v a Hv Ha. rewrite <- (expected_all qs m1) by auto. apply total_expected_nonneg. apply HL. }
  split.
  - intros v a Hv Ha. rewrite (structure_family m0 m1 v S01). assert (Hv' : v < n) by (destruct S01 as (_ & _ & E & _); rewrite E, LN in Hv; exact Hv).
    rewrite BF, CE by auto. apply Qcplus_pos; [reflexivity|auto].
  - exists qs. split; auto. split; auto. split; [rewrite L; now apply total_net|].
    intros qs1 G1 SC1. split; [apply with_same|]. intros v x Hv Hx.
    change (ParseSpec.size (net_of qs)) with n in Hv. change (card_in (net_of qs)) with card in *.
    rewrite (entry_cond ps1) by auto. unfold LearnSpec.cond, LearnSpec.column. rewrite BF by auto. rewrite CE by auto.
    apply (f_equal (fun z => (_ / z)%Qc)). apply sumv_ext; auto.
Qed.
Lemma rounds_estimates : forall m ps ls m1 ps1, em_rounds card data m ps ls m1 ps1 ->
  same_structure m0 m -> params_ok card m ps -> positive_params t m ps ->
  same_structure m0 m1 /\ params_ok card m1 ps1 /\ positive_params t m1 ps1 /\
  ((ls = [] /\ m1 = m /\ ps1 = ps) \/
   exists qs1 qs, good qs1 /\ same ps qs1 /\ has qs m1 /\ estimates ss (net_of qs1) ls (net_of qs) /\
     forall qs', good qs' -> same ps1 qs' -> next_estimate ss (net_of qs) (net_of qs')).
Proof.
  induction 1 as [m ps|m ps l m1 ps1 ls m2 ps2 R RS IH]; intros S HP PP; [tauto|].
  destruct (round_estimate _ _ _ _ _ R S HP PP) as (S1 & P1 & PP1 & qs & H & SC & L & N).
  destruct (IH S1 P1 PP1) as (S2 & P2 & PP2 & D). split; auto. split; auto. split; auto. right. destruct D as [(-> & -> & ->)|(q1 & q & G1 & SC1 & H2 & E & N2)].
  - exists qs, qs. split; [apply H|]. split; auto. split; auto. split; auto. rewrite L. apply est_last.
  - exists qs, q. split; [apply H|]. split; auto. split; auto. split; auto. rewrite L. eapply est_next; [|exact E]. apply N; auto.
Qed.

(** What a batch starts from. *)
Definition batch_start (random : option (nat -> nat -> Qc)) (m : model) (u1 : net) : Prop :=
  match random with
  | Some rnd => random_tables rnd t u1
  | None => forall qs, has qs m -> without_priors (net_of qs) u1
  end.
Definition ready (random : option (nat -> nat -> Qc)) (m : model) : Prop :=
  learnable card m /\ same_structure m0 m /\
  match random with
  | Some rnd => forall v i, (0 < rnd v i)%Qc
  | None => exists qs, has qs m
  end.
Lemma orig_pos : forall qs m k a, has qs m -> k < len (cls (m_jt m)) -> valid card a ->
  (0 < den (c_vars (clq (m_jt m) k)) (c_orig (clq (m_jt m) k)) a)%Qc.
Proof.
  intros qs m k a (G & HL & S & _ & I & _) Hk Ha. rewrite I by auto. apply qprod_pos. intros v Hv. unfold housed in Hv. apply filter_In in Hv.
  destruct Hv as (Hv & _). apply in_seq in Hv. assert (Hv' : v < n) by (destruct S as (_ & _ & E & _); rewrite E, LN in Hv; lia).
  rewrite (good_cond t NO qs G names m0 P) by auto. now apply G.
Qed.
Lemma ready_initial : forall random m, ready random m -> initial_ok card m random.
Proof.
  intros random m (HL & S & R). destruct random as [rnd|]; cbn [initial_ok].
  - split; [intros; now apply Qclt_le_weak|]. intros v c Hv. exists 0. split; [apply cards_pos; auto|auto].
  - destruct R as (qs & H). intros k v a Hk Hv _ Ha. apply Qc_pos_neq. apply sumv_pos; auto.
    + apply cards_pos; auto.
    + intros b Hb. eapply orig_pos; eauto.
Qed.
Lemma ready_positive : forall random m ps, ready random m -> params_ok card m ps -> starts_from card m random ps -> positive_params t m ps.
Proof.
  intros random m ps (HL & S & R) (_ & HP) ST v a Hv Ha. specialize (ST v Hv). destruct (HP v Hv) as ((_ & L & _) & D & _). destruct random as [rnd|].
  - unfold den, cell. rewrite ST. assert (VI : valid_ix (map card (family m v)) (map a (family m v))).
    { unfold valid_ix. clear -Ha. induction (family m v); cbn; constructor; auto. }
    rewrite D. assert (K := flat_lt _ _ VI). rewrite (nth_indep _ _ (rnd v 0)) by (rewrite map_length, seq_length; auto).
    rewrite map_nth, seq_nth by auto. apply R.
  - cbv zeta in ST. rewrite ST by auto. destruct R as (qs & H). apply sumv_pos; auto.
    + apply cards_pos; auto.
    + intros b Hb. eapply orig_pos; eauto. apply (home_ok card m HL v Hv).
Qed.
Lemma start_tables : forall random m ps qs1, ready random m -> params_ok card m ps -> columns_positive card m ps -> starts_from card m random ps ->
  good qs1 -> same ps qs1 -> batch_start random m (net_of qs1).
Proof.
  intros random m ps qs1 (HL & S & R) HP CP ST G1 SC. assert (LM : len (m_vars m) = n) by (destruct S as (_ & _ & -> & _); exact LN).
  assert (SF := fun v => structure_family m0 m v S).
  destruct random as [rnd|]; cbn [batch_start].
  - split; [apply with_network|]. intros v x Hv Hx. cbv zeta. rewrite (entry_cond ps) by auto. unfold LearnSpec.cond, LearnSpec.column. rewrite BF by auto.
    assert (D : forall y, valid card y -> den (fam v) (param ps v) y = rnd v (flat (map card (fam v)) (map y (fam v)))).
    { intros y Hy. specialize (ST v ltac:(lia)). cbv iota in ST. destruct HP as (_ & HP). destruct (HP v ltac:(lia)) as (_ & D & _). rewrite SF, BF in D, ST by auto.
      unfold den, cell. rewrite ST, D. assert (VI : valid_ix (map card (fam v)) (map y (fam v))).
      { unfold valid_ix. clear -Hy. induction (fam v); cbn; constructor; auto. }
      assert (K := flat_lt _ _ VI). rewrite (nth_indep _ _ (rnd v 0)) by (rewrite map_length, seq_length; auto).
      now rewrite map_nth, seq_nth by auto. }
    rewrite D by auto. apply (f_equal (fun z => (_ / z)%Qc)). apply sumv_ext; auto.
  - intros qs (G & _ & _ & I). split; [apply with_same|]. intros v x Hv Hx.
    change (ParseSpec.size (net_of qs)) with n in Hv. change (card_in (net_of qs)) with card in *.
    assert (HC : conditional_factors card m (LearnSpec.cond card m0 qs)).
    { intros w Hw _. split.
      - intros a b Hab. apply (cond_dep card m0 BL); [lia|]. intros z Hz. apply Hab. now rewrite SF.
      - intros a Ha. transitivity (sumv card [w] (den (fam w) (param qs w)) a); [|apply G; auto; lia].
        apply sumv_ext; auto. intros b Hb. apply (good_cond t NO qs G names m0 P); auto; lia. }
    destruct (marginal_cond card m HL (LearnSpec.cond card m0 qs) (proj1 (proj2 I)) HC ps HP CP ST v ltac:(lia)) as (M1 & M2).
    assert (CS : forall a, LearnSpec.cond card m ps v a = LearnSpec.cond card m0 ps v a) by (intros a; now apply cond_structure).
    rewrite (entry_cond ps) by auto. rewrite (with_parents t NO qs v Hv).
    assert (VP : v_parents (var m v) = parents_of t (decl_of t v)).
    { destruct S as (_ & _ & _ & S4 & _). destruct (S4 v) as (_ & -> & _). now apply P. }
    rewrite <- CS. destruct (parents_of t (decl_of t v)) as [|w l] eqn:EP.
    + specialize (M2 VP). assert (K := cond_sum card m HL ps v x HP ltac:(lia) (CP v x ltac:(lia) Hx)).
      cbn [sumv] in K. assert (CV := cards_pos t NO v).
      rewrite (map_ext_in _ (fun _ => LearnSpec.cond card m ps v x)) in K.
      * rewrite qsum_const, seq_length in K. rewrite <- K.
        set (q := Q2Qc (QArith_base.inject_Z (Z.of_nat (card v)))) in *. field. intros E. rewrite E in K.
        assert (Z0 : (0 * LearnSpec.cond card m ps v x)%Qc = 0%Qc) by ring. rewrite Z0 in K. discriminate K.
      * intros k Hk. apply in_seq in Hk. apply M2; auto. apply upd_valid; auto. lia.
    + rewrite M1 by (auto; congruence). rewrite (good_cond t NO qs G names m0 P) by auto. symmetry. now apply with_entry.
Qed.

Lemma batch_ok : forall random m mx growth tiny curve, ready random m -> ss <> [] ->
  exists m' o u1 qs ls vs, em_learn m data random mx growth tiny curve = Ok (m', o) /\
    batch_start random m u1 /\ has qs m' /\ estimates ss u1 vs (net_of qs) /\
    o_curve o = curve ++ ls /\ len ls <= Nat.max 3 (Z.to_nat mx) /\
    ((o_code o = NO_ERROR /\ vs = ls /\ 3 <= len ls /\ (last ls 0%Qc <= 1)%Qc /\
      ((o_criterion o = Some DELTA /\ ~ improves growth (nth (len ls - 2) ls 0%Qc) (last ls 0%Qc)) \/
       (o_criterion o = Some ITERATIONS /\ (mx <= Z.of_nat (len ls))%Z))) \/
     (o_code o = BAD_LUCK /\ o_criterion o = None)).
Proof.
  intros random m mx growth tiny curve R NE.
  assert (R0 := R). destruct R0 as (HL & S & _).
  assert (NE' : data <> []) by (destruct ss; [congruence|discriminate]).
  assert (LM : len (m_vars m) = n) by (destruct S as (_ & _ & -> & _); exact LN).
  assert (SO : Forall (series_ok m) data).
  { apply Forall_map. eapply Forall_impl; [|exact FS]. intros ts H. apply to_ts_ok. now rewrite LM. }
  destruct (em_learn_ok card m data random mx growth tiny curve HL NE' SO (ready_initial random m R)) as
    (ps0 & ls & m1 & ps1 & m' & o & E & P0 & C0 & ST & RS & HL' & S' & LE & OC & _ & FIN).
  assert (PP := ready_positive random m ps0 R P0 ST).
  destruct (rounds_estimates m ps0 ls m1 ps1 RS S P0 PP) as (S1 & P1 & PP1 & D).
  assert (S0' := same_structure_trans _ _ _ S S').
  assert (LASTN : forall A (l : list A) d, nth (len l - 1) l d = last l d).
  { intros A l d. induction l as [|x [|y l] IH]; auto. change (last (x :: y :: l) d) with (last (y :: l) d). rewrite <- IH. cbn [List.length Nat.sub]. now rewrite !Nat.sub_0_r. }
  destruct FIN as [(OK & -> & L3 & ND & CR & _ & _)|(OK & ON & FIN)].
  - destruct D as [(-> & _)|(qs1 & qs & G1 & SC & H & ES & _)]; [cbn in L3; lia|].
    exists m1, o, (net_of qs1), qs, ls, ls. split; auto. split; [eapply start_tables; eauto|]. split; auto. split; auto. split; auto. split; auto.
    left. split; auto. split; auto. split; auto. cbv zeta in ND, CR. rewrite LASTN in ND, CR. split.
    + apply Qcnot_lt_le. intros K. apply ND. now right.
    + assert (EN : nth (len ls - 1) (tiny :: ls) 0%Qc = nth (len ls - 2) ls 0%Qc).
      { destruct (len ls) as [|[|k]] eqn:EL; [lia|lia|]. cbn [Nat.sub nth]. now rewrite Nat.sub_0_r. }
      rewrite EN in CR. destruct CR as [CR|(CR & _ & CX)]; [left|right]; auto.
  - destruct (gain_tables t NO CF TS names m0 P ps1 (params_here m1 ps1 S1 P1) (positive_here m1 ps1 S1 PP1)) as (q' & G' & SC').
    destruct FIN as [(-> & NL & _)|(I & _)].
    + destruct D as [(-> & _)|(qs1 & qs & G1 & SC & H & ES & _)]; [congruence|].
      exists m1, o, (net_of qs1), qs, ls, ls. split; auto. split; [eapply start_tables; eauto|]. split; auto. split; auto.
    + assert (H : has q' m'). { split; auto. split; auto. split; auto. exact (installed_here t names m0 P m1 ps1 q' m' S1 S0' SC' I). }
      destruct D as [(-> & -> & ->)|(qs1 & qs & G1 & SC & H1 & ES & NX)].
      * exists m', o, (net_of q'), q', [], [probability (net_of q') ss]. split; auto. split; [eapply start_tables; eauto|]. split; auto. split; [apply est_last|].
        split; auto.
      * exists m', o, (net_of qs1), q', ls, (ls ++ [probability (net_of q') ss]). split; auto. split; [eapply start_tables; eauto|]. split; auto.
        split; [|split; auto]. eapply estimates_more; eauto.
Qed.
End Batch.
