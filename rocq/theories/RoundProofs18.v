(** * Rounded arithmetic: the theorems of C88 *)
From Coq Require Import ZArith QArith Qcanon Lia String.
From Verif Require Import Base BaseProofs PotentialModel PotentialSpec PotentialProofs PotentialProofs2 PotentialProofs3 VariableModel JoinTreeModel AssignSpec
  JoinTreeSpec NipModel NipSpec SliceModel SliceSpec LearnModel LearnSpec LearnProofs RoundModel RoundModel2 RoundSpec RoundSpec2
  RoundProofs RoundProofs2 RoundProofs3 RoundProofs10 RoundProofs11 RoundProofs12 RoundProofs17.
Import ListNotations.
Open Scope nat_scope.
Local Open Scope list_scope.
Local Open Scope res_scope.

(** ** Roundings and accounts that are defined more often *)
Lemma le_each_any : forall A l (f f' : nat -> A -> res (A * code)) s, (forall i s, le_res (f i s) (f' i s)) ->
  le_res (each l f s) (each l f' s).
Proof.
  intros A. induction l as [|x l IH]; intros f f' jt H; [apply le_refl_res|]. cbn [each].
  apply le_bind; auto. intros (j & e). destruct (is_err e); [apply le_refl_res|now apply IH].
Qed.
Ltac le_go := repeat first [le_step | apply le_each_any; intros].

Lemma le_dfs : forall A (cf cf' sf sf' : nat -> jtree -> A -> res (jtree * A * code)),
  (forall i j a, le_res (cf i j a) (cf' i j a)) -> (forall i j a, le_res (sf i j a) (sf' i j a)) ->
  forall fuel start jt acc, le_res (join_tree_dfs fuel cf sf start jt acc) (join_tree_dfs fuel cf' sf' start jt acc).
Proof.
  intros A cf cf' sf sf' HC HS. induction fuel as [|f IH]; intros start jt acc; [apply le_refl_res|].
  cbn [join_tree_dfs]. apply le_bind; [apply le_refl_res|]. intros j. apply le_bind; [apply HC|].
  intros ((j1 & a1) & e1). destruct (is_err e1); [apply le_refl_res|].
  apply le_bind; [apply le_refl_res|]. intros k. apply le_bind; [|intros; apply le_refl_res].
  apply le_each_any. intros s (j2 & a2). apply le_bind; [apply le_refl_res|]. intros sp.
  apply le_bind; [apply le_refl_res|]. intros m1. destruct (negb m1).
  - apply le_bind; [apply HS|]. intros ((j3 & a3) & e3). destruct (is_err e3); [apply le_refl_res|].
    apply le_bind; [apply IH|]. intros; apply le_refl_res.
  - apply le_bind; [apply le_refl_res|]. intros m2. destruct (negb m2); [|apply le_refl_res].
    apply le_bind; [apply HS|]. intros ((j3 & a3) & e3). destruct (is_err e3); [apply le_refl_res|].
    apply le_bind; [apply IH|]. intros; apply le_refl_res.
Qed.

Section Lift.
Variables rnd rnd' : Qc -> res Qc.
Hypothesis Hle : forall x, le_res (rnd x) (rnd' x).
Hint Resolve Hle : le_round.
Let H_r_general_marginalise := le_r_general_marginalise rnd rnd' Hle.
Hint Resolve H_r_general_marginalise : le_round.
Let H_r_normalise_potential := le_r_normalise_potential rnd rnd' Hle.
Hint Resolve H_r_normalise_potential : le_round.
Let H_r_finish_message := le_r_finish_message rnd rnd' Hle.
Hint Resolve H_r_finish_message : le_round.
Let H_r_insert_ts_step := le_r_insert_ts_step rnd rnd' Hle.
Hint Resolve H_r_insert_ts_step : le_round.
Let H_r_make_consistent_model := le_r_make_consistent_model rnd rnd' Hle.
Hint Resolve H_r_make_consistent_model : le_round.
Let H_r_start_message := le_r_start_message rnd rnd' Hle.
Hint Resolve H_r_start_message : le_round.
Let H_r_reset_model := le_r_reset_model rnd rnd' Hle.
Hint Resolve H_r_reset_model : le_round.
Let H_r_use_priors := le_r_use_priors rnd rnd' Hle.
Hint Resolve H_r_use_priors : le_round.
Lemma le_r_data_mass : forall x1, le_res (r_data_mass rnd x1) (r_data_mass rnd' x1).
Proof. intros. unfold r_data_mass. le_auto. Qed.
Hint Resolve le_r_data_mass : le_round.
Lemma le_r_clique_mass : forall x1 x2 x3, le_res (r_clique_mass rnd x1 x2 x3) (r_clique_mass rnd' x1 x2 x3).
Proof. intros. unfold r_clique_mass. le_auto. Qed.
Hint Resolve le_r_clique_mass : le_round.
Lemma le_r_neg_sepset_mass : forall x1 x2 x3, le_res (r_neg_sepset_mass rnd x1 x2 x3) (r_neg_sepset_mass rnd' x1 x2 x3).
Proof. intros. unfold r_neg_sepset_mass. le_auto. Qed.
Hint Resolve le_r_neg_sepset_mass : le_round.
Lemma le_r_probability_mass : forall x1, le_res (r_probability_mass rnd x1) (r_probability_mass rnd' x1).
Proof. intros. unfold r_probability_mass. apply le_bind; [apply le_refl_res|]. intros j. apply le_bind; [apply le_dfs; intros; auto with le_round nocore|]. intros; apply le_refl_res. Qed.
Hint Resolve le_r_probability_mass : le_round.
Lemma le_r_model_prob_mass : forall x1, le_res (r_model_prob_mass rnd x1) (r_model_prob_mass rnd' x1).
Proof. intros. unfold r_model_prob_mass. le_auto. Qed.
Hint Resolve le_r_model_prob_mass : le_round.
Lemma le_r_sum_potential : forall x1 x2, le_res (r_sum_potential rnd x1 x2) (r_sum_potential rnd' x1 x2).
Proof. intros. unfold r_sum_potential. le_auto. Qed.
Hint Resolve le_r_sum_potential : le_round.
Lemma le_r_add_counts : forall x1 x2 x3 x4, le_res (r_add_counts rnd x1 x2 x3 x4) (r_add_counts rnd' x1 x2 x3 x4).
Proof. intros. unfold r_add_counts. le_auto. Qed.
Hint Resolve le_r_add_counts : le_round.
Lemma le_r_e_backward : forall x1 x2 x3 x4 x5, le_res (r_e_backward rnd x1 x2 x3 x4 x5) (r_e_backward rnd' x1 x2 x3 x4 x5).
Proof. intros. unfold r_e_backward. le_auto. Qed.
Hint Resolve le_r_e_backward : le_round.

Context {L : Type}.
Variables A A' : account L.
Hypothesis HF : l_first A' = l_first A.
Hypothesis HP : l_positive A' = l_positive A.
Hypothesis HA : forall l x y, le_res (l_add A l x y) (l_add A' l x y).
Hint Resolve HA : le_round.
Lemma le_r_e_forward_step : forall x1 x2 x3 x4 x5, le_res (r_e_forward_step rnd A x1 x2 x3 x4 x5) (r_e_forward_step rnd' A' x1 x2 x3 x4 x5).
Proof. intros. unfold r_e_forward_step. rewrite HP. cbv zeta. le_auto. Qed.
Hint Resolve le_r_e_forward_step : le_round.
Lemma le_r_e_forward : forall x1 x2 x3 x4 x5 x6, le_res (r_e_forward rnd A x1 x2 x3 x4 x5 x6) (r_e_forward rnd' A' x1 x2 x3 x4 x5 x6).
Proof. induction x2 as [|k IH]; intros; [apply le_refl_res|]. cbn [r_e_forward]. le_auto. Qed.
Hint Resolve le_r_e_forward : le_round.
Lemma le_r_e_step : forall x1 x2 x3, le_res (r_e_step rnd A x1 x2 x3) (r_e_step rnd' A' x1 x2 x3).
Proof. intros. unfold r_e_step. rewrite HF. cbv zeta. le_auto. Qed.
End Lift.

(** An account made total. *)
Definition total_account {L} (A : account L) : account L :=
  mkAccount L (l_first A) (fun l x y => match l_add A l x y with Ok z => Ok z | _ => Ok l end) (l_positive A).
Lemma total_account_total : forall L (A : account L) l x y, exists l', l_add (total_account A) l x y = Ok l'.
Proof. intros. cbn. destruct (l_add A l x y); eauto. Qed.
Lemma total_account_le : forall L (A : account L) l x y, le_res (l_add A l x y) (l_add (total_account A) l x y).
Proof. intros L A l x y z E. cbn. now rewrite E. Qed.
Lemma le_account_total : forall L (A : account L), (forall l x y, exists z, l_add A l x y = Ok z) ->
  forall l x y, le_res (l_add (total_account A) l x y) (l_add A l x y).
Proof. intros L A H l x y z E. cbn in E. destruct (H l x y) as (w & Ew). rewrite Ew in *. exact E. Qed.

(** ** No rounding *)

Lemma eq_each_any : forall A l (f f' : nat -> A -> res (A * code)) s, (forall i s, f i s = f' i s) ->
  each l f s = each l f' s.
Proof.
  intros A. induction l as [|x l IH]; intros f f' jt H; [reflexivity|]. cbn [each].
  apply eq_bind; auto. intros (j & e). destruct (is_err e); [reflexivity|now apply IH].
Qed.
Lemma eq_dfs : forall A (cf cf' sf sf' : nat -> jtree -> A -> res (jtree * A * code)),
  (forall i j a, cf i j a = cf' i j a) -> (forall i j a, sf i j a = sf' i j a) ->
  forall fuel start jt acc, join_tree_dfs fuel cf sf start jt acc = join_tree_dfs fuel cf' sf' start jt acc.
Proof.
  intros A cf cf' sf sf' HC HS. induction fuel as [|f IH]; intros start jt acc; [reflexivity|].
  cbn [join_tree_dfs]. apply eq_bind; [reflexivity|]. intros j. apply eq_bind; [apply HC|].
  intros ((j1 & a1) & e1). destruct (is_err e1); [reflexivity|].
  apply eq_bind; [reflexivity|]. intros k. apply eq_bind; [|reflexivity].
  apply eq_each_any. intros s (j2 & a2). apply eq_bind; [reflexivity|]. intros sp.
  apply eq_bind; [reflexivity|]. intros m1. destruct (negb m1).
  - apply eq_bind; [apply HS|]. intros ((j3 & a3) & e3). destruct (is_err e3); [reflexivity|].
    apply eq_bind; [apply IH|]. reflexivity.
  - apply eq_bind; [reflexivity|]. intros m2. destruct (negb m2); [|reflexivity].
    apply eq_bind; [apply HS|]. intros ((j3 & a3) & e3). destruct (is_err e3); [reflexivity|].
    apply eq_bind; [apply IH|]. reflexivity.
Qed.
Lemma eq_r_data_mass : forall x1, r_data_mass Ok x1 = data_mass x1.
Proof. intros. unfold r_data_mass, data_mass. eq_auto. Qed.
Global Hint Resolve eq_r_data_mass : eq_round.
Lemma eq_r_clique_mass : forall x1 x2 x3, r_clique_mass Ok x1 x2 x3 = clique_mass x1 x2 x3.
Proof. intros. unfold r_clique_mass, clique_mass. eq_auto. Qed.
Global Hint Resolve eq_r_clique_mass : eq_round.
Lemma eq_r_neg_sepset_mass : forall x1 x2 x3, r_neg_sepset_mass Ok x1 x2 x3 = neg_sepset_mass x1 x2 x3.
Proof. intros. unfold r_neg_sepset_mass, neg_sepset_mass. eq_auto. Qed.
Global Hint Resolve eq_r_neg_sepset_mass : eq_round.
Lemma eq_r_probability_mass : forall x1, r_probability_mass Ok x1 = probability_mass x1.
Proof. intros. unfold r_probability_mass, probability_mass. apply eq_bind; [reflexivity|]. intros j. apply eq_bind; [apply eq_dfs; intros; auto with eq_round nocore|]. reflexivity. Qed.
Global Hint Resolve eq_r_probability_mass : eq_round.
Lemma eq_r_model_prob_mass : forall x1, r_model_prob_mass Ok x1 = model_prob_mass x1.
Proof. intros. unfold r_model_prob_mass, model_prob_mass. eq_auto. Qed.
Global Hint Resolve eq_r_model_prob_mass : eq_round.
Lemma eq_r_sum_potential : forall x1 x2, r_sum_potential Ok x1 x2 = sum_potential x1 x2.
Proof. intros. unfold r_sum_potential, sum_potential. eq_auto. Qed.
Global Hint Resolve eq_r_sum_potential : eq_round.
Lemma eq_r_add_counts : forall x1 x2 x3 x4, r_add_counts Ok x1 x2 x3 x4 = add_counts x1 x2 x3 x4.
Proof. intros. unfold r_add_counts, add_counts. eq_auto. Qed.
Global Hint Resolve eq_r_add_counts : eq_round.
Lemma eq_r_e_backward : forall x1 x2 x3 x4 x5, r_e_backward Ok x1 x2 x3 x4 x5 = e_backward x1 x2 x3 x4 x5.
Proof. intros. unfold r_e_backward, e_backward. eq_auto. Qed.
Global Hint Resolve eq_r_e_backward : eq_round.

Lemma eq_r_e_forward_step : forall x1 x2 x3 x4 x5, r_e_forward_step Ok exact_account x1 x2 x3 x4 x5 = e_forward_step x1 x2 x3 x4 x5.
Proof.
  intros. unfold r_e_forward_step, e_forward_step. cbv zeta. cbn [l_add l_positive exact_account].
  apply eq_bind; [eq_auto|]. intros. apply eq_bind; [eq_auto|]. intros. apply eq_bind; [eq_auto|]. intros [? m1].
  apply eq_bind; [eq_auto|]. intros [? ?]. apply eq_bind; [eq_auto|]. intros. apply eq_bind; [eq_auto|]. intros [? m2].
  destruct (Qc_ltb 0 m1 && Qc_ltb 0 m2)%bool; cbn [bind]; eq_auto.
Qed.
Global Hint Resolve eq_r_e_forward_step : eq_round.
Lemma eq_r_e_forward : forall x1 x2 x3 x4 x5 x6, r_e_forward Ok exact_account x1 x2 x3 x4 x5 x6 = e_forward x1 x2 x3 x4 x5 x6.
Proof. induction x2 as [|k IH]; intros; [reflexivity|]. cbn [r_e_forward e_forward]. eq_auto. Qed.
Global Hint Resolve eq_r_e_forward : eq_round.
Lemma C88_exact_lemma : forall m ts ps, r_e_step Ok exact_account m ts ps = e_step m ts ps.
Proof. intros. unfold r_e_step, e_step. cbv zeta. cbn [l_first exact_account]. eq_auto. Qed.

(** ** The counts *)
Lemma tables_params : forall card m ps, params_ok card m ps <-> tables_for card m ps /\
  forall v, v < length (m_vars m) -> nonneg (param ps v).
Proof.
  intros card m ps. split.
  - intros (H1 & H2). split.
    + split; auto. intros v Hv. destruct (H2 v Hv) as (A & B & _). split; auto.
    + intros v Hv. apply H2. auto.
  - intros ((H1 & H2) & H3). split; auto. intros v Hv. destruct (H2 v Hv) as (A & B). auto.
Qed.
Lemma nonneg_cell : forall p ix, nonneg p -> (0 <= cell p ix)%Qc.
Proof. intros p ix H. unfold cell. now apply nonneg_nth. Qed.
Lemma nonneg_cells : forall p, wf p -> (forall ix, valid_ix (dims p) ix -> (0 <= cell p ix)%Qc) -> nonneg p.
Proof.
  intros p W H. apply Forall_forall. intros x Hx. apply (In_nth _ _ 0%Qc) in Hx. destruct Hx as (k & Hk & <-).
  rewrite (wf_data_length _ W) in Hk. assert (PD : Forall (fun d => 0 < d) (dims p)) by apply W.
  rewrite <- cell_unflat by auto. apply H. now apply unflat_valid.
Qed.

Lemma C88_counts_lemma : forall u rnd L (A : account L) card N m ts ps m' ps' ll e,
  (0 <= u)%Qc -> (u < 1)%Qc -> rounding u rnd ->
  slices_ok card m -> series_ok m ts -> (forall v, v < length (m_vars m) -> NoDup (family m v)) ->
  params_ok card m ps -> cliques_within card (m_jt m) N ->
  r_e_step rnd A m ts ps = Ok (m', ps', ll, e) ->
  model_ok card m' /\ same_model m m' /\
  ((e = BAD_LUCK /\ ps' = ps) \/
   (e = NO_ERROR /\ likelihood card m ts <> 0%Qc /\ params_ok card m ps' /\
    forall v ix, v < length (m_vars m) -> valid_ix (map card (family m v)) ix ->
      near u (count_error m ts N) (cell (param ps v) ix + expected card m ts v ix)%Qc (cell (param ps' v) ix))).
Proof.
  intros u rnd L A card N m ts ps m' ps' ll e H0 H1 HR HM HT HF HP HW E.
  pose proof (totalised_near u rnd H0 H1 HR) as Hfl.
  apply tables_params in HP. destruct HP as (HP & HN).
  apply (le_r_e_step rnd _ (totalised_le rnd) A (total_account A) eq_refl eq_refl (total_account_le L A)) in E.
  destruct (r_e_step_ok u _ H0 H1 Hfl card N m ts HM HT HF HW (total_account A) (total_account_total L A) ps HP)
    as (m2 & ps2 & l2 & e2 & E2 & M2 & S2 & R).
  { intros v ix Hv _. apply nonneg_cell. auto. }
  rewrite E in E2. injection E2 as <- <- <- <-. split; auto. split; auto.
  destruct R as [R|(R1 & R2 & R3 & R4)]; auto. right. split; auto. split; auto. split; auto.
  apply tables_params. split; auto. intros v Hv. destruct R3 as (_ & R3). destruct (R3 v Hv) as (W & D).
  apply nonneg_cells; auto. intros ix Hix. rewrite D in Hix.
  exact (proj2 (near_nonneg u H0 H1 _ _ _ (R4 v ix Hv Hix))).
Qed.

Lemma C88_completes_lemma : forall u rnd L (A : account L) card N m ts ps,
  (0 <= u)%Qc -> (u < 1)%Qc -> rounding u rnd -> (forall x, exists y, rnd x = Ok y) ->
  (forall l x y, exists l', l_add A l x y = Ok l') ->
  slices_ok card m -> series_ok m ts -> (forall v, v < length (m_vars m) -> NoDup (family m v)) ->
  params_ok card m ps -> cliques_within card (m_jt m) N ->
  exists m' ps' ll e, r_e_step rnd A m ts ps = Ok (m', ps', ll, e).
Proof.
  intros u rnd L A card N m ts ps H0 H1 HR HT HA HM HS HF HP HW.
  pose proof (totalised_near u rnd H0 H1 HR) as Hfl.
  apply tables_params in HP. destruct HP as (HP & HN).
  destruct (r_e_step_ok u _ H0 H1 Hfl card N m ts HM HS HF HW A HA ps HP)
    as (m2 & ps2 & l2 & e2 & E2 & _).
  { intros v ix Hv _. apply nonneg_cell. auto. }
  exists m2, ps2, l2, e2.
  exact (le_r_e_step _ rnd (le_total rnd HT) A A eq_refl eq_refl (fun l x y => le_refl_res _ _) _ _ _ _ E2).
Qed.
