(** * Rounded arithmetic: roundings that may fail, and no rounding *)
From Coq Require Import ZArith QArith Qcanon Lia String.
From Verif Require Import Base BaseProofs PotentialModel VariableModel JoinTreeModel NipModel NipSpec SliceModel
  RoundModel RoundSpec RoundProofs RoundProofs3.
Import ListNotations.
Open Scope nat_scope.
Local Open Scope list_scope.
Local Open Scope res_scope.

(** ** A rounding that is defined more often

    Whatever a run computes, it computes with any rounding that gives the same
    results where the first one gives results. *)
Definition le_res {A} (a b : res A) : Prop := forall y, a = Ok y -> b = Ok y.
Lemma le_refl_res : forall A (a : res A), le_res a a.
Proof. intros A a y H. exact H. Qed.
Lemma le_bind : forall A B (a a' : res A) (f f' : A -> res B), le_res a a' -> (forall x, le_res (f x) (f' x)) ->
  le_res (bind a f) (bind a' f').
Proof.
  intros A B a a' f f' H HF y E. destruct a as [x| |]; try discriminate. rewrite (H x eq_refl). now apply HF.
Qed.
Lemma le_loop_up : forall A n lo (f f' : nat -> A -> res A) s, (forall i s, le_res (f i s) (f' i s)) ->
  le_res (loop_up n lo f s) (loop_up n lo f' s).
Proof.
  intros A. induction n as [|n IH]; intros lo f f' s H; [apply le_refl_res|]. cbn [loop_up].
  apply le_bind; auto.
Qed.
Lemma le_for_up : forall A lo hi (f f' : nat -> A -> res A) s, (forall i s, le_res (f i s) (f' i s)) ->
  le_res (for_up lo hi f s) (for_up lo hi f' s).
Proof. intros. now apply le_loop_up. Qed.
Lemma le_loop_down : forall A n lo (f f' : nat -> A -> res A) s, (forall i s, le_res (f i s) (f' i s)) ->
  le_res (loop_down n lo f s) (loop_down n lo f' s).
Proof.
  intros A. induction n as [|n IH]; intros lo f f' s H; [apply le_refl_res|]. cbn [loop_down].
  apply le_bind; auto.
Qed.
Lemma le_for_down : forall A hi lo (f f' : nat -> A -> res A) s, (forall i s, le_res (f i s) (f' i s)) ->
  le_res (for_down hi lo f s) (for_down hi lo f' s).
Proof. intros. now apply le_loop_down. Qed.
Lemma le_each : forall l (f f' : nat -> jtree -> res (jtree * code)) jt, (forall i s, le_res (f i s) (f' i s)) ->
  le_res (each l f jt) (each l f' jt).
Proof.
  induction l as [|x l IH]; intros f f' jt H; [apply le_refl_res|]. cbn [each].
  apply le_bind; auto. intros (j & e). destruct (is_err e); [apply le_refl_res|now apply IH].
Qed.

Create HintDb le_round.
Ltac le_step :=
  lazymatch goal with
  | |- le_res ?a ?a => apply le_refl_res
  | |- le_res (bind _ _) (bind _ _) => apply le_bind; [|intros]
  | |- le_res (for_up _ _ _ _) (for_up _ _ _ _) => apply le_for_up; intros
  | |- le_res (for_down _ _ _ _) (for_down _ _ _ _) => apply le_for_down; intros
  | |- le_res (each _ _ _) (each _ _ _) => apply le_each; intros
  | |- le_res (match ?x with _ => _ end) _ => destruct x
  | |- _ => solve [auto with le_round nocore]
  end.
Ltac le_auto := repeat le_step.

Section Lift.
Variables rnd rnd' : Qc -> res Qc.
Hypothesis Hle : forall x, le_res (rnd x) (rnd' x).
Hint Resolve Hle : le_round.
Lemma le_r_general_marginalise : forall x1 x2 x3, le_res (r_general_marginalise rnd x1 x2 x3) (r_general_marginalise rnd' x1 x2 x3).
Proof. intros. unfold r_general_marginalise. le_auto. Qed.
Hint Resolve le_r_general_marginalise : le_round.
Lemma le_r_total_marginalise : forall x1 x2 x3, le_res (r_total_marginalise rnd x1 x2 x3) (r_total_marginalise rnd' x1 x2 x3).
Proof. intros. unfold r_total_marginalise. le_auto. Qed.
Hint Resolve le_r_total_marginalise : le_round.
Lemma le_r_normalise_array_at : forall x1 x2 x3, le_res (r_normalise_array_at rnd x1 x2 x3) (r_normalise_array_at rnd' x1 x2 x3).
Proof. intros. unfold r_normalise_array_at. le_auto. Qed.
Hint Resolve le_r_normalise_array_at : le_round.
Lemma le_r_normalise_array : forall x1 x2, le_res (r_normalise_array rnd x1 x2) (r_normalise_array rnd' x1 x2).
Proof. intros. unfold r_normalise_array. le_auto. Qed.
Hint Resolve le_r_normalise_array : le_round.
Lemma le_r_normalise_potential : forall x1, le_res (r_normalise_potential rnd x1) (r_normalise_potential rnd' x1).
Proof. intros. unfold r_normalise_potential. le_auto. Qed.
Hint Resolve le_r_normalise_potential : le_round.
Lemma le_r_update_divide : forall x1 x2, le_res (r_update_divide rnd x1 x2) (r_update_divide rnd' x1 x2).
Proof. intros. unfold r_update_divide. le_auto. Qed.
Hint Resolve le_r_update_divide : le_round.
Lemma le_r_update_potential : forall x1 x2 x3 x4, le_res (r_update_potential rnd x1 x2 x3 x4) (r_update_potential rnd' x1 x2 x3 x4).
Proof. intros. unfold r_update_potential. le_auto. Qed.
Hint Resolve le_r_update_potential : le_round.
Lemma le_r_update_evidence : forall x1 x2 x3 x4, le_res (r_update_evidence rnd x1 x2 x3 x4) (r_update_evidence rnd' x1 x2 x3 x4).
Proof. intros. unfold r_update_evidence. le_auto. Qed.
Hint Resolve le_r_update_evidence : le_round.
Lemma le_r_message_pass : forall x1 x2 x3 x4, le_res (r_message_pass rnd x1 x2 x3 x4) (r_message_pass rnd' x1 x2 x3 x4).
Proof. intros. unfold r_message_pass. le_auto. Qed.
Hint Resolve le_r_message_pass : le_round.
Lemma le_r_distribute_evidence : forall x1 x2 x3, le_res (r_distribute_evidence rnd x1 x2 x3) (r_distribute_evidence rnd' x1 x2 x3).
Proof. induction x1 as [|f IH]; intros; [apply le_refl_res|]. cbn [r_distribute_evidence]. le_auto. Qed.
Hint Resolve le_r_distribute_evidence : le_round.
Lemma le_r_collect_evidence : forall x1 x2 x3 x4, le_res (r_collect_evidence rnd x1 x2 x3 x4) (r_collect_evidence rnd' x1 x2 x3 x4).
Proof. induction x1 as [|f IH]; intros; [apply le_refl_res|]. cbn [r_collect_evidence]. le_auto. Qed.
Hint Resolve le_r_collect_evidence : le_round.
Lemma le_r_make_consistent : forall x1, le_res (r_make_consistent rnd x1) (r_make_consistent rnd' x1).
Proof. intros. unfold r_make_consistent. le_auto. Qed.
Hint Resolve le_r_make_consistent : le_round.
Lemma le_r_marginalise_clique : forall x1 x2 x3 x4, le_res (r_marginalise_clique rnd x1 x2 x3 x4) (r_marginalise_clique rnd' x1 x2 x3 x4).
Proof. intros. unfold r_marginalise_clique. le_auto. Qed.
Hint Resolve le_r_marginalise_clique : le_round.
Lemma le_r_multiply_vector : forall x1 x2 x3 x4 x5, le_res (r_multiply_vector rnd x1 x2 x3 x4 x5) (r_multiply_vector rnd' x1 x2 x3 x4 x5).
Proof. intros. unfold r_multiply_vector. le_auto. Qed.
Hint Resolve le_r_multiply_vector : le_round.
Lemma le_r_global_retraction : forall x1, le_res (r_global_retraction rnd x1) (r_global_retraction rnd' x1).
Proof. intros. unfold r_global_retraction. le_auto. Qed.
Hint Resolve le_r_global_retraction : le_round.
Lemma le_r_enter_evidence : forall x1 x2 x3, le_res (r_enter_evidence rnd x1 x2 x3) (r_enter_evidence rnd' x1 x2 x3).
Proof. intros. unfold r_enter_evidence. le_auto. Qed.
Hint Resolve le_r_enter_evidence : le_round.
Lemma le_r_enter_index_observation : forall x1 x2 x3, le_res (r_enter_index_observation rnd x1 x2 x3) (r_enter_index_observation rnd' x1 x2 x3).
Proof. intros. unfold r_enter_index_observation. le_auto. Qed.
Hint Resolve le_r_enter_index_observation : le_round.
Lemma le_r_enter_prior : forall x1 x2 x3, le_res (r_enter_prior rnd x1 x2 x3) (r_enter_prior rnd' x1 x2 x3).
Proof. intros. unfold r_enter_prior. le_auto. Qed.
Hint Resolve le_r_enter_prior : le_round.
Lemma le_r_reset_model : forall x1, le_res (r_reset_model rnd x1) (r_reset_model rnd' x1).
Proof. intros. unfold r_reset_model. le_auto. Qed.
Hint Resolve le_r_reset_model : le_round.
Lemma le_r_use_priors : forall x1 x2, le_res (r_use_priors rnd x1 x2) (r_use_priors rnd' x1 x2).
Proof. intros. unfold r_use_priors. le_auto. Qed.
Hint Resolve le_r_use_priors : le_round.
Lemma le_r_make_consistent_model : forall x1, le_res (r_make_consistent_model rnd x1) (r_make_consistent_model rnd' x1).
Proof. intros. unfold r_make_consistent_model. le_auto. Qed.
Hint Resolve le_r_make_consistent_model : le_round.
Lemma le_r_enter_observation : forall x1 x2 x3 x4, le_res (r_enter_observation rnd x1 x2 x3 x4) (r_enter_observation rnd' x1 x2 x3 x4).
Proof. intros. unfold r_enter_observation. le_auto. Qed.
Hint Resolve le_r_enter_observation : le_round.
Lemma le_r_insert_hard_evidence : forall x1 x2 x3 x4, le_res (r_insert_hard_evidence rnd x1 x2 x3 x4) (r_insert_hard_evidence rnd' x1 x2 x3 x4).
Proof. intros. unfold r_insert_hard_evidence. le_auto. Qed.
Hint Resolve le_r_insert_hard_evidence : le_round.
Lemma le_r_insert_soft_evidence : forall x1 x2 x3 x4, le_res (r_insert_soft_evidence rnd x1 x2 x3 x4) (r_insert_soft_evidence rnd' x1 x2 x3 x4).
Proof. intros. unfold r_insert_soft_evidence. le_auto. Qed.
Hint Resolve le_r_insert_soft_evidence : le_round.
Lemma le_r_insert_ts_step : forall x1 x2 x3 x4, le_res (r_insert_ts_step rnd x1 x2 x3 x4) (r_insert_ts_step rnd' x1 x2 x3 x4).
Proof. intros. unfold r_insert_ts_step. le_auto. Qed.
Hint Resolve le_r_insert_ts_step : le_round.
Lemma le_r_get_probability : forall x1 x2, le_res (r_get_probability rnd x1 x2) (r_get_probability rnd' x1 x2).
Proof. intros. unfold r_get_probability. le_auto. Qed.
Hint Resolve le_r_get_probability : le_round.
Lemma le_r_start_message : forall x1 x2 x3, le_res (r_start_message rnd x1 x2 x3) (r_start_message rnd' x1 x2 x3).
Proof. intros. unfold r_start_message. le_auto. Qed.
Hint Resolve le_r_start_message : le_round.
Lemma le_r_finish_message : forall x1 x2 x3 x4, le_res (r_finish_message rnd x1 x2 x3 x4) (r_finish_message rnd' x1 x2 x3 x4).
Proof. intros. unfold r_finish_message. le_auto. Qed.
Hint Resolve le_r_finish_message : le_round.
Lemma le_r_write_results : forall x1 x2 x3, le_res (r_write_results rnd x1 x2 x3) (r_write_results rnd' x1 x2 x3).
Proof. intros. unfold r_write_results. le_auto. Qed.
Hint Resolve le_r_write_results : le_round.
Lemma le_r_forward_inference : forall x1 x2 x3, le_res (r_forward_inference rnd x1 x2 x3) (r_forward_inference rnd' x1 x2 x3).
Proof. intros. unfold r_forward_inference. le_auto. Qed.
Hint Resolve le_r_forward_inference : le_round.
Lemma le_r_forward_phase : forall x1 x2, le_res (r_forward_phase rnd x1 x2) (r_forward_phase rnd' x1 x2).
Proof. intros. unfold r_forward_phase. le_auto. Qed.
Hint Resolve le_r_forward_phase : le_round.
Lemma le_r_backward_phase : forall x1 x2 x3 x4 x5, le_res (r_backward_phase rnd x1 x2 x3 x4 x5) (r_backward_phase rnd' x1 x2 x3 x4 x5).
Proof. intros. unfold r_backward_phase. le_auto. Qed.
Hint Resolve le_r_backward_phase : le_round.
Lemma le_r_forward_backward_inference : forall x1 x2 x3, le_res (r_forward_backward_inference rnd x1 x2 x3) (r_forward_backward_inference rnd' x1 x2 x3).
Proof. intros. unfold r_forward_backward_inference. le_auto. Qed.
Hint Resolve le_r_forward_backward_inference : le_round.
Lemma le_r_insert1 : forall x1 x2 x3, le_res (r_insert1 rnd x1 x2 x3) (r_insert1 rnd' x1 x2 x3).
Proof. intros. unfold r_insert1. le_auto. Qed.
Hint Resolve le_r_insert1 : le_round.
Lemma le_r_run1 : forall x1 x2 x3, le_res (r_run1 rnd x1 x2 x3) (r_run1 rnd' x1 x2 x3).
Proof. intros. unfold r_run1. le_auto. Qed.
Hint Resolve le_r_run1 : le_round.
Lemma le_r_run : forall os names m, le_res (r_run rnd names m os) (r_run rnd' names m os).
Proof. induction os as [|o os IH]; intros names m; cbn [r_run]; le_auto. Qed.
End Lift.

(** A rounding made total. *)
Definition totalised (rnd : Qc -> res Qc) (x : Qc) : Qc := match rnd x with Ok y => y | _ => x end.
Lemma totalised_le : forall rnd x, le_res (rnd x) (rt (totalised rnd) x).
Proof. intros rnd x y H. unfold rt, totalised. now rewrite H. Qed.
Lemma totalised_near : forall u rnd, (0 <= u)%Qc -> (u < 1)%Qc -> rounding u rnd ->
  forall x, (0 <= x)%Qc -> near u 1 x (totalised rnd x).
Proof.
  intros u rnd H0 H1 HR x Hx. unfold totalised. destruct (rnd x) as [y| |] eqn:E.
  - apply near_rnd; auto.
  - apply near_refl; auto.
  - apply near_refl; auto.
Qed.
