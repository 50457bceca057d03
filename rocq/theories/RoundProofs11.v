(** * Rounded arithmetic: without rounding, the model of the other properties *)
From Coq Require Import ZArith QArith Qcanon Lia String.
From Verif Require Import Base BaseProofs PotentialModel VariableModel JoinTreeModel NipModel NipSpec SliceModel
  RoundModel RoundSpec.
Import ListNotations.
Open Scope nat_scope.
Local Open Scope list_scope.
Local Open Scope res_scope.

Lemma eq_bind : forall A B (a a' : res A) (f f' : A -> res B), a = a' -> (forall x, f x = f' x) ->
  bind a f = bind a' f'.
Proof. intros A B a a' f f' -> H. destruct a'; cbn [bind]; auto. Qed.
Lemma eq_loop_up : forall A n lo (f f' : nat -> A -> res A) s, (forall i s, f i s = f' i s) ->
  loop_up n lo f s = loop_up n lo f' s.
Proof. intros A. induction n as [|n IH]; intros lo f f' s H; [reflexivity|]. cbn [loop_up]. apply eq_bind; auto. Qed.
Lemma eq_for_up : forall A lo hi (f f' : nat -> A -> res A) s, (forall i s, f i s = f' i s) ->
  for_up lo hi f s = for_up lo hi f' s.
Proof. intros. now apply eq_loop_up. Qed.
Lemma eq_loop_down : forall A n lo (f f' : nat -> A -> res A) s, (forall i s, f i s = f' i s) ->
  loop_down n lo f s = loop_down n lo f' s.
Proof. intros A. induction n as [|n IH]; intros lo f f' s H; [reflexivity|]. cbn [loop_down]. apply eq_bind; auto. Qed.
Lemma eq_for_down : forall A hi lo (f f' : nat -> A -> res A) s, (forall i s, f i s = f' i s) ->
  for_down hi lo f s = for_down hi lo f' s.
Proof. intros. now apply eq_loop_down. Qed.
Lemma eq_each : forall l (f f' : nat -> jtree -> res (jtree * code)) jt, (forall i s, f i s = f' i s) ->
  each l f jt = each l f' jt.
Proof.
  induction l as [|x l IH]; intros f f' jt H; [reflexivity|]. cbn [each].
  apply eq_bind; auto. intros (j & e). destruct (is_err e); [reflexivity|now apply IH].
Qed.
Lemma eq_bind_ret : forall A (a : res A), bind a Ok = a.
Proof. intros A [x| |]; reflexivity. Qed.

Create HintDb eq_round.
Ltac eq_step :=
  lazymatch goal with
  | |- ?a = ?a => reflexivity
  | |- bind (Ok ?x) _ = _ => cbn [bind]
  | |- bind _ _ = bind _ _ => apply eq_bind; [|intros]
  | |- for_up _ _ _ _ = for_up _ _ _ _ => apply eq_for_up; intros
  | |- for_down _ _ _ _ = for_down _ _ _ _ => apply eq_for_down; intros
  | |- each _ _ _ = each _ _ _ => apply eq_each; intros
  | |- (match ?x with _ => _ end) = _ => destruct x
  | |- _ => solve [auto with eq_round nocore]
  end.
Ltac eq_auto := repeat eq_step.

Lemma eq_r_general_marginalise : forall x1 x2 x3, r_general_marginalise Ok x1 x2 x3 = general_marginalise x1 x2 x3.
Proof. intros. unfold r_general_marginalise, general_marginalise. eq_auto. Qed.
Global Hint Resolve eq_r_general_marginalise : eq_round.
Lemma eq_r_total_marginalise : forall x1 x2 x3, r_total_marginalise Ok x1 x2 x3 = total_marginalise x1 x2 x3.
Proof. intros. unfold r_total_marginalise, total_marginalise. eq_auto. Qed.
Global Hint Resolve eq_r_total_marginalise : eq_round.
Lemma eq_r_normalise_array_at : forall x1 x2 x3, r_normalise_array_at Ok x1 x2 x3 = normalise_array_at x1 x2 x3.
Proof. intros. unfold r_normalise_array_at, normalise_array_at. eq_auto. Qed.
Global Hint Resolve eq_r_normalise_array_at : eq_round.
Lemma eq_r_normalise_array : forall x1 x2, r_normalise_array Ok x1 x2 = normalise_array x1 x2.
Proof. intros. unfold r_normalise_array, normalise_array. eq_auto. Qed.
Global Hint Resolve eq_r_normalise_array : eq_round.
Lemma eq_r_normalise_potential : forall x1, r_normalise_potential Ok x1 = normalise_potential x1.
Proof. intros. unfold r_normalise_potential, normalise_potential. eq_auto. Qed.
Global Hint Resolve eq_r_normalise_potential : eq_round.
Lemma eq_r_update_divide : forall x1 x2, r_update_divide Ok x1 x2 = update_divide x1 x2.
Proof. intros. unfold r_update_divide, update_divide. destruct (qzero x2); [reflexivity|]. apply eq_bind_ret. Qed.
Global Hint Resolve eq_r_update_divide : eq_round.
Lemma eq_r_update_potential : forall x1 x2 x3 x4, r_update_potential Ok x1 x2 x3 x4 = update_potential x1 x2 x3 x4.
Proof. intros. unfold r_update_potential, update_potential. eq_auto. Qed.
Global Hint Resolve eq_r_update_potential : eq_round.
Lemma eq_r_update_evidence : forall x1 x2 x3 x4, r_update_evidence Ok x1 x2 x3 x4 = update_evidence x1 x2 x3 x4.
Proof. intros. unfold r_update_evidence, update_evidence. eq_auto. Qed.
Global Hint Resolve eq_r_update_evidence : eq_round.
Lemma eq_r_message_pass : forall x1 x2 x3 x4, r_message_pass Ok x1 x2 x3 x4 = message_pass x1 x2 x3 x4.
Proof. intros. unfold r_message_pass, message_pass. eq_auto. Qed.
Global Hint Resolve eq_r_message_pass : eq_round.
Lemma eq_r_distribute_evidence : forall x1 x2 x3, r_distribute_evidence Ok x1 x2 x3 = distribute_evidence x1 x2 x3.
Proof. induction x1 as [|f IH]; intros; [reflexivity|]. cbn [r_distribute_evidence distribute_evidence]. eq_auto. Qed.
Global Hint Resolve eq_r_distribute_evidence : eq_round.
Lemma eq_r_collect_evidence : forall x1 x2 x3 x4, r_collect_evidence Ok x1 x2 x3 x4 = collect_evidence x1 x2 x3 x4.
Proof. induction x1 as [|f IH]; intros; [reflexivity|]. cbn [r_collect_evidence collect_evidence]. eq_auto. Qed.
Global Hint Resolve eq_r_collect_evidence : eq_round.
Lemma eq_r_make_consistent : forall x1, r_make_consistent Ok x1 = make_consistent x1.
Proof. intros. unfold r_make_consistent, make_consistent. eq_auto. Qed.
Global Hint Resolve eq_r_make_consistent : eq_round.
Lemma eq_r_marginalise_clique : forall x1 x2 x3 x4, r_marginalise_clique Ok x1 x2 x3 x4 = marginalise_clique x1 x2 x3 x4.
Proof. intros. unfold r_marginalise_clique, marginalise_clique. eq_auto. Qed.
Global Hint Resolve eq_r_marginalise_clique : eq_round.
Lemma eq_r_multiply_vector : forall x1 x2 x3 x4 x5, r_multiply_vector Ok x1 x2 x3 x4 x5 = multiply_vector x1 x2 x3 x4 x5.
Proof. intros. unfold r_multiply_vector, multiply_vector. eq_auto. Qed.
Global Hint Resolve eq_r_multiply_vector : eq_round.
Lemma eq_r_global_retraction : forall x1, r_global_retraction Ok x1 = global_retraction x1.
Proof. intros. unfold r_global_retraction, global_retraction. eq_auto. Qed.
Global Hint Resolve eq_r_global_retraction : eq_round.
Lemma eq_r_enter_evidence : forall x1 x2 x3, r_enter_evidence Ok x1 x2 x3 = enter_evidence x1 x2 x3.
Proof. intros. unfold r_enter_evidence, enter_evidence. eq_auto. Qed.
Global Hint Resolve eq_r_enter_evidence : eq_round.
Lemma eq_r_enter_index_observation : forall x1 x2 x3, r_enter_index_observation Ok x1 x2 x3 = enter_index_observation x1 x2 x3.
Proof. intros. unfold r_enter_index_observation, enter_index_observation. eq_auto. Qed.
Global Hint Resolve eq_r_enter_index_observation : eq_round.
Lemma eq_r_enter_prior : forall x1 x2 x3, r_enter_prior Ok x1 x2 x3 = enter_prior x1 x2 x3.
Proof. intros. unfold r_enter_prior, enter_prior. eq_auto. Qed.
Global Hint Resolve eq_r_enter_prior : eq_round.
Lemma eq_r_reset_model : forall x1, r_reset_model Ok x1 = reset_model x1.
Proof. intros. unfold r_reset_model, reset_model. eq_auto. Qed.
Global Hint Resolve eq_r_reset_model : eq_round.
Lemma eq_r_use_priors : forall x1 x2, r_use_priors Ok x1 x2 = use_priors x1 x2.
Proof. intros. unfold r_use_priors, use_priors. eq_auto. Qed.
Global Hint Resolve eq_r_use_priors : eq_round.
Lemma eq_r_make_consistent_model : forall x1, r_make_consistent_model Ok x1 = make_consistent_model x1.
Proof. intros. unfold r_make_consistent_model, make_consistent_model. eq_auto. Qed.
Global Hint Resolve eq_r_make_consistent_model : eq_round.
Lemma eq_r_enter_observation : forall x1 x2 x3 x4, r_enter_observation Ok x1 x2 x3 x4 = enter_observation x1 x2 x3 x4.
Proof. intros. unfold r_enter_observation, enter_observation. eq_auto. Qed.
Global Hint Resolve eq_r_enter_observation : eq_round.
Lemma eq_r_insert_hard_evidence : forall x1 x2 x3 x4, r_insert_hard_evidence Ok x1 x2 x3 x4 = insert_hard_evidence x1 x2 x3 x4.
Proof. intros. unfold r_insert_hard_evidence, insert_hard_evidence. eq_auto. Qed.
Global Hint Resolve eq_r_insert_hard_evidence : eq_round.
Lemma eq_r_insert_soft_evidence : forall x1 x2 x3 x4, r_insert_soft_evidence Ok x1 x2 x3 x4 = insert_soft_evidence x1 x2 x3 x4.
Proof. intros. unfold r_insert_soft_evidence, insert_soft_evidence. eq_auto. Qed.
Global Hint Resolve eq_r_insert_soft_evidence : eq_round.
Lemma eq_r_insert_ts_step : forall x1 x2 x3 x4, r_insert_ts_step Ok x1 x2 x3 x4 = insert_ts_step x1 x2 x3 x4.
Proof. intros. unfold r_insert_ts_step, insert_ts_step. eq_auto. Qed.
Global Hint Resolve eq_r_insert_ts_step : eq_round.
Lemma eq_r_get_probability : forall x1 x2, r_get_probability Ok x1 x2 = get_probability x1 x2.
Proof. intros. unfold r_get_probability, get_probability. eq_auto. Qed.
Global Hint Resolve eq_r_get_probability : eq_round.
Lemma eq_r_start_message : forall x1 x2 x3, r_start_message Ok x1 x2 x3 = start_message x1 x2 x3.
Proof. intros. unfold r_start_message, start_message. eq_auto. Qed.
Global Hint Resolve eq_r_start_message : eq_round.
Lemma eq_r_finish_message : forall x1 x2 x3 x4, r_finish_message Ok x1 x2 x3 x4 = finish_message x1 x2 x3 x4.
Proof. intros. unfold r_finish_message, finish_message. eq_auto. Qed.
Global Hint Resolve eq_r_finish_message : eq_round.
Lemma eq_r_write_results : forall x1 x2 x3, r_write_results Ok x1 x2 x3 = write_results x1 x2 x3.
Proof. intros. unfold r_write_results, write_results. eq_auto. Qed.
Global Hint Resolve eq_r_write_results : eq_round.
Lemma eq_r_backward_phase : forall x1 x2 x3 x4 x5, r_backward_phase Ok x1 x2 x3 x4 x5 = backward_phase x1 x2 x3 x4 x5.
Proof. intros. unfold r_backward_phase, backward_phase. eq_auto. Qed.
Global Hint Resolve eq_r_backward_phase : eq_round.
