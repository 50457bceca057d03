(** * Property C86: what rounding does to the answers

    The specification is in RoundSpec.v.  RoundModel.v is the code with a
    rounding after every addition, multiplication and division; [rnd x] is the
    number stored instead of the exact result [x], or UB where there is none
    (overflow, subnormal numbers).  [near u k exact computed] says that the two
    differ by at most [k] factors between [1 - u] and [1 / (1 - u)].  [believed]
    is the function that the tree should represent (C34): the original joint
    times the latest evidence times the priors in use. *)
From Coq Require Import String ZArith QArith Qcanon Lia.
From Verif Require Import Base PotentialModel PotentialSpec VariableModel JoinTreeModel
  AssignSpec JoinTreeSpec NipModel NipSpec RoundModel RoundSpec RoundProofs RoundProofs2 RoundProofs12
  JoinTreeCheck NipCheck.
Import ListNotations.
Open Scope nat_scope.
Open Scope list_scope.

(** Propagation: the joint and every clique. *)
Theorem C86_propagation : forall u rnd card N jt jt' e,
  (0 <= u)%Qc -> (u < 1)%Qc -> rounding u rnd ->
  shape_ok card jt -> tables_nonneg jt -> is_tree jt -> running_intersection jt -> cliques_within card jt N ->
  r_make_consistent rnd jt = Ok (jt', e) ->
  e = NO_ERROR /\ same_shape jt jt' /\
  (forall a, valid card a -> near u (4 * length (sps jt)) (joint jt a) (joint jt' a)) /\
  forall k a, k < length (cls jt) -> valid card a ->
    near u (4 * length (sps jt) + length (sps jt) * (N + 2))
      (sumv card (minus (all_vars jt) (c_vars (clq jt k))) (joint jt) a) (phi jt' k a).
Proof. exact C86_propagation_lemma. Qed.
Print Assumptions C86_propagation.

(** The joint after a reset and any history of insertions, priors, resets,
    propagation and queries. *)
Theorem C86_history : forall u rnd card names m N os m',
  (0 <= u)%Qc -> (u < 1)%Qc -> rounding u rnd ->
  model_ok card m -> names_ok card m names -> cliques_within card (m_jt m) N ->
  ~ In Mass os -> Forall (op_ok card names m) os ->
  r_run rnd names m (Reset :: os) = Ok m' ->
  (forall v, v < length (m_vars m) -> v_lik (var m' v) = b_lik (learn card names m (no_belief card) os) v) /\
  forall a, valid card a -> near u (history_error m os) (believed card names m os a) (joint (m_jt m') a).
Proof. exact C86_history_lemma. Qed.
Print Assumptions C86_history.

(** The probabilities that get_probability returns. *)
Theorem C86_posterior : forall u rnd card names m N os v m1 m2 o,
  (0 <= u)%Qc -> (u < 1)%Qc -> rounding u rnd ->
  model_ok card m -> names_ok card m names -> cliques_within card (m_jt m) N ->
  ~ In Mass os -> Forall (op_ok card names m) os -> v < length (m_vars m) ->
  r_run rnd names m (Reset :: os ++ [Consistent]) = Ok m1 ->
  r_get_probability rnd m1 v = Ok (m2, o) ->
  exists r, o = Some r /\ length r = card v /\
    forall x, x < card v ->
      near u (posterior_error m N os (card v))
        (sum_where card m (believed card names m os) v x / sum_all card m (believed card names m os))%Qc
        (nth x r 0%Qc).
Proof. exact C86_posterior_lemma. Qed.
Print Assumptions C86_posterior.

(** Without overflow and subnormal numbers nothing goes wrong on the way. *)
Theorem C86_completes : forall u rnd card names m N os v,
  (0 <= u)%Qc -> (u < 1)%Qc -> rounding u rnd -> (forall x, exists y, rnd x = Ok y) ->
  model_ok card m -> names_ok card m names -> cliques_within card (m_jt m) N ->
  ~ In Mass os -> Forall (op_ok card names m) os -> v < length (m_vars m) ->
  exists m1 m2 r, r_run rnd names m (Reset :: os ++ [Consistent]) = Ok m1 /\
    r_get_probability rnd m1 v = Ok (m2, Some r).
Proof. exact C86_completes_lemma. Qed.
Print Assumptions C86_completes.

(** What [near] means: the relative error is at most about [k * u]; what is
    impossible stays so, and what is possible stays so. *)
Theorem C86_relative_error : forall u k x y, (0 <= u)%Qc -> (u < 1)%Qc -> near u k x y ->
  ((1 - Q2Qc (inject_Z (Z.of_nat k)) * u) * x <= y)%Qc /\
  ((1 - Q2Qc (inject_Z (Z.of_nat k)) * u) * y <= x)%Qc /\
  (x = 0%Qc <-> y = 0%Qc).
Proof. exact C86_relative_lemma. Qed.
Print Assumptions C86_relative_error.

(** The format double rounds with a relative error of at most [2 ^ -53]. *)
Theorem C86_double : (0 <= unit_roundoff)%Qc /\ (unit_roundoff < 1)%Qc /\ rounding unit_roundoff double /\
  forall x y, (0 < x)%Qc -> double x = Ok y ->
    exists m e, y = scaled m e /\ (2 ^ 52 <= m <= 2 ^ 53)%Z /\ (-1074 <= e <= 971)%Z /\ (e = 971 -> m < 2 ^ 53)%Z.
Proof. exact C86_double_lemma. Qed.
Print Assumptions C86_double.

(** Without rounding, the code of RoundModel.v is that of NipModel.v. *)
Theorem C86_exact : rounding 0 Ok /\ (forall k x y, near 0 k x y -> y = x) /\
  (forall names m os, ~ In Mass os -> r_run Ok names m os = run names m os) /\
  (forall m v, r_get_probability Ok m v = get_probability m v).
Proof. exact C86_exact_lemma. Qed.
Print Assumptions C86_exact.

(** ** Cases *)

Definition ex_ops : list op := [Priors false; Insert (Hard "C" "yes")].

(** The hypotheses about the model and the calls hold of the network
    A -> B, B -> C, B -> D. *)
Example C86_case : model_ok ex_card ex_model /\ names_ok ex_card ex_model ex_names /\
  cliques_within ex_card (m_jt ex_model) 6 /\ ~ In Mass ex_ops /\ Forall (op_ok ex_card ex_names ex_model) ex_ops /\
  posterior_error ex_model 6 ex_ops (ex_card 0) = 93.
Proof.
  split; [exact ex_model_ok|]. split; [exact ex_names_ok|].
  split; [intros [|[|[|i]]] Hi; vm_compute in Hi |- *; lia|].
  split; [intros [H|[H|[]]]; discriminate H|]. split; [|reflexivity].
  constructor; [exact I|]. constructor; [|constructor].
  intros v l H. vm_compute in H. injection H as <- <-. apply vectorb_ok. vm_compute. reflexivity.
Qed.

(** In the format double the probability 1/5 becomes the number below it, and
    4/5 the one above: 93 roundings are far more than were needed. *)
Example C86_case_double : exists m1 r,
  bind (r_run double ex_names ex_model (Reset :: ex_ops ++ [Consistent]))
    (fun m => r_get_probability double m 0) = Ok (m1, Some r) /\
  map this r = [3602879701896397 # 18014398509481984; 3602879701896397 # 4503599627370496]%Q.
Proof. eexists. eexists. split; vm_compute; reflexivity. Qed.
