(** * Property C87: what rounding does to inference over time

    The specification is in RoundSpec.v, RoundSpec2.v and SliceSpec.v.
    RoundModel.v is the code with a rounding after every addition,
    multiplication and division, here for calls that do not ask for the
    likelihood.  [near u k exact computed] says that the two differ by at most
    [k] factors between [1 - u] and [1 / (1 - u)] (C86_relative_error).
    [posterior_at] is the probability in the model unrolled over the time steps
    (C40, C41).  The bounds grow linearly with the number of steps. *)
From Coq Require Import String ZArith QArith Qcanon Lia.
From Verif Require Import Base PotentialModel PotentialSpec VariableModel JoinTreeModel
  AssignSpec JoinTreeSpec NipModel NipSpec SliceModel SliceSpec RoundModel RoundSpec RoundSpec2 RoundProofs15
  JoinTreeCheck NipCheck SliceCheck.
Import ListNotations.
Open Scope nat_scope.
Open Scope list_scope.

(** Filtering. *)
Theorem C87_filtering : forall u rnd card N m ts vars m' results,
  (0 <= u)%Qc -> (u < 1)%Qc -> rounding u rnd ->
  slices_ok card m -> series_ok m ts -> defined card m ts -> cliques_within card (m_jt m) N ->
  (forall v, In v vars -> v < length (m_vars m)) ->
  r_forward_inference rnd m ts vars = Ok (m', results) ->
  length results = length (ts_data ts) /\
  forall t, t < length (ts_data ts) -> length (nth t results []) = length vars /\
    forall i, i < length vars -> length (nth i (nth t results []) []) = card (nth i vars 0) /\
      forall x, x < card (nth i vars 0) ->
        near u (2 * (S t * slice_error m ts N) + card (nth i vars 0) + 1)
          (posterior_at card m ts (S t) (S t) t (nth i vars 0) x) (nth x (nth i (nth t results []) []) 0%Qc).
Proof. exact C87_filtering_lemma. Qed.
Print Assumptions C87_filtering.

(** Smoothing. *)
Theorem C87_smoothing : forall u rnd card N m ts vars m' results,
  (0 <= u)%Qc -> (u < 1)%Qc -> rounding u rnd ->
  slices_ok card m -> series_ok m ts -> defined card m ts -> cliques_within card (m_jt m) N ->
  (forall v, In v vars -> v < length (m_vars m)) ->
  r_forward_backward_inference rnd m ts vars = Ok (m', results) ->
  length results = length (ts_data ts) /\
  forall t, t < length (ts_data ts) -> length (nth t results []) = length vars /\
    forall i, i < length vars -> length (nth i (nth t results []) []) = card (nth i vars 0) /\
      forall x, x < card (nth i vars 0) ->
        near u (2 * (length (ts_data ts) * slice_error m ts N) + card (nth i vars 0) + 1)
          (posterior_at card m ts (length (ts_data ts)) (length (ts_data ts)) t (nth i vars 0) x)
          (nth x (nth i (nth t results []) []) 0%Qc).
Proof. exact C87_smoothing_lemma. Qed.
Print Assumptions C87_smoothing.

(** Without overflow and subnormal numbers nothing goes wrong on the way. *)
Theorem C87_completes : forall u rnd card N m ts vars,
  (0 <= u)%Qc -> (u < 1)%Qc -> rounding u rnd -> (forall x, exists y, rnd x = Ok y) ->
  slices_ok card m -> series_ok m ts -> defined card m ts -> cliques_within card (m_jt m) N ->
  (forall v, In v vars -> v < length (m_vars m)) ->
  exists m1 r1 m2 r2, r_forward_inference rnd m ts vars = Ok (m1, r1) /\
    r_forward_backward_inference rnd m ts vars = Ok (m2, r2).
Proof. exact C87_completes_lemma. Qed.
Print Assumptions C87_completes.

(** Without rounding, the code of RoundModel.v is that of SliceModel.v. *)
Theorem C87_exact : forall m ts vars,
  forward_inference m ts vars false =
    bind (r_forward_inference Ok m ts vars) (fun '(m', rs) => Ok (m', rs, [])) /\
  forward_backward_inference m ts vars false =
    bind (r_forward_backward_inference Ok m ts vars) (fun '(m', rs) => Ok (m', rs, [])).
Proof. exact C87_exact_lemma. Qed.
Print Assumptions C87_exact.

(** ** Cases

    [dbn] of SliceCheck.v: a hidden Markov model with an input, three steps with
    missing values. *)
Example C87_case : slices_ok dbn_card dbn /\ series_ok dbn dbn_ts /\ defined dbn_card dbn dbn_ts /\
  cliques_within dbn_card (m_jt dbn) 12 /\ slice_error dbn dbn_ts 12 = 45.
Proof.
  split; [exact dbn_ok|]. split; [exact dbn_ts_ok|]. split; [left; discriminate|].
  split; [intros [|[|[|i]]] Hi; vm_compute in Hi |- *; lia|]. reflexivity.
Qed.

(** In the format double: the smoothed probabilities of the second hidden state
    (22396, 28764 and 37526 of 60551 without rounding). *)
Example C87_case_double : exists m1 r,
  r_forward_backward_inference double dbn dbn_ts [1] = Ok (m1, r) /\
  map (fun row => this (nth 1 (nth 0 row []) 0%Qc)) r =
  [6662986061639917 # 18014398509481984; 4278758061194199 # 9007199254740992; 5582140001542675 # 9007199254740992]%Q.
Proof. eexists. eexists. split; vm_compute; reflexivity. Qed.
