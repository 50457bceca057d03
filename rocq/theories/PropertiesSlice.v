(** * Properties C40-C42: inference over time (src/nip.c 1058-1599)

    The specification is in SliceSpec.v.  [unrolled m ts T E] is the joint of the
    model unrolled over [T] time steps with the data of the first [E] of them:
    the product of one factor per slice, where the outgoing variables of a slice
    are the previous variables of the next one; [posterior_at card m ts T E t v x]
    is the probability in it that variable [v] has state [x] at time [t].
    [slices_ok] describes a model for time slices in any state.  [defined]
    excludes one corner: impossible data in a model without links between the
    slices, for which no posterior is defined. *)
From Coq Require Import String.
From Verif Require Import Base PotentialModel PotentialSpec VariableModel JoinTreeModel
  AssignSpec JoinTreeSpec NipModel NipSpec SliceModel SliceSpec SliceProofs5 JoinTreeCheck NipCheck SliceCheck.
Import ListNotations.
Open Scope nat_scope.

(** C40.  Filtering: at step [t] the posterior given the data of the steps up to
    [t], for every series, including missing values. *)
Theorem C40_forward_filtering : forall card m ts vars ll,
  slices_ok card m -> series_ok m ts -> defined card m ts ->
  (forall v, In v vars -> v < length (m_vars m)) ->
  exists m' results l, forward_inference m ts vars ll = Ok (m', results, l) /\
    length results = length (ts_data ts) /\
    forall t, t < length (ts_data ts) -> length (nth t results []) = length vars /\
      forall i, i < length vars -> length (nth i (nth t results []) []) = card (nth i vars 0) /\
        forall x, x < card (nth i vars 0) ->
          nth x (nth i (nth t results []) []) 0%Qc = posterior_at card m ts (S t) (S t) t (nth i vars 0) x.
Proof. exact C40_lemma. Qed.
Print Assumptions C40_forward_filtering.

(** C40.  The likelihood: the product of the quotients of the masses is the
    probability of the whole series. *)
Theorem C40_forward_likelihood : forall card m ts vars,
  slices_ok card m -> series_ok m ts -> conditional_slices card m ->
  let T := length (ts_data ts) in
  sum_steps card m T (unrolled m ts T T) <> 0%Qc ->
  (forall v, In v vars -> v < length (m_vars m)) ->
  exists m' results l, forward_inference m ts vars true = Ok (m', results, l) /\
    length l = T /\ ratios l = sum_steps card m T (unrolled m ts T T).
Proof. exact C40_likelihood_lemma. Qed.
Print Assumptions C40_forward_likelihood.

(** C40 and C41.  Impossible data are noticed: exactly then a mass is zero. *)
Theorem C40_impossible_data : forall card m ts vars, slices_ok card m -> series_ok m ts -> m_out m <> [] ->
  let T := length (ts_data ts) in
  (forall v, In v vars -> v < length (m_vars m)) ->
  exists m' results l m2 results2 l2,
    forward_inference m ts vars true = Ok (m', results, l) /\
    forward_backward_inference m ts vars true = Ok (m2, results2, l2) /\
    (sum_steps card m T (unrolled m ts T T) = 0%Qc <-> exists x, In x l /\ snd x = 0%Qc) /\
    (sum_steps card m T (unrolled m ts T T) = 0%Qc <-> exists x, In x l2 /\ snd x = 0%Qc).
Proof. exact C40_impossible_lemma. Qed.
Print Assumptions C40_impossible_data.

(** C41.  Smoothing: at every step the posterior given all data. *)
Theorem C41_forward_backward_smoothing : forall card m ts vars ll,
  slices_ok card m -> series_ok m ts -> defined card m ts ->
  (forall v, In v vars -> v < length (m_vars m)) ->
  exists m' results l, forward_backward_inference m ts vars ll = Ok (m', results, l) /\
    length results = length (ts_data ts) /\
    forall t, t < length (ts_data ts) -> length (nth t results []) = length vars /\
      forall i, i < length vars -> length (nth i (nth t results []) []) = card (nth i vars 0) /\
        forall x, x < card (nth i vars 0) ->
          nth x (nth i (nth t results []) []) 0%Qc =
          posterior_at card m ts (length (ts_data ts)) (length (ts_data ts)) t (nth i vars 0) x.
Proof. exact C41_lemma. Qed.
Print Assumptions C41_forward_backward_smoothing.

Theorem C41_likelihood : forall card m ts vars,
  slices_ok card m -> series_ok m ts -> conditional_slices card m ->
  let T := length (ts_data ts) in
  sum_steps card m T (unrolled m ts T T) <> 0%Qc ->
  (forall v, In v vars -> v < length (m_vars m)) ->
  exists m' results l, forward_backward_inference m ts vars true = Ok (m', results, l) /\
    length l = T /\ ratios l = sum_steps card m T (unrolled m ts T T).
Proof. exact C41_likelihood_lemma. Qed.
Print Assumptions C41_likelihood.

(** C42.  Two states of the same model and two series that say the same about
    the marked variables: the results are the same. *)
Theorem C42_only_marked_data_count : forall card m m' ts ts' vars ll ll',
  slices_ok card m -> model_ok card m' -> same_model m m' ->
  series_ok m ts -> series_ok m ts' -> same_marked m ts ts' -> defined card m ts ->
  (forall v, In v vars -> v < length (m_vars m)) ->
  (exists results m1 l1 m2 l2, forward_inference m ts vars ll = Ok (m1, results, l1) /\
     forward_inference m' ts' vars ll' = Ok (m2, results, l2)) /\
  (exists results m1 l1 m2 l2, forward_backward_inference m ts vars ll = Ok (m1, results, l1) /\
     forward_backward_inference m' ts' vars ll' = Ok (m2, results, l2)).
Proof. exact C42_lemma. Qed.
Print Assumptions C42_only_marked_data_count.

(** C42.  Any history of insertions, priors, resets, propagation and queries
    before the call. *)
Theorem C42_any_history : forall card names m os ts vars ll,
  slices_ok card m -> names_ok card m names -> Forall (op_ok card names m) os ->
  series_ok m ts -> defined card m ts -> (forall v, In v vars -> v < length (m_vars m)) ->
  exists m', run names m (Reset :: os) = Ok m' /\
  (exists results m1 l1 m2 l2, forward_inference m ts vars ll = Ok (m1, results, l1) /\
     forward_inference m' ts vars ll = Ok (m2, results, l2)) /\
  (exists results m1 l1 m2 l2, forward_backward_inference m ts vars ll = Ok (m1, results, l1) /\
     forward_backward_inference m' ts vars ll = Ok (m2, results, l2)).
Proof. exact C42_history_lemma. Qed.
Print Assumptions C42_any_history.

(** ** Cases

    [dbn] of SliceCheck.v: a hidden Markov model with an input, three steps with
    missing values. *)
Example C40_case : slices_ok dbn_card dbn /\ series_ok dbn dbn_ts /\ conditional_slices dbn_card dbn /\
  m_out dbn <> [] /\ sum_steps dbn_card dbn 3 (unrolled dbn dbn_ts 3 3) <> 0%Qc.
Proof.
  split; [exact dbn_ok|]. split; [exact dbn_ts_ok|]. split; [exact dbn_conditional|]. split; [discriminate|].
  intros K. apply (f_equal this) in K. vm_compute in K. discriminate.
Qed.
(** The filtered and the smoothed distributions of the hidden state differ. *)
Example C41_case : exists m1 m2 r1 r2 l1 l2,
  forward_inference dbn dbn_ts [1; 0] true = Ok (m1, r1, l1) /\
  forward_backward_inference dbn dbn_ts [1; 0] true = Ok (m2, r2, l2) /\
  map this (nth 0 (nth 0 r1 []) []) <> map this (nth 0 (nth 0 r2 []) []).
Proof.
  do 6 eexists. split; [vm_compute; reflexivity|]. split; [vm_compute; reflexivity|]. vm_compute. discriminate.
Qed.
(** A variable that is not marked: its data do not matter. *)
Definition dbn_unmarked : model :=
  mkModel [dbn_var 0 [] (Some [qr 1 2; qr 1 2]) true 2; dbn_var 1 [0] None false 2;
           dbn_var 2 [] (Some [qr 1 4; qr 3 4]) false 1; dbn_var 3 [1; 2] None false 2]
    dbn_jt [0; 2] [1; 3] [1] [0] 0 0.
Example C42_case : slices_ok dbn_card dbn_unmarked /\
  series_ok dbn_unmarked dbn_ts /\
  same_marked dbn_unmarked dbn_ts (mkTS [3; 2] [[1; 0]; [(-1); (-1)]; [2; 1]]%Z).
Proof.
  split; [apply (slicesb_ok _ _ [(0, 0, 1)]); [exact dbn_card_pos|vm_compute; reflexivity]|].
  split; [exact dbn_ts_ok|]. split; [reflexivity|]. split; [reflexivity|].
  intros t j Ht Hj K. cbn in Ht, Hj.
  destruct j as [|[|j]]; [|exfalso; apply K; reflexivity|lia].
  destruct t as [|[|[|t]]]; try reflexivity; lia.
Qed.
Definition dbn_names : list named_variable :=
  [mkNamed 0 (Some "H0"%string) 2 (Names ["a"; "b"]%string) [];
   mkNamed 1 (Some "H"%string) 2 (Names ["a"; "b"]%string) [];
   mkNamed 2 (Some "I"%string) 2 (Names ["no"; "yes"]%string) [];
   mkNamed 3 (Some "O"%string) 3 (Names ["low"; "mid"; "high"]%string) []].
Example C42_history_case : names_ok dbn_card dbn dbn_names /\
  Forall (op_ok dbn_card dbn_names dbn) [Insert (Hard "H" "b"); Priors true; Consistent; Insert (Hard "O" "mid")].
Proof.
  split.
  - split; [reflexivity|]. intros v nv H.
    destruct v as [|[|[|[|v]]]]; simpl in H; inversion H; subst; try (destruct v; discriminate);
    (split; [discriminate|]); (split; [reflexivity|]); eexists; split; reflexivity.
  - repeat (apply Forall_cons; [try exact I; intros v l H; vm_compute in H; inversion H; subst; apply vectorb_ok; vm_compute; reflexivity|]).
    apply Forall_nil.
Qed.
