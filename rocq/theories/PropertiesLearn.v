(** * Properties C43-C47, C56, C58, C59: learning and sampling (src/nip.c 1726-2543)

    The specification is in LearnSpec.v.  [cond card m ps v a] is the table of
    variable [v] divided by the sum of its column, [installed] says that a model
    consists of these conditional distributions, [expected] is the sum over time
    of the posterior joint of a family in the unrolled model of SliceSpec.v,
    [likelihood] the probability of a series there.  Log-likelihoods are
    represented by their exponentials; [drops] and [improves] compare two of them
    with a threshold. *)
From Coq Require Import Permutation.
From Verif Require Import Base PotentialModel PotentialSpec VariableModel JoinTreeModel
  AssignSpec JoinTreeSpec NipModel NipSpec SliceModel SliceSpec LearnModel LearnSpec LearnProofs2 LearnProofs3
  LearnProofs4 LearnProofs5 LearnProofs6 LearnProofs8 LearnProofs9 FactorProofs JoinTreeCheck NipCheck SliceCheck LearnCheck.
Import ListNotations.
Open Scope nat_scope.

(** C43.  The maximisation step: tables of counts become conditional
    distributions, and the model consists of these. *)
Theorem C43_m_step_installs : forall card m ps, learnable card m -> params_ok card m ps -> columns_positive card m ps ->
  exists m' ps', m_step m ps = Ok (m', ps', NO_ERROR) /\ learnable card m' /\ same_structure m m' /\
    installed card m ps m' /\
    (forall a, valid card a -> joint (m_jt m') a = original m' a) /\
    (forall v a, v < length (m_vars m) -> valid card a ->
       den (family m v) (param ps' v) a = cond card m ps v a) /\
    (forall v a, v < length (m_vars m) -> valid card a ->
       (0 <= cond card m ps v a)%Qc /\ sumv card [v] (cond card m ps v) a = 1%Qc) /\
    conditional_slices card m'.
Proof. exact C43_lemma. Qed.
Print Assumptions C43_m_step_installs.

(** C43 without the assumption about columns of variables with parents: such a
    column is kept as it is, all zero; no other column is affected. *)
Theorem C43_zero_columns : forall card m ps, learnable card m -> params_ok card m ps ->
  (forall v a, v < length (m_vars m) -> v_parents (var m v) = [] -> valid card a -> column card m ps v a <> 0%Qc) ->
  exists m' ps', m_step m ps = Ok (m', ps', NO_ERROR) /\ installed card m ps m' /\
    forall v a, v < length (m_vars m) -> valid card a ->
      den (family m v) (param ps' v) a = cond card m ps v a /\
      sumv card [v] (cond card m ps v) a = if Qc_eq_dec (column card m ps v a) 0%Qc then 0%Qc else 1%Qc.
Proof. exact C43_zero_lemma. Qed.
Print Assumptions C43_zero_columns.

Example C43_case : learnable dbn_card dbn /\ params_ok dbn_card dbn dbn_ps /\ columns_positive dbn_card dbn dbn_ps.
Proof.
  split; [exact dbn_learnable|]. split; [exact dbn_ps_ok|]. intros v a Hv Ha K. apply (f_equal this) in K.
  assert (V0 := Ha 0). assert (V1 := Ha 1). assert (V2 := Ha 2). cbn in V0, V1, V2.
  do 4 (destruct v as [|v]; [unfold column, den, family in K; cbn in K; unfold upd in K; cbn in K;
    try destruct (a 0) as [|[|]]; try destruct (a 1) as [|[|]]; try destruct (a 2) as [|[|]]; try lia;
    vm_compute in K; discriminate|]).
  cbn in Hv. lia.
Qed.

(** C44.  The stopping rule, for whatever the iterations yield: [ls] are the
    likelihoods of the iterations done. *)
Theorem C44_stopping_rule : forall A (iteration : A -> res (A * Qc * code)) growth max_iterations s old curve,
  (forall s, exists s' l e, iteration s = Ok (s', l, e)) ->
  exists s' o ls s1,
    em_loop iteration growth max_iterations (Nat.max 3 (Z.to_nat max_iterations)) s old 0 curve = Ok (s', o) /\
    runs iteration s ls s1 /\ length ls <= Nat.max 3 (Z.to_nat max_iterations) /\
    (* an iteration is not the last one *)
    (forall k, S k < length ls ->
       ~ drops growth (nth k (old :: ls) 0%Qc) (nth k ls 0%Qc) /\
       (S k < 3 \/ (improves growth (nth k (old :: ls) 0%Qc) (nth k ls 0%Qc) /\ (Z.of_nat (S k) < max_iterations)%Z))) /\
    let k := length ls - 1 in let x := nth k (old :: ls) 0%Qc in let y := nth k ls 0%Qc in
    ( (* success *)
      (o_code o = NO_ERROR /\ s' = s1 /\ 3 <= length ls /\ o_curve o = curve ++ ls /\ ~ drops growth x y /\
       ((o_criterion o = Some DELTA /\ ~ improves growth x y) \/
        (o_criterion o = Some ITERATIONS /\ improves growth x y /\ (max_iterations <= Z.of_nat (length ls))%Z)))
      \/ (* the likelihood dropped *)
      (o_code o = BAD_LUCK /\ s' = s1 /\ ls <> [] /\ o_curve o = curve ++ ls /\ o_criterion o = None /\ drops growth x y)
      \/ (* an iteration failed *)
      (exists l, iteration s1 = Ok (s', l, o_code o) /\ o_code o <> NO_ERROR /\ o_criterion o = None /\
         o_curve o = (match o_code o with BAD_LUCK => curve ++ ls | _ => [] end))).
Proof. exact C44_loop_lemma. Qed.
Print Assumptions C44_stopping_rule.

(** C44.  Learning as a whole: the iterations are exact rounds of
    expectation-maximisation with one added to each count. *)
Theorem C44_em_learn : forall card m ts random max_iterations growth tiny curve,
  learnable card m -> ts <> [] -> Forall (series_ok m) ts -> initial_ok card m random ->
  exists ps0 ls m1 ps1 m' o,
    em_learn m ts random max_iterations growth tiny curve = Ok (m', o) /\
    params_ok card m ps0 /\ columns_positive card m ps0 /\ starts_from card m random ps0 /\
    em_rounds card ts m ps0 ls m1 ps1 /\ learnable card m' /\ same_structure m m' /\
    length ls <= Nat.max 3 (Z.to_nat max_iterations) /\
    o_curve o = curve ++ ls /\
    (forall k, S k < length ls ->
       ~ drops growth (nth k (tiny :: ls) 0%Qc) (nth k ls 0%Qc) /\
       (S k < 3 \/ (improves growth (nth k (tiny :: ls) 0%Qc) (nth k ls 0%Qc) /\ (Z.of_nat (S k) < max_iterations)%Z))) /\
    ((o_code o = NO_ERROR /\ m' = m1 /\ 3 <= length ls /\
      let k := length ls - 1 in
      ~ drops growth (nth k (tiny :: ls) 0%Qc) (nth k ls 0%Qc) /\
      ((o_criterion o = Some DELTA /\ ~ improves growth (nth k (tiny :: ls) 0%Qc) (nth k ls 0%Qc)) \/
       (o_criterion o = Some ITERATIONS /\ improves growth (nth k (tiny :: ls) 0%Qc) (nth k ls 0%Qc) /\
        (max_iterations <= Z.of_nat (length ls))%Z)) /\
      conditional_slices card m' /\ nth k ls 0%Qc = total_likelihood card m' ts) \/
     (o_code o = BAD_LUCK /\ o_criterion o = None /\
      ((m' = m1 /\ ls <> [] /\ let k := length ls - 1 in drops growth (nth k (tiny :: ls) 0%Qc) (nth k ls 0%Qc)) \/
       (installed card m1 ps1 m' /\ exists s, In s ts /\ likelihood card m' s = 0%Qc)))).
Proof. exact em_learn_ok. Qed.
Print Assumptions C44_em_learn.

Example C44_case : learnable coin_card coin /\ Forall (series_ok coin) [coin_ts] /\ initial_ok coin_card coin None /\
  match em_learn coin [coin_ts] None 10 (qr 101 100) (qn 0) [] with
  | Ok (_, o) => map this (o_curve o) = map this [qr 1 2; qr 2 3; qr 2 3] /\ o_criterion o = Some DELTA /\ o_code o = NO_ERROR
  | _ => False
  end.
Proof.
  split; [exact coin_learnable|]. split; [constructor; [exact coin_ts_ok|constructor]|]. split; [|vm_compute; auto].
  intros k v a Hk Hv _ Ha E. apply (f_equal this) in E. destruct k; [|cbn in Hk; lia]. destruct v; [|cbn in Hv; lia].
  vm_compute in E. discriminate.
Qed.
Example C44_random_case : initial_ok dbn_card dbn (Some (fun v i => qn 1)).
Proof.
  split; [intros; discriminate|]. intros v c Hv. exists 0. split; [apply dbn_card_pos|reflexivity].
Qed.

(** C45.  Inverse transform: always in the range; the first index whose
    cumulative sum reaches the random number. *)
Theorem C45_lottery_picks : forall d r, 0 < length d ->
  exists k, lottery d (length d) r = Ok (Z.of_nat k) /\ picks d r k.
Proof. exact lottery_ok. Qed.
Print Assumptions C45_lottery_picks.

(** C45.  State [i] is drawn exactly for the random numbers of an interval whose
    length is the probability of [i]. *)
Theorem C45_lottery_interval : forall d i, Forall (fun x => (0 <= x)%Qc) d -> qsum d = 1%Qc -> i < length d ->
  (below d (S i) - below d i = nth i d 0)%Qc /\
  forall r, (0 < r)%Qc -> (r <= 1)%Qc ->
    (lottery d (length d) r = Ok (Z.of_nat i) <-> (below d i < r)%Qc /\ (r <= below d (S i))%Qc).
Proof. exact C45_interval_lemma. Qed.
Print Assumptions C45_lottery_interval.

Example C45_case : lottery [qr 1 4; qn 0; qr 3 4] 3 (qr 1 2) = Ok 2%Z.
Proof. reflexivity. Qed.

(** C46.  Impossible states are never drawn with a positive random number... *)
Theorem C46_positive_random : forall d r i, Forall (fun x => (0 <= x)%Qc) d -> qsum d = 1%Qc ->
  (0 < r)%Qc -> (r <= 1)%Qc -> lottery d (length d) r = Ok (Z.of_nat i) -> (0 < nth i d 0)%Qc.
Proof. exact C46_positive_lemma. Qed.
Print Assumptions C46_positive_random.

(** ... but the random number zero, which rand() may return, draws the first
    state even if it is impossible. *)
Theorem C46_no_impossible_state_refuted :
  ~ (forall d r i, Forall (fun x => (0 <= x)%Qc) d -> qsum d = 1%Qc -> (0 <= r)%Qc -> (r <= 1)%Qc ->
     lottery d (length d) r = Ok (Z.of_nat i) -> (0 < nth i d 0)%Qc).
Proof. exact C46_refuted_lemma. Qed.
Print Assumptions C46_no_impossible_state_refuted.

(** C47.  The order of the variables, for every acyclic model. *)
Theorem C47_parents_first : forall m l fuel, closed_parents m -> topological m l -> length (m_vars m) <= fuel ->
  exists vars, sampling_order fuel m = Ok (all_marked m, vars) /\ topological m vars.
Proof. intros m l fuel H1 H2 H3. exact (sampling_order_ok m H1 fuel l H2 H3). Qed.
Print Assumptions C47_parents_first.

(** C47.  Whatever the random numbers are, the series has a valid state for every
    variable and step. *)
Theorem C47_valid_states : forall card m T rnd fuel l, slices_ok card m -> topological m l -> length (m_vars m) <= fuel ->
  exists m' ts, generate_data fuel m T rnd = Ok (m', ts) /\ model_ok card m' /\ same_model (all_marked m) m' /\
    topological m (ts_observed ts) /\ length (ts_data ts) = T /\ series_ok m ts /\ states_ok card ts.
Proof. exact C47_valid_lemma. Qed.
Print Assumptions C47_valid_states.

(** C47.  More: every entry is drawn from the exact distribution of its variable
    given everything drawn before, so that the series is a sample from the
    unrolled model; with positive random numbers it is a possible one. *)
Theorem C47_exact_sampling : forall card m T rnd fuel l m' ts, slices_ok card m -> topological m l ->
  length (m_vars m) <= fuel -> generate_data fuel m T rnd = Ok (m', ts) ->
  (m_out m <> [] \/ (conditional_slices card m /\ positive_random rnd) ->
   forall t i, t < T -> i < length (m_vars m) -> drawn_from card (all_marked m) ts t i (rnd t i)) /\
  (conditional_slices card m -> positive_random rnd -> likelihood card (all_marked m) ts <> 0%Qc).
Proof. exact C47_exact_lemma. Qed.
Print Assumptions C47_exact_sampling.

(** C47.  On a cyclic graph the ordering never ends. *)
Theorem C47_cyclic_diverges : forall m fuel, closed_parents m -> (forall l, ~ topological m l) ->
  sampling_order fuel m = NoFuel.
Proof. intros m fuel H1 H2. exact (sampling_order_cyclic m H1 H2 fuel). Qed.
Print Assumptions C47_cyclic_diverges.

Example C47_case : slices_ok dbn_card dbn /\ topological dbn [0; 1; 2; 3] /\ conditional_slices dbn_card dbn /\
  m_out dbn <> [] /\ positive_random (fun _ _ => qr 1 2) /\
  match generate_data 4 dbn 2 (fun t i => qr (Z.of_nat (t + i) + 1) 5) with
  | Ok (_, ts) => ts_observed ts = [0; 2; 1; 3] /\ ts_data ts = [[0; 1; 0; 2]; [0; 1; 1; 2]]%Z
  | _ => False
  end.
Proof.
  split; [exact dbn_ok|]. split; [exact dbn_topological|]. split; [exact dbn_conditional|]. split; [discriminate|].
  split; [intros t i; split; [reflexivity|discriminate]|vm_compute; auto].
Qed.
Example C47_cyclic_case : closed_parents ring2 /\ (forall l, ~ topological ring2 l) /\ slices_ok dbn_card ring2.
Proof.
  split; [|split; [exact ring2_cyclic|exact ring2_ok]]. exact (model_parents dbn_card ring2 (so_model _ _ ring2_ok)).
Qed.

(** C56.  One expectation step adds the expected counts, and nothing else, to the
    parameters; impossible data are noticed and leave the parameters alone. *)
Theorem C56_expected_counts : forall card m ts ps, slices_ok card m -> series_ok m ts ->
  (forall v, v < length (m_vars m) -> NoDup (family m v)) -> params_ok card m ps ->
  exists m' ps' ll e, e_step m ts ps = Ok (m', ps', ll, e) /\ model_ok card m' /\ same_model m m' /\
    ((e = BAD_LUCK /\ ps' = ps) \/
     (e = NO_ERROR /\ likelihood card m ts <> 0%Qc /\ params_ok card m ps' /\
      forall v ix, v < length (m_vars m) -> valid_ix (map card (family m v)) ix ->
        cell (param ps' v) ix = (cell (param ps v) ix + expected card m ts v ix)%Qc)) /\
    (conditional_slices card m -> (e = BAD_LUCK <-> likelihood card m ts = 0%Qc) /\
       (e = NO_ERROR -> ll = likelihood card m ts)).
Proof. exact C56_lemma. Qed.
Print Assumptions C56_expected_counts.

Example C56_case : slices_ok dbn_card dbn /\ series_ok dbn dbn_ts /\ params_ok dbn_card dbn dbn_ps /\
  (forall v, v < length (m_vars dbn) -> NoDup (family dbn v)) /\ conditional_slices dbn_card dbn /\
  match e_step dbn dbn_ts dbn_ps with Ok (_, _, ll, e) => e = NO_ERROR /\ this ll <> this 0%Qc | _ => False end.
Proof.
  split; [exact dbn_ok|]. split; [exact dbn_ts_ok|]. split; [exact dbn_ps_ok|].
  split; [exact (le_family _ _ dbn_learnable)|]. split; [exact dbn_conditional|].
  vm_compute. split; [reflexivity|discriminate].
Qed.

(** C58.  The likelihood of the data never decreases during learning.  Not so:
    one is added to every count, the learned model is not the one of maximal
    likelihood. *)
Theorem C58_learning_monotone_refuted :
  ~ (forall card m ts random max_iterations growth tiny m' o,
       learnable card m -> ts <> [] -> Forall (series_ok m) ts -> initial_ok card m random ->
       em_learn m ts random max_iterations growth tiny [] = Ok (m', o) ->
       forall k, S k < length (o_curve o) -> (nth k (o_curve o) 0 <= nth (S k) (o_curve o) 0)%Qc).
Proof. exact C58_refuted_lemma. Qed.
Print Assumptions C58_learning_monotone_refuted.

(** C59.  Learning without random initial parameters starts from the model: its
    first likelihood is that of the given model.  Not so: the priors of the
    parentless variables are forgotten. *)
Theorem C59_learning_continues_refuted :
  ~ (forall card m ts max_iterations growth tiny m' o,
       learnable card m -> ts <> [] -> Forall (series_ok m) ts -> initial_ok card m None -> conditional_slices card m ->
       em_learn m ts None max_iterations growth tiny [] = Ok (m', o) ->
       nth 0 (o_curve o) 0%Qc = total_likelihood card m ts).
Proof. exact C59_refuted_lemma. Qed.
Print Assumptions C59_learning_continues_refuted.

(** C59, the part that holds: the conditional distributions of the variables with
    parents are those of the model, the priors become uniform; the first
    likelihood is that of the model with uniform priors.  Missing: the priors. *)
Theorem C59_conditionals_kept_partial : forall card m, learnable card m ->
  forall f, factored card m f -> conditional_factors card m f ->
  forall ts max_iterations growth tiny m' o,
  ts <> [] -> Forall (series_ok m) ts -> initial_ok card m None ->
  em_learn m ts None max_iterations growth tiny [] = Ok (m', o) ->
  exists m1, uniform_roots card m m1 /\
    ((o_curve o = [] /\ exists s, In s ts /\ likelihood card m1 s = 0%Qc) \/
     (o_curve o <> [] /\ nth 0 (o_curve o) 0%Qc = total_likelihood card m1 ts)).
Proof. exact C59_kept_lemma. Qed.
Print Assumptions C59_conditionals_kept_partial.

Example C59_case : learnable dbn_card dbn /\ Forall (series_ok dbn) [dbn_ts] /\ initial_ok dbn_card dbn None /\
  factored dbn_card dbn dbn_factor /\ conditional_factors dbn_card dbn dbn_factor.
Proof.
  split; [exact dbn_learnable|]. split; [constructor; [exact dbn_ts_ok|constructor]|]. split; [exact dbn_initial|].
  split; [exact dbn_factored|exact dbn_factors].
Qed.
