(** * Properties C33-C39, C55 and C57: evidence, priors and queries (src/nip.c)

    The specification is in NipSpec.v.  [original m] is the product of the
    original clique tables, [weight n lik] the product of a likelihood per
    variable, [priors m vs] the product of the priors of the variables [vs];
    [latest card names xs] is the likelihood of every variable after the
    insertions [xs]: what was said about it last.  [joint] is the function that
    the join tree represents.  [model_ok] describes a model in any state that
    can be reached from a parsed one. *)
From Coq Require Import String.
From Verif Require Import Base PotentialModel PotentialSpec VariableModel JoinTreeModel
  AssignSpec JoinTreeSpec NipModel NipSpec NipProofs2 NipProofs3 NipProofs4
  GatherModel GatherProofs2 JoinTreeCheck NipCheck.
Import ListNotations.
Open Scope nat_scope.

(** C33.  get_probability after make_consistent: the exact posterior. *)
Theorem C33_get_probability_exact : forall card m v, model_ok card m -> v < length (m_vars m) ->
  forall m1, make_consistent_model m = Ok m1 ->
  exists m2 r, get_probability m1 v = Ok (m2, Some r) /\ same_model m m2 /\ m_jt m2 = m_jt m1 /\
    length r = card v /\
    forall x, x < card v ->
      nth x r 0%Qc = (sum_where card m (joint (m_jt m)) v x / sum_all card m (joint (m_jt m)))%Qc.
Proof. exact get_probability_ok. Qed.
Print Assumptions C33_get_probability_exact.

(** C34.  Any sequence of hard and soft insertions after a reset: the joint is
    the original one times the latest likelihood of every variable, whatever
    was entered before it. *)
Theorem C34_latest_evidence : forall card names m xs, model_ok card m -> names_ok card m names ->
  Forall (insertion_ok card names) xs ->
  exists m0 m', reset_model m = Ok m0 /\ insert_all names m0 xs = Ok m' /\
    forall a, valid card a ->
      joint (m_jt m') a =
        (original m a *
         weight (length (m_vars m)) (latest card names xs (fun v => repeat 1%Qc (card v))) a)%Qc.
Proof. exact C34_latest_lemma. Qed.
Print Assumptions C34_latest_evidence.

(** C34 with priors in use.  Missing for the full claim: insertions that give
    weight to a state excluded before, see the next theorem. *)
Theorem C34_evidence_with_priors_partial : forall card names m h xs,
  model_ok card m -> names_ok card m names ->
  Forall (insertion_ok card names) xs ->
  never_revives card names xs (fun v => repeat 1%Qc (card v)) ->
  exists m0 m1 m', reset_model m = Ok m0 /\ use_priors m0 h = Ok m1 /\ insert_all names m1 xs = Ok m' /\
    forall a, valid card a ->
      joint (m_jt m') a =
        (original m a *
         weight (length (m_vars m)) (latest card names xs (fun v => repeat 1%Qc (card v))) a *
         priors m (filter (fun v => negb h || negb (v_old (var m v))) (m_indep m)) a)%Qc.
Proof. exact C34_priors_lemma. Qed.
Print Assumptions C34_evidence_with_priors_partial.

(** C34 is false when the last insertion revives a state: all priors are lost
    from the joint. *)
Theorem C34_priors_lost_refuted : forall card names m h xs x v l,
  model_ok card m -> names_ok card m names ->
  Forall (insertion_ok card names) xs -> insertion_ok card names x ->
  says card names x = Some (v, l) ->
  revives (latest card names xs (fun v => repeat 1%Qc (card v)) v) l ->
  exists m0 m1 m', reset_model m = Ok m0 /\ use_priors m0 h = Ok m1 /\
    insert_all names m1 (xs ++ [x]) = Ok m' /\
    forall a, valid card a ->
      joint (m_jt m') a =
        (original m a *
         weight (length (m_vars m)) (latest card names (xs ++ [x]) (fun v => repeat 1%Qc (card v))) a)%Qc.
Proof. exact C34_lost_lemma. Qed.
Print Assumptions C34_priors_lost_refuted.

(** Any history of insertions, priors, resets, propagation and queries: [learn]
    keeps the latest likelihoods and the set of priors in use. *)
Theorem C34_any_history : forall card names m os, model_ok card m -> names_ok card m names ->
  Forall (op_ok card names m) os ->
  exists m', run names m (Reset :: os) = Ok m' /\
    (forall v, v < length (m_vars m) -> v_lik (var m' v) = b_lik (learn card names m (no_belief card) os) v) /\
    forall a, valid card a ->
      joint (m_jt m') a =
        (original m a * weight (length (m_vars m)) (b_lik (learn card names m (no_belief card) os)) a *
         priors m (b_active (learn card names m (no_belief card) os)) a)%Qc.
Proof. exact C34_history_lemma. Qed.
Print Assumptions C34_any_history.

(** C35.  Two states of the same model are the same after reset_model. *)
Theorem C35_reset_forgets : forall card m1 m2, model_ok card m1 -> model_ok card m2 -> same_model m1 m2 ->
  exists r1 r2, reset_model m1 = Ok r1 /\ reset_model m2 = Ok r2 /\
    (forall a, valid card a -> joint (m_jt r1) a = original m1 a /\ joint (m_jt r2) a = original m1 a) /\
    (forall v, v < length (m_vars m1) ->
       v_lik (var r1 v) = repeat 1%Qc (card v) /\ v_lik (var r2 v) = repeat 1%Qc (card v) /\
       v_entered (var r1 v) = false /\ v_entered (var r2 v) = false) /\
    same_model r1 r2.
Proof. exact C35_lemma. Qed.
Print Assumptions C35_reset_forgets.

(** C36.  Any list of calls of use_priors: the priors asked for by at least one
    of them are in the joint, once. *)
Theorem C36_priors_once : forall card m hs, model_ok card m ->
  exists m0 m', reset_model m = Ok m0 /\ priors_all m0 hs = Ok m' /\
    forall a, valid card a ->
      joint (m_jt m') a =
        (original m a *
         priors m (filter (fun v => existsb (fun h => negb h || negb (v_old (var m v))) hs) (m_indep m)) a)%Qc.
Proof. exact C36_lemma. Qed.
Print Assumptions C36_priors_once.

(** C36.  Calling it again changes nothing. *)
Theorem C36_priors_idempotent : forall card m h m1,
  model_ok card m -> (exists F, represents card m F) ->
  use_priors m h = Ok m1 -> use_priors m1 h = Ok m1.
Proof. exact C36_idempotent_lemma. Qed.
Print Assumptions C36_priors_idempotent.

(** C37.  The masses before and after entering evidence on a variable without
    evidence: their ratio is the expectation of the likelihood. *)
Theorem C37_mass_ratio : forall card m v e F, model_ok card m -> represents card m F ->
  v < length (m_vars m) -> vector_ok card v e -> v_lik (var m v) = repeat 1%Qc (card v) ->
  exists m1 m1' z1 m2 m3 m3' z3,
    make_consistent_model m = Ok m1 /\ model_prob_mass m1 = Ok (m1', z1) /\
    enter_evidence m1' v (Some e) = Ok (m2, NO_ERROR) /\
    make_consistent_model m2 = Ok m3 /\ model_prob_mass m3 = Ok (m3', z3) /\
    z1 = sum_all card m (joint (m_jt m)) /\
    z3 = sum_all card m (fun a => joint (m_jt m) a * at_state e v a)%Qc.
Proof. exact C37_ratio_lemma. Qed.
Print Assumptions C37_mass_ratio.

(** C38. *)
Theorem C38_distribution : forall card m m1 v, model_ok card m -> make_consistent_model m = Ok m1 ->
  v < length (m_vars m) ->
  exists m2 r, get_probability m1 v = Ok (m2, Some r) /\ length r = card v /\
    (forall x, In x r -> (0 <= x)%Qc) /\
    (sum_all card m (joint (m_jt m)) <> 0%Qc -> qsum r = 1%Qc) /\
    (sum_all card m (joint (m_jt m)) = 0%Qc -> forall x, In x r -> x = 0%Qc).
Proof. exact C38_lemma. Qed.
Print Assumptions C38_distribution.

(** C39 for a tree of one clique: the exact joint posterior in the order of the
    given variables.  Missing: trees of several cliques, see below. *)
Theorem C39_joint_posterior_partial : forall card m vars, model_ok card m -> length (cls (m_jt m)) = 1 ->
  NoDup vars -> vars <> [] -> (forall v, In v vars -> v < length (m_vars m)) ->
  exists m' p, get_joint_probability m vars = Ok (m', Some p) /\ table card vars p /\
    (forall a, valid card a ->
      den vars p a = (sumv card (minus (seq 0 (length (m_vars m))) vars) (joint (m_jt m)) a /
                      sum_all card m (joint (m_jt m)))%Qc) /\
    same_model m m' /\ (forall a, valid card a -> joint (m_jt m') a = joint (m_jt m) a).
Proof. exact C39_partial_lemma. Qed.
Print Assumptions C39_joint_posterior_partial.

(** C39 is false for every tree of at least two cliques and every set of
    variables: no table is ever returned (the call fails, or reads outside of
    an array). *)
Theorem C39_joint_posterior_refuted : forall card m vars, model_ok card m -> 2 <= length (cls (m_jt m)) ->
  NoDup vars -> vars <> [] ->
  forall m' p, get_joint_probability m vars <> Ok (m', Some p).
Proof. exact C39_refuted_lemma. Qed.
Print Assumptions C39_joint_posterior_refuted.

(** C55.  set_observation, then get_observation, and the other entries. *)
Theorem C55_set_then_get_partial : forall card m names ts v nv t s i,
  names_ok card m names -> nth_error names v = Some nv ->
  NoDup (ts_observed ts) -> In v (ts_observed ts) ->
  t < length (ts_data ts) ->
  Forall (fun row => length row = length (ts_observed ts)) (ts_data ts) ->
  position s (states_of nv) = Some i ->
  exists ts', set_observation names ts v (Z.of_nat t) s = Ok (ts', NO_ERROR) /\
    get_observation names ts' v (Z.of_nat t) = Ok (Some s) /\
    ts_observed ts' = ts_observed ts /\ length (ts_data ts') = length (ts_data ts) /\
    Forall (fun row => length row = length (ts_observed ts)) (ts_data ts') /\
    forall t' j, t' < length (ts_data ts) -> j < length (ts_observed ts) ->
      entry ts' t' j = if Nat.eqb t' t && Nat.eqb (nth j (ts_observed ts) 0) v
                       then Z.of_nat i else entry ts t' j.
Proof. exact C55_set_lemma. Qed.
Print Assumptions C55_set_then_get_partial.

(** C55.  Unknown variables and states are rejected. *)
Theorem C55_set_rejects : forall card m names ts v nv t s,
  names_ok card m names -> nth_error names v = Some nv ->
  ~ In v (ts_observed ts) \/ ~ In s (states_of nv) ->
  set_observation names ts v t s = Ok (ts, EINVAL).
Proof. exact C55_reject_lemma. Qed.
Print Assumptions C55_set_rejects.
Theorem C55_get_rejects : forall names ts v t,
  ~ In v (ts_observed ts) \/ (t < 0)%Z \/ (Z.of_nat (length (ts_data ts)) <= t)%Z ->
  get_observation names ts v t = Ok None.
Proof. exact C55_get_reject_lemma. Qed.
Print Assumptions C55_get_rejects.

(** C55 is false for times outside of the series ... *)
Theorem C55_set_time_refuted : forall card m names ts v nv t s,
  names_ok card m names -> nth_error names v = Some nv ->
  In v (ts_observed ts) -> In s (states_of nv) ->
  (t < 0)%Z \/ (Z.of_nat (length (ts_data ts)) <= t)%Z ->
  set_observation names ts v t s = UB.
Proof. exact C55_time_lemma. Qed.
Print Assumptions C55_set_time_refuted.
(** ... and for missing values, which are read as a state. *)
Theorem C55_get_missing_refuted : forall card m names ts v nv t j,
  names_ok card m names -> nth_error names v = Some nv ->
  NoDup (ts_observed ts) -> j < length (ts_observed ts) -> nth j (ts_observed ts) 0 = v ->
  t < length (ts_data ts) -> length (nth t (ts_data ts) []) = length (ts_observed ts) ->
  (entry ts t j < 0)%Z ->
  get_observation names ts v (Z.of_nat t) = UB.
Proof. exact C55_missing_lemma. Qed.
Print Assumptions C55_get_missing_refuted.
Theorem C55_get_posterior : forall ucs j t, NoDup (ucs_variables ucs) -> j < length (ucs_variables ucs) ->
  t < length (ucs_data ucs) -> length (nth t (ucs_data ucs) []) = length (ucs_variables ucs) ->
  get_posterior ucs (nth j (ucs_variables ucs) 0) (Z.of_nat t) = Ok (Some (nth j (nth t (ucs_data ucs) []) [])).
Proof. exact C55_posterior_lemma. Qed.
Print Assumptions C55_get_posterior.

(** C57.  The family: found whenever a clique contains it, none otherwise, and
    the same answer at the next call. *)
Theorem C57_find_family : forall card m v, shape_ok card (m_jt m) -> v < length (m_vars m) ->
  family_known m v ->
  exists m' r, find_family m v = Ok (m', r) /\
    (match r with
     | Some k => k < length (cls (m_jt m)) /\ incl (v :: v_parents (var m v)) (c_vars (clq (m_jt m) k))
     | None => forall k, k < length (cls (m_jt m)) -> ~ incl (v :: v_parents (var m v)) (c_vars (clq (m_jt m) k))
     end) /\
    (forall m2 r2, find_family m' v = Ok (m2, r2) -> r2 = r) /\
    m_jt m' = m_jt m.
Proof. exact C57_family_lemma. Qed.
Print Assumptions C57_find_family.
Theorem C57_find_family_mapping : forall card m c v, shape_ok card (m_jt m) -> v < length (m_vars m) ->
  c < length (cls (m_jt m)) -> v_fmap (var m v) = None ->
  incl (v :: v_parents (var m v)) (c_vars (clq (m_jt m) c)) -> NoDup (v :: v_parents (var m v)) ->
  exists m' r, find_family_mapping m c v = Ok (m', r) /\
    Forall (fun i => i < length (c_vars (clq (m_jt m) c))) r /\
    map (fun i => nth i (c_vars (clq (m_jt m) c)) 0) r = v :: v_parents (var m v) /\
    find_family_mapping m' c v = Ok (m', r).
Proof. exact C57_mapping_lemma. Qed.
Print Assumptions C57_find_family_mapping.

(** ** Cases

    [ex_model] of NipCheck.v: four variables, three cliques, zeros in the
    tables. *)
Example C33_case : model_ok ex_card ex_model /\ names_ok ex_card ex_model ex_names.
Proof. split; [exact ex_model_ok|exact ex_names_ok]. Qed.

(** P(A | C = yes) with the prior of A: 1/5 and 4/5. *)
Example C33_case_numbers : exists m1 r,
  bind (run ex_names ex_model [Reset; Priors false; Insert (Hard "C" "yes"); Consistent])
    (fun m => get_probability m 0) = Ok (m1, Some r) /\ map this r = [this (qr 1 5); this (qr 4 5)].
Proof. eexists. eexists. split; vm_compute; reflexivity. Qed.

(** A retraction happens: the state "no" of D is excluded, then "yes". *)
Example C34_case : exists xs x,
  Forall (insertion_ok ex_card ex_names) xs /\ insertion_ok ex_card ex_names x /\
  (exists v l, says ex_card ex_names x = Some (v, l) /\
     revives (latest ex_card ex_names xs (fun v => repeat 1%Qc (ex_card v)) v) l) /\
  exists m' a, bind (run ex_names ex_model [Reset; Priors false])
     (fun m1 => insert_all ex_names m1 (xs ++ [x])) = Ok m' /\ valid ex_card a /\
     joint (m_jt m') a <>
       (original ex_model a *
         weight (length (m_vars ex_model)) (latest ex_card ex_names (xs ++ [x]) (fun v => repeat 1%Qc (ex_card v))) a *
         priors ex_model [0%nat] a)%Qc.
Proof.
  exists [Hard "D"%string "yes"%string], (Hard "D"%string "no"%string).
  assert (G : forall s, In s ["yes"; "no"]%string -> insertion_ok ex_card ex_names (Hard "D"%string s)).
  { intros s [<-|[<-|[]]] v l H; vm_compute in H; inversion H; subst; apply vectorb_ok; vm_compute; reflexivity. }
  split; [constructor; [apply G; simpl; auto|constructor]|]. split; [apply G; simpl; auto|].
  split.
  { exists 3, [1%Qc; 0%Qc]. split; [vm_compute; reflexivity|]. exists 0. split; [vm_compute; lia|].
    split; [vm_compute; reflexivity|discriminate]. }
  eexists. exists (fun _ => 0). split; [vm_compute; reflexivity|]. split; [exact ex_card_pos|].
  intros K. apply (f_equal this) in K. vm_compute in K. discriminate.
Qed.

(** Soft evidence that never revives a state. *)
Example C34_partial_case :
  let xs := [Soft "D"%string [qr 1 2; qn 3]; Hard "C"%string "yes"%string; Soft "D"%string [qn 1; qn 0]] in
  Forall (insertion_ok ex_card ex_names) xs /\
  never_revives ex_card ex_names xs (fun v => repeat 1%Qc (ex_card v)).
Proof.
  split.
  - repeat (apply Forall_cons; [intros v l H; vm_compute in H; inversion H; subst; apply vectorb_ok; vm_compute; reflexivity|]).
    apply Forall_nil.
  - assert (N : forall l e, revivesb l e = false -> ~ revives l e).
    { intros l e H K. apply revivesb_spec in K. congruence. }
    simpl. split; [apply N; vm_compute; reflexivity|].
    split; [apply N; vm_compute; reflexivity|]. split; [apply N; vm_compute; reflexivity|exact I].
Qed.

(** States of the same model with different evidence. *)
Example C35_case : exists m1 m2,
  run ex_names ex_model [Reset; Insert (Hard "C" "yes")] = Ok m1 /\
  run ex_names ex_model [Reset; Priors false] = Ok m2 /\
  joint (m_jt m1) (fun _ => 0) <> joint (m_jt m2) (fun _ => 0).
Proof.
  eexists. eexists. split; [vm_compute; reflexivity|]. split; [vm_compute; reflexivity|].
  intros K. apply (f_equal this) in K. vm_compute in K. discriminate.
Qed.

Example C37_ratio_case : exists F, represents ex_card ex_model F.
Proof.
  exists (fun _ => 1%Qc). intros a Ha. unfold joint, original, evidence, weight, phi, at_state, psi.
  cbn. unfold den. cbn.
  assert (V0 := Ha 0). assert (V1 := Ha 1). assert (V2 := Ha 2). assert (V3 := Ha 3). cbn in *.
  destruct (a 0) as [|[|]]; try lia; destruct (a 1) as [|[|[|]]]; try lia;
  destruct (a 2) as [|[|]]; try lia; destruct (a 3) as [|[|]]; try lia; vm_compute; reflexivity.
Qed.

Example C39_case : model_ok ex_card ex_single /\ length (cls (m_jt ex_single)) = 1 /\
  2 <= length (cls (m_jt ex_model)).
Proof. split; [exact ex_single_ok|]. split; [reflexivity|vm_compute; lia]. Qed.
Example C39_refuted_case : exists m', get_joint_probability ex_model [0; 2] = Ok (m', None).
Proof. eexists. vm_compute. reflexivity. Qed.
Example C39_refuted_case_ub : get_joint_probability ex_model [0; 1] = UB.
Proof. vm_compute. reflexivity. Qed.

Example C55_case : exists ts', set_observation ex_names (mkTS [2; 0] [[0; 1]; [1; -1]]%Z) 0 1 "yes" = Ok (ts', NO_ERROR) /\
  ts_data ts' = [[0; 1]; [1; 1]]%Z /\ get_observation ex_names (mkTS [2; 0] [[0; 1]; [1; -1]]%Z) 0 1 = UB.
Proof. eexists. split; [vm_compute; reflexivity|]. split; vm_compute; reflexivity. Qed.

Example C57_case : exists m' k m'' r, find_family ex_model 2 = Ok (m', Some k) /\
  find_family_mapping m' k 2 = Ok (m'', r) /\ r = [1; 0].
Proof. do 4 eexists. split; [vm_compute; reflexivity|]. split; vm_compute; reflexivity. Qed.
