(** * The memory of inference, learning and sampling (Property C94) *)
From Verif Require Import Base MemoryModel MemorySpec MemorySpec2 MemoryModel5 MemorySpec5 MemoryProofs35.
Import ListNotations.
Open Scope nat_scope.
Local Open Scope res_scope.
Local Open Scope list_scope.

(** C94.  Programs as in C83 that also infer, learn and draw series, in whatever
    order and however learning ends: no memory is freed twice or used after it
    was freed, the join trees stay as they are, and once the user has freed the
    variables, cliques, series and results, no memory is allocated any more. *)
Theorem C94_programs : forall l t, deed_effects no_things l = Some t ->
  exists m vs cl ys us, run_deeds (start, [], []) l = Ok ((m, vs, cl), ys, us) /\
    length vs = length (w_vars (t_world t)) /\ length cl = length (w_cliques (t_world t)) /\
    length ys = length (t_series t) /\ length us = length (t_results t) /\
    (forall a mem nb, clique_of (t_world t) a = Some (mem, nb) -> has_neighbours m (nth a cl 0) (map (fun b => nth b cl 0) nb)) /\
    ((forall v, exists_var (t_world t) v = false) -> (forall a, clique_of (t_world t) a = None) ->
     (forall y, nth y (t_series t) false = false) -> (forall u, nth u (t_results t) false = false) -> all_free m).
Proof. exact C94_programs_lemma. Qed.
Print Assumptions C94_programs.

(** Learning leaves memory as it was, except for family mappings, which belong to
    the variables. *)
Theorem C94_learning : forall l t ys vars out families random w first others t' m vs cl ya us,
  deed_effects no_things l = Some t -> deed_effect t (Learn ys vars out families random w first others) = Some t' ->
  run_deeds (start, [], []) l = Ok ((m, vs, cl), ya, us) ->
  exists m', run_deed ((m, vs, cl), ya, us) (Learn ys vars out families random w first others) = Ok ((m', vs, cl), ya, us) /\
    only_mappings m m' (map (fun i => nth i vs 0) vars).
Proof. exact C94_learning_lemma. Qed.
Print Assumptions C94_learning.

(** Inference changes nothing that was allocated before, and nothing is left of it
    when its results are freed. *)
Theorem C94_inference : forall l t y vars out w d t' m vs cl ys us,
  d = Filter y vars out w \/ d = Smooth y vars out w ->
  deed_effects no_things l = Some t -> deed_effect t d = Some t' -> run_deeds (start, [], []) l = Ok ((m, vs, cl), ys, us) ->
  exists m' u m'', run_deed ((m, vs, cl), ys, us) d = Ok ((m', vs, cl), ys, us ++ [u]) /\ keeps m m' /\
    free_uncertainseries m' (Some u) = Ok m'' /\ same_memory m m''.
Proof. exact C94_inference_lemma. Qed.
Print Assumptions C94_inference.

(** The same for a series that was drawn. *)
Theorem C94_sampling : forall l t vars out n w t' m vs cl ys us,
  deed_effects no_things l = Some t -> deed_effect t (Sample vars out n w) = Some t' -> run_deeds (start, [], []) l = Ok ((m, vs, cl), ys, us) ->
  exists m' y m'', run_deed ((m, vs, cl), ys, us) (Sample vars out n w) = Ok ((m', vs, cl), ys ++ [y], us) /\ keeps m m' /\
    free_timeseries m' (Some y) = Ok m'' /\ same_memory m m''.
Proof. exact C94_sampling_lemma. Qed.
Print Assumptions C94_sampling.

(** A case: two variables, the second a child of the first, in a clique; a series
    is drawn, learning from it has bad luck in its second iteration, and then the
    series is filtered and smoothed. *)
Definition good_iteration : iteration := mkIteration (fun _ => false) (fun _ _ => false) false false (fun _ _ => false) (fun _ _ _ => [2]).
Definition unlucky_iteration : iteration := mkIteration (fun _ => false) (fun _ t => Nat.eqb t 1) false false (fun _ _ => false) (fun _ _ _ => [1; 2]).
Definition family_cards (v : nat) : list nat := match v with 0 => [2] | _ => [3; 2] end.
Definition deeds_before : list deed :=
  [Act (Tree (NewVariable 1 None [2; 3])); Act (Tree (NewVariable 2 (Some 4) [1; 1; 1])); Act (Tree (SetParents 1 [0]));
   Act (Tree (NewClique [0; 1])); Sample [0; 1] [0] 2 (fun _ _ => [2])].
Definition learning : deed := Learn [(0, 2)] [0; 1] [0] family_cards true (fun _ => []) good_iteration [unlucky_iteration; good_iteration].
Definition deeds_after : list deed :=
  [Filter 0 [1] [0] (fun _ _ => [1]); Smooth 0 [0; 1] [0] (fun _ _ => [3]); Act (FreeResults 1); Act (FreeSeries 0);
   Act (Tree (FreeClique 0)); Act (Tree (FreeVariable 1)); Act (FreeResults 0); Act (Tree (FreeVariable 0))].
Definition ended (l : list deed) : option (nat * nat) :=
  match run_deeds (start, [], []) l with
  | Ok ((m, _, _), _, _) => Some (length m, length (filter (fun b => match b with Some _ => true | None => false end) m))
  | _ => None
  end.
Example C94_case :
  deed_effects no_things deeds_before = Some (mkThings (mkWorld [true; true] [Some ([0; 1], [])]) [true] []) /\
  deed_effect (mkThings (mkWorld [true; true] [Some ([0; 1], [])]) [true] []) learning <> None /\
  ended deeds_before = Some (61, 32) /\ ended (deeds_before ++ [learning]) = Some (167, 34) /\
  exists t, deed_effects no_things (deeds_before ++ [learning] ++ deeds_after) = Some t /\
    (forall v, exists_var (t_world t) v = false) /\ (forall a, clique_of (t_world t) a = None) /\
    (forall y, nth y (t_series t) false = false) /\ (forall u, nth u (t_results t) false = false).
Proof.
  split; [vm_compute; reflexivity|]. split; [vm_compute; discriminate|]. split; [vm_compute; reflexivity|]. split; [vm_compute; reflexivity|].
  exists (mkThings (mkWorld [false; false] [None]) [false] [false; false]).
  split; [vm_compute; reflexivity|]. cbn [t_world t_series t_results].
  split; [intros [|[|[|v]]]; reflexivity|]. split; [intros [|[|v]]; reflexivity|].
  split; [intros [|[|v]]; reflexivity|intros [|[|[|v]]]; reflexivity].
Qed.
