(** * Memory is neither lost nor used after it was freed (Properties C82 and C83) *)
From Verif Require Import Base MemoryModel MemorySpec MemoryProofs9 MemoryProofs11 MemoryProofs12 MemoryProofs13.
Import ListNotations.
Open Scope nat_scope.

(** ** C82: join trees

    Whatever variables and cliques a program creates, connects and frees, in
    whatever order: no memory is freed twice or used after it was freed, every
    clique that exists is in lists of sepsets that lead to its present
    neighbours, and once everything is freed no memory is allocated any more. *)
Theorem C82_join_trees : forall cs w, meanings nothing cs = Some w ->
  exists m vs cl, run_calls start cs = Ok (m, vs, cl) /\
    length vs = length (w_vars w) /\ length cl = length (w_cliques w) /\
    (forall a mem nb, clique_of w a = Some (mem, nb) -> has_neighbours m (nth a cl 0) (map (fun b => nth b cl 0) nb)) /\
    ((forall v, exists_var w v = false) -> (forall a, clique_of w a = None) -> all_free m).
Proof. exact C82_lemma. Qed.
Print Assumptions C82_join_trees.

(** A model of the cliques and variables that exist: free_model frees all of
    it, in whatever order they are listed. *)
Theorem C82_models : forall cs w, meanings nothing cs = Some w ->
  forall ks is z, lists_cliques w ks -> lists_variables w is ->
  exists m vs cl m1 x m2, run_calls start cs = Ok (m, vs, cl) /\
    new_model m (map (nth_error cl) ks) (map (nth_error vs) is) z = Ok (m1, Some x) /\
    free_model m1 (Some x) = Ok m2 /\ all_free m2.
Proof. exact C82_model_lemma. Qed.
Print Assumptions C82_models.

Definition tree_program : list call :=
  [NewVariable 1 (Some 3) [2; 3]; NewVariable 1 None [1; 1; 1]; SetParents 0 [1]; SetPrior 0; FindMapping 0; FindMapping 0;
   NewClique [0; 1]; NewClique [1]; NewClique []; Connect 0 1; Connect 1 2; Connect 2 0; SetParents 0 []].
Definition tree_world : world := mkWorld [true; true] [Some ([0; 1], [2; 1]); Some ([1], [2; 0]); Some ([], [0; 1])].
Example C82_case : meanings nothing tree_program = Some tree_world /\
  lists_cliques tree_world [2; 0; 1] /\ lists_variables tree_world [1; 0] /\
  exists w, meanings nothing (tree_program ++ [FreeClique 1; FreeVariable 1; FreeClique 0; FreeVariable 0; FreeClique 2]) = Some w /\
    (forall v, exists_var w v = false) /\ (forall a, clique_of w a = None).
Proof.
  split; [reflexivity|]. split; [|split].
  - split; [repeat constructor; cbn; intuition discriminate|]. intros k. destruct k as [|[|[|[|k]]]]; cbn; split; intros H; try congruence; try tauto; intuition discriminate.
  - split; [repeat constructor; cbn; intuition discriminate|]. intros k. destruct k as [|[|[|k]]]; cbn; split; intros H; try congruence; try tauto; intuition discriminate.
  - eexists. split; [reflexivity|]. split.
    + intros [|[|[|v]]]; reflexivity.
    + intros [|[|[|[|v]]]]; reflexivity.
Qed.

(** A variable made without names of states cannot be freed: nip_new_variable
    leaves its array of names undefined. *)
Theorem C82_without_states_refuted : ~ forall symbol name states card, exists m v m',
  new_variable [] 0 symbol name states card = Ok (m, v) /\ free_variable m v = Ok m'.
Proof.
  intros H. destruct (H 1 None None 2) as (m & v & m' & E & F). vm_compute in E. injection E as <- <-. vm_compute in F. discriminate F.
Qed.
Print Assumptions C82_without_states_refuted.

(** A clique connected to itself cannot be freed. *)
Theorem C82_loop_refuted : exists m vs cl,
  run_calls start [NewVariable 1 None [1; 1]; NewClique [0]; Connect 0 0] = Ok (m, vs, cl) /\ run_call (m, vs, cl) (FreeClique 0) = UB.
Proof. do 3 eexists. split; vm_compute; reflexivity. Qed.
Print Assumptions C82_loop_refuted.

(** No copy made by nip_copy_variable can be freed, whatever the variable and the
    memory: the copy of a named variable is itself undefined, any other copy has
    no symbol. *)
Theorem C82_copy_refuted : forall m v len, v <> None ->
  ~ exists m' c m'', copy_variable m v len = Ok (m', c) /\ free_variable m' c = Ok m''.
Proof. exact C82_copy_lemma. Qed.
Print Assumptions C82_copy_refuted.

Example C82_copy_case : exists m v m2 w c m3,
  new_variable [] 0 1 (Some 4) (Some [1; 1]) 2 = Ok (m, v) /\ copy_variable m v 4 = UB /\
  new_variable m 1 1 None (Some [1; 1]) 2 = Ok (m2, w) /\ copy_variable m2 w 0 = Ok (m3, c) /\ free_variable m3 c = UB.
Proof. do 6 eexists. split; [vm_compute; reflexivity|]. repeat (split; [vm_compute; reflexivity|]). vm_compute. reflexivity. Qed.

(** ** C83: series

    The same with series of data and series of results, freed by free_timeseries
    and free_uncertainseries. *)
Theorem C83_series : forall l t, effects no_things l = Some t ->
  exists m vs cl ys us, run_actions (start, [], []) l = Ok ((m, vs, cl), ys, us) /\
    length vs = length (w_vars (t_world t)) /\ length cl = length (w_cliques (t_world t)) /\
    length ys = length (t_series t) /\ length us = length (t_results t) /\
    (forall a mem nb, clique_of (t_world t) a = Some (mem, nb) -> has_neighbours m (nth a cl 0) (map (fun b => nth b cl 0) nb)) /\
    ((forall v, exists_var (t_world t) v = false) -> (forall a, clique_of (t_world t) a = None) ->
     (forall y, nth y (t_series t) false = false) -> (forall u, nth u (t_results t) false = false) -> all_free m).
Proof. exact C83_lemma. Qed.
Print Assumptions C83_series.

Definition series_program : list action :=
  [Tree (NewVariable 1 None [2; 3]); NewSeries (Some 1) 2 3; NewSeries None 0 4; NewResults [2; 3] 2; NewSeries (Some 0) 1 0; Tree (NewClique [0]);
   FreeSeries 0; FreeResults 0; NewResults [] 5; FreeSeries 2].
Example C83_case : effects no_things series_program =
    Some (mkThings (mkWorld [true] [Some ([0], [])]) [false; true; false] [false; true]) /\
  exists t, effects no_things (series_program ++ [FreeResults 1; Tree (FreeVariable 0); FreeSeries 1; Tree (FreeClique 0)]) = Some t /\
    (forall v, exists_var (t_world t) v = false) /\ (forall a, clique_of (t_world t) a = None) /\
    (forall y, nth y (t_series t) false = false) /\ (forall u, nth u (t_results t) false = false).
Proof.
  split; [vm_compute; reflexivity|]. exists (mkThings (mkWorld [false] [None]) [false; false; false] [false; false]).
  split; [vm_compute; reflexivity|]. cbn [t_world t_series t_results].
  split; [intros [|[|v]]; reflexivity|]. split; [intros [|[|v]]; reflexivity|].
  split; [intros [|[|[|[|v]]]]; reflexivity|intros [|[|[|v]]]; reflexivity].
Qed.
