(** * The memory of nipbenchmark and nipconvert (Property C96) *)
From Coq Require Import String Ascii.
From Verif Require Import Base VariableModel JoinTreeModel NipModel SeriesFileModel ParseModel ParseSpec MemoryModel MemorySpec MemoryModel3 MemorySpec3 MemoryModel4 MemorySpec4 MemoryModel5 MemoryModel6 MemorySpec6 MemoryModel7 MemorySpec7 MemoryProofs39 ParseCheck PropertiesSeries PropertiesMemory4 PropertiesMemory6.
Import ListNotations.
Open Scope nat_scope.
Local Open Scope res_scope.
Local Open Scope string_scope.

(** C96.  As in C95.  nipbenchmark with no series or at least two of them: nothing of
    its own is left but the empty array of series, unless learning fails in round
    [i]: then the results of the [i] rounds before it are lost, at least three
    blocks for each. *)
Theorem C96_benchmark : forall k1 k2 s c names M g, source_ok s -> (c + Z.of_nat (List.length (s_nodes s)) <= LONG_MAX)%Z ->
  parse_model k1 k2 (fresh_globals c) (net_of s) = Ok (Some (names, M, g)) ->
  forall data name series valid symbol families plan w opened, data_with names data series -> List.length series <> 1 ->
  exists m o, with_model_and k1 k2 (fresh_globals c) s (fun m x names M => nipbenchmark_memory m x names M data name series valid symbol families plan w opened) = Ok (Some (m, o)) /\
    match o with
    | None => left_of s M (empty_array data series) m
    | Some i => i < List.length series /\ at_least_left s M (3 * i) m
    end.
Proof. exact C96_benchmark_lemma. Qed.
Print Assumptions C96_benchmark.

(** With a single series there is nothing to learn from; the series and its array
    are left. *)
Theorem C96_benchmark_single : forall k1 k2 s c names M g, source_ok s -> (c + Z.of_nat (List.length (s_nodes s)) <= LONG_MAX)%Z ->
  parse_model k1 k2 (fresh_globals c) (net_of s) = Ok (Some (names, M, g)) ->
  forall data name series valid symbol families plan w opened, data_with names data series -> List.length series = 1 ->
  exists m, with_model_and k1 k2 (fresh_globals c) s (fun m x names M => nipbenchmark_memory m x names M data name series valid symbol families plan w opened) = Ok (Some (m, None)) /\
    at_least_left s M 2 m.
Proof. exact C96_benchmark_single_lemma. Qed.
Print Assumptions C96_benchmark_single.

(** nipconvert, whatever it converts and whether or not the output can be opened. *)
Theorem C96_convert : forall k1 k2 s c names M g, source_ok s -> (c + Z.of_nat (List.length (s_nodes s)) <= LONG_MAX)%Z ->
  parse_model k1 k2 (fresh_globals c) (net_of s) = Ok (Some (names, M, g)) ->
  forall data name series formats opened, data_with names data series ->
  exists m, with_model k1 k2 (fresh_globals c) s (fun m x names M => nipconvert_memory m x names data name series formats opened) = Ok (Some m) /\
    left_of s M (if formats then empty_array data series else 0) m.
Proof. exact C96_convert_lemma. Qed.
Print Assumptions C96_convert.

(** The hidden Markov model of C92 with the two series of C95, and with one. *)
Definition hmm_single : list ascii := text_of ["Y"; "low"; "high"; ""].
Definition hmm_one : list series := [mkSeries [1; 2] [0] 2 [[0]; [1]]%Z].
Definition hmm_families (_ : nat) : list nat := [1; 1; 1].
Definition outcome (r : res (option (memory * option nat))) : res (nat * option nat) :=
  let* r := r in match r with Some (m, o) => Ok (live m, o) | None => UB end.
Definition hmm_benchmark (data : list ascii) (series : list series) (plan : nat -> list batch) : res (nat * option nat) :=
  outcome (with_model_and kz kz (fresh_globals 0) px_source (fun m x names M =>
    nipbenchmark_memory m x names M (Some data) 8 series true "X" hmm_families plan no_arrays true)).
(** One call of em_learn; the learning curve of the second round cannot grow. *)
Definition hmm_iteration (fails : bool) : iteration := mkIteration (fun _ => false) (fun _ _ => false) fails false (fun _ _ => false) (fun _ _ _ => []).
Definition hmm_batch (fails : bool) : batch := mkBatch true (fun _ => []) (hmm_iteration fails) [] 1 true.
Definition good_plan (_ : nat) : list batch := [hmm_batch false].
Definition bad_plan (i : nat) : list batch := [hmm_batch (Nat.eqb i 1)].
Example C96_case :
  match parse_model kz kz (fresh_globals 0) (net_of px_source) with
  | Ok (Some (names, M, _)) => data_with names (Some hmm_data) hmm_series /\ data_with names (Some hmm_single) hmm_one
  | _ => False
  end /\
  hmm_benchmark hmm_data hmm_series good_plan = Ok (0, None) /\
  blocks_left (fun m x names M => nipconvert_memory m x names (Some hmm_data) 8 hmm_series true true) = Ok 0.
Proof.
  split; [vm_compute; split; reflexivity|]. split; vm_compute; reflexivity.
Qed.
(** That nipbenchmark frees what it allocated is false, in two ways. *)
Theorem C96_benchmark_frees_refuted :
  exists n k, hmm_benchmark hmm_single hmm_one good_plan = Ok (n, None) /\ 0 < n /\
    hmm_benchmark hmm_data hmm_series bad_plan = Ok (k, Some 1) /\ 0 < k.
Proof. eexists _, _. split; [vm_compute; reflexivity|]. split; [lia|]. split; [vm_compute; reflexivity|]. lia. Qed.
Print Assumptions C96_benchmark_frees_refuted.
