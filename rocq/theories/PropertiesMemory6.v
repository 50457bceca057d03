(** * The memory of whole programs (Property C95) *)
From Coq Require Import String Ascii.
From Verif Require Import Base VariableModel JoinTreeModel NipModel SeriesFileModel ParseModel ParseSpec MemoryModel MemorySpec MemoryModel3 MemorySpec3 MemoryModel4 MemorySpec4 MemoryModel5 MemoryModel6 MemorySpec6 MemoryProofs38 ParseCheck PropertiesSeries PropertiesMemory4.
Import ListNotations.
Open Scope nat_scope.
Local Open Scope res_scope.
Local Open Scope string_scope.

(** C95.  A fresh process with a proper network file and a data file that can be
    read or is missing.  However the program goes on - the variable may not
    exist, the output may not be writable, the data may be empty, learning may
    fail - it uses no memory that is not allocated and frees nothing twice, and
    at its end nothing of its own is left but an empty array of series if the
    data file has none: what else is left is that of parsing (C92). *)
Theorem C95_inference : forall k1 k2 s c names M g, source_ok s -> (c + Z.of_nat (List.length (s_nodes s)) <= LONG_MAX)%Z ->
  parse_model k1 k2 (fresh_globals c) (net_of s) = Ok (Some (names, M, g)) ->
  forall data name series symbol opened w, data_with names data series ->
  exists m, with_model k1 k2 (fresh_globals c) s (fun m x names M => nipinference_memory m x names M data name symbol opened w) = Ok (Some m) /\
    left_of s M (empty_array data series) m.
Proof. exact C95_inference_lemma. Qed.
Print Assumptions C95_inference.

Theorem C95_next : forall k1 k2 s c names M g, source_ok s -> (c + Z.of_nat (List.length (s_nodes s)) <= LONG_MAX)%Z ->
  parse_model k1 k2 (fresh_globals c) (net_of s) = Ok (Some (names, M, g)) ->
  forall data name series symbol w, data_with names data series ->
  exists m, with_model k1 k2 (fresh_globals c) s (fun m x names M => nipnext_memory m x names M data name symbol w) = Ok (Some m) /\
    left_of s M (empty_array data series) m.
Proof. exact C95_next_lemma. Qed.
Print Assumptions C95_next.

(** nipmap, unless the output was written and cannot be closed. *)
Theorem C95_map : forall k1 k2 s c names M g, source_ok s -> (c + Z.of_nat (List.length (s_nodes s)) <= LONG_MAX)%Z ->
  parse_model k1 k2 (fresh_globals c) (net_of s) = Ok (Some (names, M, g)) ->
  forall data name series opened closed w, data_with names data series -> closed = true \/ ~ writes_output opened series ->
  exists m, with_model k1 k2 (fresh_globals c) s (fun m x names M => nipmap_memory m x names M data name series opened closed w) = Ok (Some m) /\
    left_of s M (empty_array data series) m.
Proof. exact C95_map_lemma. Qed.
Print Assumptions C95_map.

(** Then the whole model and all series are left. *)
Theorem C95_map_unclosed : forall k1 k2 s c names M g, source_ok s -> (c + Z.of_nat (List.length (s_nodes s)) <= LONG_MAX)%Z ->
  parse_model k1 k2 (fresh_globals c) (net_of s) = Ok (Some (names, M, g)) ->
  forall data name series w, data_with names data series -> writes_output true series ->
  exists m0 x m, m_parse_model k1 k2 (fresh_globals c) s = Ok (Some (m0, x, names, M, g)) /\
    with_model k1 k2 (fresh_globals c) s (fun m x names M => nipmap_memory m x names M data name series true false w) = Ok (Some m) /\
    live m0 + 1 + List.length series <= live m.
Proof. exact C95_map_unclosed_lemma. Qed.
Print Assumptions C95_map_unclosed.

Theorem C95_likelihood : forall k1 k2 s c names M g, source_ok s -> (c + Z.of_nat (List.length (s_nodes s)) <= LONG_MAX)%Z ->
  parse_model k1 k2 (fresh_globals c) (net_of s) = Ok (Some (names, M, g)) ->
  forall data name series symbols w, data_with names data series ->
  exists m, with_model k1 k2 (fresh_globals c) s (fun m x names M => niplikelihood_memory m x names data name symbols w) = Ok (Some m) /\
    left_of s M (empty_array data series) m.
Proof. exact C95_likelihood_lemma. Qed.
Print Assumptions C95_likelihood.

(** nipsample; [order]: variables of the model. *)
Theorem C95_sample : forall k1 k2 s c names M g, source_ok s -> (c + Z.of_nat (List.length (s_nodes s)) <= LONG_MAX)%Z ->
  parse_model k1 k2 (fresh_globals c) (net_of s) = Ok (Some (names, M, g)) ->
  forall valid count length order opened w, Forall (fun v => v < List.length (s_nodes s)) order ->
  exists m, with_model k1 k2 (fresh_globals c) s (fun m x names M => nipsample_memory m x M valid count length order opened w) = Ok (Some m) /\ left_of s M 0 m.
Proof. exact C95_sample_lemma. Qed.
Print Assumptions C95_sample.

(** niptrain, whatever the runs are. *)
Theorem C95_train : forall k1 k2 s c names M g, source_ok s -> (c + Z.of_nat (List.length (s_nodes s)) <= LONG_MAX)%Z ->
  parse_model k1 k2 (fresh_globals c) (net_of s) = Ok (Some (names, M, g)) ->
  forall data name series valid families runs w opened, data_with names data series ->
  exists m, with_model k1 k2 (fresh_globals c) s (fun m x names M => niptrain_memory m x names M data name series valid families runs w opened) = Ok (Some m) /\
    left_of s M (empty_array data series) m.
Proof. exact C95_train_lemma. Qed.
Print Assumptions C95_train.

(** Nothing at all is left if there are series (or no file), no node says anything
    twice and cliques that are no neighbours share fewer variables than any sepset
    has. *)
Theorem C95_nothing_left : forall s M m, said_once s ->
  (forall a b z, a < b < List.length (cls (m_jt M)) -> In z (sps (m_jt M)) ->
     neighbouring (m_jt M) a b \/ shared (m_jt M) a b < List.length (s_vars z)) ->
  left_of s M 0 m -> all_free m.
Proof. exact C95_nothing_left_lemma. Qed.
Print Assumptions C95_nothing_left.

(** Two series for the hidden Markov model of C92; a file without data; the
    programs that are left with a block, or with everything. *)
Definition hmm_data : list ascii := text_of ["Y"; "low"; "high"; ""; "off"; ""].
Definition hmm_empty : list ascii := text_of [""].
Definition no_arrays (_ _ _ : nat) : list nat := [1].
Definition blocks_left (main : memory -> option nat -> list named_variable -> NipModel.model -> res memory) : res nat :=
  let* r := with_model kz kz (fresh_globals 0) px_source main in
  match r with Some m => Ok (live m) | None => UB end.
Definition hmm_series : list series :=
  [mkSeries [1; 2] [0] 2 [[0]; [1]]%Z; mkSeries [1; 2] [0] 1 [[2]]%Z].
Example C95_case :
  match parse_model kz kz (fresh_globals 0) (net_of px_source) with
  | Ok (Some (names, M, _)) => data_with names (Some hmm_data) hmm_series /\ data_with names (Some hmm_empty) [] /\ data_with names None [] /\ writes_output true hmm_series
  | _ => False
  end /\
  blocks_left (fun m x names M => nipinference_memory m x names M (Some hmm_data) 8 "X" true no_arrays) = Ok 0 /\
  blocks_left (fun m x names M => nipinference_memory m x names M (Some hmm_empty) 8 "X" true no_arrays) = Ok 1.
Proof.
  split; [|split; vm_compute; reflexivity].
  vm_compute. split; [reflexivity|]. split; [reflexivity|]. split; [reflexivity|]. split; [reflexivity|]. eexists _, _. split; [reflexivity|discriminate].
Qed.
(** That nipmap frees what it allocated is false. *)
Theorem C95_map_frees_refuted :
  exists n, blocks_left (fun m x names M => nipmap_memory m x names M (Some hmm_data) 8 hmm_series true true no_arrays) = Ok 0 /\
    blocks_left (fun m x names M => nipmap_memory m x names M (Some hmm_data) 8 hmm_series true false no_arrays) = Ok n /\ 0 < n.
Proof. eexists. split; [vm_compute; reflexivity|]. split; [vm_compute; reflexivity|]. lia. Qed.
Print Assumptions C95_map_frees_refuted.
