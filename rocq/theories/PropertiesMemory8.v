(** * The memory of joint probabilities and of nipjoint (Property C100) *)
From Coq Require Import String Ascii.
From Verif Require Import Base VariableModel JoinTreeModel NipModel NipSpec SeriesFileModel ParseModel ParseSpec MemoryModel MemorySpec MemoryModel3 MemorySpec3 MemoryModel4 MemorySpec4 MemoryModel5 MemoryModel6 MemorySpec6 MemorySpec8 MemoryModel8 MemoryProofs40 MemoryProofs41 ParseCheck PropertiesSeries PropertiesMemory4 PropertiesMemory6.
Import ListNotations.
Open Scope nat_scope.
Local Open Scope res_scope.
Local Open Scope string_scope.

(** C100.  nip_gather_joint_probability uses no memory that is not allocated and frees
    nothing twice, however the call goes.  When the table is freed, one array is left
    for each message between cliques, and one more for each call that ends because a
    message cannot be multiplied. *)
Theorem C100_gather : forall v m, exists m' r, m_gather m v = Ok (m', r) /\
  ((answers v = true /\ exists p m2, r = Some p /\ free_potential m' r = Ok m2 /\ live m2 = live m + messages v + failures v) \/
   (answers v = false /\ r = None /\ live m' = live m + messages v + failures v)).
Proof. exact C100_gather_lemma. Qed.
Print Assumptions C100_gather.

(** C100.  nipjoint with the names of variables of the network, a proper network file
    and a data file with series: if there is a table, nothing is left at the end but
    these arrays and what parsing leaves (C92). *)
Theorem C100_joint : forall k1 k2 s c names M g, source_ok s -> (c + Z.of_nat (List.length (s_nodes s)) <= LONG_MAX)%Z ->
  parse_model k1 k2 (fresh_globals c) (net_of s) = Ok (Some (names, M, g)) ->
  forall data name series symbols v w, data_with names data series -> series <> [] -> symbols <> [] ->
  (forall symbol, In symbol symbols -> In symbol (map symbol_of names)) -> answers v = true ->
  exists m, with_model k1 k2 (fresh_globals c) s (fun m x names M => nipjoint_memory m x names data name series symbols v w) = Ok (Some m) /\
    left_of s M (messages v + failures v) m.
Proof. exact C100_joint_lemma. Qed.
Print Assumptions C100_joint.

(** For a network of one clique (the only ones with a table, C39) no array is left. *)
Theorem C100_one_clique : forall v, single v -> answers v = true /\ messages v + failures v = 0.
Proof. intros v (product & n & result & ->). split; [exact (Bool.orb_true_r _)|reflexivity]. Qed.
Print Assumptions C100_one_clique.

(** Refuted: that nipjoint is defined.  Without names, an array of the first series is
    freed twice, if not NULL is printed; with names, NULL is printed if there is no
    table. *)
Theorem C100_undefined_refuted : forall k1 k2 s c names M g, source_ok s -> (c + Z.of_nat (List.length (s_nodes s)) <= LONG_MAX)%Z ->
  parse_model k1 k2 (fresh_globals c) (net_of s) = Ok (Some (names, M, g)) ->
  forall data name series symbols v w, data_with names data series -> series <> [] ->
  (symbols = [] \/ ((forall symbol, In symbol symbols -> In symbol (map symbol_of names)) /\ answers v = false)) ->
  with_model k1 k2 (fresh_globals c) s (fun m x names M => nipjoint_memory m x names data name series symbols v w) = UB.
Proof. exact C100_null_lemma. Qed.
Print Assumptions C100_undefined_refuted.

(** Refuted: that nipjoint frees what it allocated.  If there are no series or a
    variable does not exist, the whole model and all series are left. *)
Theorem C100_kept_refuted : forall k1 k2 s c names M g, source_ok s -> (c + Z.of_nat (List.length (s_nodes s)) <= LONG_MAX)%Z ->
  parse_model k1 k2 (fresh_globals c) (net_of s) = Ok (Some (names, M, g)) ->
  forall data name series symbols v w, data_with names data series ->
  series = [] \/ (exists symbol, In symbol symbols /\ ~ In symbol (map symbol_of names)) ->
  exists m0 x m, m_parse_model k1 k2 (fresh_globals c) s = Ok (Some (m0, x, names, M, g)) /\
    with_model k1 k2 (fresh_globals c) s (fun m x names M => nipjoint_memory m x names data name series symbols v w) = Ok (Some m) /\
    live m0 + List.length series <= live m.
Proof. exact C100_kept_lemma. Qed.
Print Assumptions C100_kept_refuted.

(** The hidden Markov model and the data of C95: a variable that exists, one that does
    not, none.  A course with two neighbours, the second of which fails. *)
Definition one_table : visit := Visit [2; 3; 2] (Some 3) false Done [2] false.
Definition two_tables : visit := Visit [2; 3] (Some 2) false
  (Branch [1] false (Some 1) (Visit [2; 2] (Some 2) false Done [2] false) 2 (Some 2) false
  (Branch [1] false (Some 1) (Visit [2; 4] (Some 2) false Done [2] true) 2 (Some 2) true Done)) [2] false.
Example C100_case : single one_table /\
  match parse_model kz kz (fresh_globals 0) (net_of px_source) with
  | Ok (Some (names, _, _)) => In "X" (map symbol_of names) /\ ~ In "Z" (map symbol_of names)
  | _ => False
  end /\
  blocks_left (fun m x names M => nipjoint_memory m x names (Some hmm_data) 8 hmm_series ["X"] one_table (fun _ => [1])) = Ok 0 /\
  blocks_left (fun m x names M => nipjoint_memory m x names (Some hmm_data) 8 hmm_series [] one_table (fun _ => [1])) = UB.
Proof.
  split; [do 3 eexists; reflexivity|]. split; [|split; vm_compute; reflexivity].
  vm_compute. split; [tauto|]. intuition discriminate.
Qed.
Example C100_case_two : answers two_tables = false /\ messages two_tables = 2 /\ failures two_tables = 1 /\
  exists m, m_gather [] two_tables = Ok (m, None) /\ live m = 3.
Proof. repeat split; [..|eexists; split]; vm_compute; reflexivity. Qed.
