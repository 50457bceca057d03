(** * Reading data files releases what it takes (Property C89) *)
From Coq Require Import String Ascii.
From Verif Require Import Base StringModel StringSpec VariableModel NipModel NipSpec SeriesFileModel SeriesFileSpec.
From Verif Require Import MemoryModel MemoryModel2 MemorySpec2 MemoryProofs17 MemoryProofs18 PropertiesSeries.
Import ListNotations.
Local Open Scope string_scope.
Local Open Scope list_scope.
Open Scope nat_scope.
Local Open Scope res_scope.
Local Notation len := List.length.

(** C89.  Whatever is in memory already: read_timeseries reads every file with a
    header in which no variable has two columns without using memory that is
    not allocated.  It changes nothing that was there before.  It returns one
    series for each block of lines, and once these and their array are freed,
    exactly what was allocated before is allocated, with the same contents. *)
Theorem C89_reading : forall m names name, named names -> forall f header data,
  readable f -> headed (table comma f) header data -> NoDup (map snd (known_columns names header)) ->
  exists m1 results m2, mem_read_timeseries m names name (Some f) = Ok (m1, results, len (blocks data)) /\
    keeps m m1 /\ release m1 results (len (blocks data)) = Ok m2 /\ same_memory m m2.
Proof. exact C89_reading_lemma. Qed.
Print Assumptions C89_reading.

(** The same for files of blank lines, in which there are no series. *)
Theorem C89_blank_file : forall m names name f, readable f -> Forall (fun t => t = []) (table comma f) ->
  exists m1 results m2, mem_read_timeseries m names name (Some f) = Ok (m1, results, 0) /\
    keeps m m1 /\ release m1 results 0 = Ok m2 /\ same_memory m m2.
Proof. exact C89_blank_lemma. Qed.
Print Assumptions C89_blank_file.

(** A file that is not there: nothing is left in memory. *)
Theorem C89_missing_file : forall m names name, exists m1,
  mem_read_timeseries m names name None = Ok (m1, None, 0) /\ same_memory m m1.
Proof. exact missing_file_ok. Qed.
Print Assumptions C89_missing_file.

(** Opening, analysing and closing any file, with or without a header and with
    any separator: nothing is left in memory. *)
Theorem C89_files : forall m sep labels f name, readable f ->
  exists m1 file m2 df r m3, mem_open_data_file m true name = Ok (m1, file) /\
    mem_analyse_data_file m1 file (open_data_file f sep labels) = Ok (m2, df, r) /\
    mem_close_data_file m2 file = Ok m3 /\ same_memory m m3.
Proof. exact C89_files_lemma. Qed.
Print Assumptions C89_files.

(** A memory with two blocks, the file of C67, and what is left at the end. *)
Definition some_memory : memory := [Some [N 7]; None; Some [P (Some 0)]].
Example C89_case : named ex_names /\ readable ex_file /\ headed (table comma ex_file) ex_header ex_data /\
  NoDup (map snd (known_columns ex_names ex_header)) /\ len (blocks ex_data) = 2 /\
  (let* (m1, results, n) := mem_read_timeseries some_memory ex_names 8 (Some ex_file) in
   let* m2 := release m1 results n in
   Ok (n, len (filter (fun b => match b with Some _ => true | None => false end) m1), firstn 3 m2,
       existsb (fun b => match b with Some _ => true | None => false end) (skipn 3 m2)))
  = Ok (2, 15, some_memory, false).
Proof.
  destruct C67_case as (H1 & H2 & H3 & H4 & _). split; [exact H1|]. split; [exact H2|]. split; [exact H3|].
  split; [rewrite H4; repeat constructor; cbn; intuition discriminate|]. split; vm_compute; reflexivity.
Qed.
