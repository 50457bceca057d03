(** * Properties C48, C67 and C68: data files *)
From Coq Require Import String Ascii Permutation.
From Verif Require Import Base StringModel StringSpec VariableModel NipModel NipSpec SeriesFileModel
  SeriesFileSpec SeriesFileProofs3 SeriesFileProofs4 SeriesFileProofs7.
Import ListNotations.
Local Open Scope string_scope.
Local Open Scope list_scope.
Open Scope nat_scope.
Local Open Scope res_scope.
Local Notation len := List.length.

(** C48.  For all models with plain, distinct names that fit a line, and all
    proper series with something observed: the file can be written; reading it
    gives the series of non-zero length, in order, with the same lengths; each
    says about each variable at each time what the original said.  What is
    observed in one series is observed (and maybe missing) in all of them.  If
    all series have the same observed variables, these are the observed
    variables and the data are the same, with -1 for every missing value. *)
Theorem C48_round_trip_partial : forall names, plain_names names -> (Z.of_nat (line_width names) <= 9999)%Z ->
  forall ss, Forall (proper_series names) ss -> (exists ts, In ts ss /\ s_observed ts <> []) ->
  exists f ss', write_timeseries names ss = Ok (Some f, NO_ERROR) /\
    read_timeseries names f = Ok (Some ss') /\
    Forall2 (fun ts ts' => proper_series names ts' /\ s_length ts' = s_length ts /\
        (forall v, In v (s_observed ts') <-> exists ts0, In ts0 ss /\ In v (s_observed ts0)) /\
        (forall v t, t < s_length ts -> said ts' v t = said ts v t) /\
        (forall o, Forall (fun ts0 => s_observed ts0 = o) ss ->
           s_observed ts' = o /\ s_data ts' = map (map (Z.max (-1))) (s_data ts)))
      (filter (fun ts => Nat.ltb 0 (s_length ts)) ss) ss'.
Proof. exact C48_lemma. Qed.
Print Assumptions C48_round_trip_partial.

Definition ex_variable (s : string) (states : list string) : named_variable :=
  mkNamed 0 (Some s) (len states) (Names states) (repeat 1%Qc (len states)).
Definition ex_names : list named_variable :=
  [ex_variable "rain" ["no"; "yes"]; ex_variable "wind" ["calm"; "breeze"; "gale"]; ex_variable "sun" ["0"; "1"]].
Definition ex_series : list series :=
  [mkSeries [2] [1; 0] 3 [[2; 1]; [-1; 0]; [0; -7]]%Z;
   mkSeries [0; 2; 1] [] 2 [];
   mkSeries [1] [0; 2] 0 [];
   mkSeries [1; 0] [2] 1 [[1]]%Z].
Definition chars (s : string) : list ascii := list_ascii_of_string s.
Definition newline : string := String end_of_line EmptyString.
Definition text_of (ls : list string) : list ascii := chars (String.concat newline ls).

Ltac all_plain := repeat (constructor; [split; [discriminate|repeat (constructor; [split; [discriminate|split; [discriminate|reflexivity]]|]); constructor]|]); constructor.
Ltac different := repeat (constructor; [cbn; intuition discriminate|]); constructor.

Lemma ex_plain : plain_names ex_names.
Proof.
  split; [repeat (constructor; [split; [discriminate|eexists; split; reflexivity]|]); constructor|].
  split; [different|]. split; [all_plain|].
  repeat (constructor; [split; [different|split; [all_plain|cbn; intuition discriminate]]|]). constructor.
Qed.

Example C48_case : plain_names ex_names /\ (Z.of_nat (line_width ex_names) <= 9999)%Z /\
  Forall (proper_series ex_names) ex_series /\
  write_timeseries ex_names ex_series
  = Ok (Some (text_of ["wind,rain,sun"; "gale,yes,null"; "null,no,null"; "calm,null,null"; "";
                       "null,null,null"; "null,null,null"; ""; ""; "null,null,1"; ""; ""]), NO_ERROR) /\
  (let* r := read_timeseries ex_names (text_of ["wind,rain,sun"; "gale,yes,null"; "null,no,null"; "calm,null,null"; "";
                       "null,null,null"; "null,null,null"; ""; ""; "null,null,1"; ""; ""]) in
   Ok (option_map (map s_data) r)) = Ok (Some [[[2; 1; -1]; [-1; 0; -1]; [0; -1; -1]]; [[-1; -1; -1]; [-1; -1; -1]]; [[-1; -1; 1]]]%Z).
Proof.
  split; [exact ex_plain|]. split; [vm_compute; discriminate|]. split.
  { repeat (constructor; [split; [apply NoDup_Permutation; [different|different|cbn; tauto]|
                             split; [cbn; congruence|repeat constructor]]|]). constructor. }
  split; vm_compute; reflexivity.
Qed.

(** False in general: a series of length zero is lost, and so is the
    difference between hidden and missing if the series differ in it. *)
Theorem C48_lost_refuted : exists f ss',
  Forall (proper_series ex_names) ex_series /\
  write_timeseries ex_names ex_series = Ok (Some f, NO_ERROR) /\
  read_timeseries ex_names f = Ok (Some ss') /\ len ss' <> len ex_series /\
  map s_observed ss' = [[1; 0; 2]; [1; 0; 2]; [1; 0; 2]].
Proof.
  destruct C48_case as (_ & _ & H & E & _). eexists. eexists. split; [exact H|]. split; [exact E|].
  split; [vm_compute; reflexivity|]. split; [discriminate|reflexivity].
Qed.
Print Assumptions C48_lost_refuted.

(** False if a state is called "null": a missing value becomes this state. *)
Theorem C48_null_state_refuted :
  let names := [ex_variable "x" ["null"; "one"]] in
  let ts := mkSeries [] [0] 1 [[-1]]%Z in
  proper_series names ts /\ exists f ts', write_timeseries names [ts] = Ok (Some f, NO_ERROR) /\
  read_timeseries names f = Ok (Some [ts']) /\ said ts 0 0 = None /\ said ts' 0 0 = Some 0.
Proof.
  cbv zeta. split.
  - split; [apply Permutation_refl|]. split; [reflexivity|]. repeat constructor.
  - eexists. eexists. split; [vm_compute; reflexivity|]. split; [vm_compute; reflexivity|]. split; reflexivity.
Qed.
Print Assumptions C48_null_state_refuted.

(** C67.  For all models whose variables have symbols and names of states, and
    all files with a header (the first line that is not blank) in which no
    variable has two columns: there is a series for every block of lines with
    data, its observed variables are those of the columns, its hidden
    variables the others, its length the number of lines, and its data the
    states named in the fields.  Columns of unknown variables are ignored.
    A field that is missing at the end of a line is the first state. *)
Theorem C67_reading_partial : forall names, named names -> forall f header data,
  readable f -> headed (table comma f) header data -> NoDup (map snd (known_columns names header)) ->
  read_timeseries names f = Ok (Some (map (series_of_block names (known_columns names header)) (blocks data))).
Proof. exact C67_lemma. Qed.
Print Assumptions C67_reading_partial.

Theorem C67_blank_file : forall names f, readable f -> Forall (fun t => t = []) (table comma f) ->
  read_timeseries names f = Ok (Some []).
Proof. exact C67_blank_lemma. Qed.
Print Assumptions C67_blank_file.

Definition ex_file : list ascii :=
  text_of [""; " sun , snow,rain"; ""; "1,x,no"; "0,y , what"; " "; ""; "1,z"; "0,,yes"].
Definition ex_header : list (list ascii) := map chars ["sun"; "snow"; "rain"].
Definition ex_data : list (list (list ascii)) :=
  map (map chars) [[]; ["1"; "x"; "no"]; ["0"; "y"; "what"]; []; []; ["1"; "z"]; ["0"; "yes"]].
Example C67_case : named ex_names /\ readable ex_file /\ headed (table comma ex_file) ex_header ex_data /\
  known_columns ex_names ex_header = [(0, 2); (2, 0)] /\
  read_timeseries ex_names ex_file
  = Ok (Some [mkSeries [1] [2; 0] 2 [[1; 0]; [0; -1]]%Z; mkSeries [1] [2; 0] 2 [[1; 0]; [0; 0]]%Z]).
Proof.
  split; [apply ex_plain|]. split.
  { split; [vm_compute; intuition discriminate|]. vm_compute. repeat constructor. }
  split; [exists 1; split; [vm_compute; reflexivity|discriminate]|].
  split; vm_compute; reflexivity.
Qed.

(** False: the missing fields of short lines are not missing data. *)
Theorem C67_short_lines_refuted : exists ts,
  read_timeseries ex_names (text_of ["sun,rain"; "1"]) = Ok (Some [ts]) /\ said ts 0 0 = Some 0.
Proof. eexists. split; [vm_compute; reflexivity|reflexivity]. Qed.
Print Assumptions C67_short_lines_refuted.

(** Two columns of the same variable: the hidden variables are written outside
    of their array. *)
Theorem C67_duplicate_columns_refuted :
  read_timeseries ex_names (text_of ["sun,sun"; "1,1"]) = UB.
Proof. vm_compute. reflexivity. Qed.
Print Assumptions C67_duplicate_columns_refuted.

(** C68.  Analysing a file with a header finds the numbers of series and of
    their lines, the names of the columns, and for every column the distinct
    values in it that do not stand for missing data.  (The returned number is
    one less than the number of series.) *)
Theorem C68_analysis_partial : forall sep f header data, readable f -> headed (table sep f) header data ->
  exists df, analyse_data_file (open_data_file f sep true) = Ok (df, Z.of_nat (len (blocks data) - 1)) /\
    f_ndatarows df = len (blocks data) /\ f_datarows df = map (@len _) (blocks data) /\
    f_num_of_nodes df = len header /\ f_node_symbols df = header /\
    len (f_node_states df) = len header /\
    forall j, j < len header ->
      NoDup (nth j (f_node_states df) []) /\
      forall x, In x (nth j (f_node_states df) []) <-> In x (column data j) /\ ~ In x missing_texts.
Proof. exact C68_lemma. Qed.
Print Assumptions C68_analysis_partial.

Definition ex_file2 : list ascii := text_of ["a;b"; "1;x"; "2;null"; ""; "1;y"].
Example C68_case : readable ex_file2 /\
  headed (table (ascii_of_nat 59) ex_file2) (map chars ["a"; "b"]) (map (map chars) [["1"; "x"]; ["2"; "null"]; []; ["1"; "y"]]) /\
  (let* (df, r) := analyse_data_file (open_data_file ex_file2 (ascii_of_nat 59) true) in
   Ok (f_datarows df, f_node_states df, r)) = Ok ([2; 1], map (map chars) [["2"; "1"]; ["y"; "x"]], 1%Z).
Proof.
  split; [split; [vm_compute; intuition discriminate|vm_compute; repeat constructor]|].
  split; [exists 0; split; [vm_compute; reflexivity|discriminate]|vm_compute; reflexivity].
Qed.

(** Without a header no columns are found in any file (the names are never
    made up, as that code is not reached), only the blocks of lines. *)
Theorem C68_headerless_refuted : forall sep f, readable f ->
  exists df r, analyse_data_file (open_data_file f sep false) = Ok (df, r) /\
    f_datarows df = map (@len _) (blocks (table sep f)) /\ f_num_of_nodes df = 0 /\ f_node_symbols df = [].
Proof. exact headerless. Qed.
Print Assumptions C68_headerless_refuted.
