(** * Proofs about memory: files that users have (C89) *)
From Coq Require Import String Ascii ZArith.
From Verif Require Import Base BaseProofs StringModel StringSpec VariableModel NipModel NipSpec SeriesFileModel SeriesFileSpec
  SeriesFileProofs SeriesFileProofs2 SeriesFileProofs3 SeriesFileProofs4.
From Verif Require Import MemoryModel MemoryModel2 MemorySpec2 MemoryProofs17.
Import ListNotations.
Open Scope nat_scope.
Local Open Scope list_scope.
Local Open Scope res_scope.
Local Notation len := List.length.

Lemma headed_or_blank : forall A (rows : list (list A)), Forall (fun t => t = []) rows \/ exists header data, headed rows header data.
Proof.
  intros A. induction rows as [|[|x t] rows IH]; [left; constructor| |].
  - destruct IH as [H|(header & data & k & E & N)]; [left; constructor; auto|]. right. exists header, data, (S k). rewrite E. auto.
  - right. exists (x :: t), rows, 0. split; [reflexivity|discriminate].
Qed.

Lemma headerless_ok : forall sep f, readable f ->
  exists df r, analyse_data_file (open_data_file f sep false) = Ok (df, r) /\ (0 <= r)%Z.
Proof.
  intros sep f HR. destruct (readable_reads sep f HR) as (T & RT & ET).
  unfold analyse_data_file, count_data_rows, open_data_file.
  cbn [f_rest f_separator f_current_line f_label_line f_first_line_labels f_contents].
  rewrite (count_data sep f T RT _ []); [|lia|reflexivity|lia|cbn; intuition]. cbn [bind app].
  destruct (analyse_data sep f T RT (S (len f)) [] (mkPass2 0 1 0 (repeat 0 (len (blocks T))) 0 [] []))
    as (p & E & A1 & A2 & A3 & A4 & A5);
    cbn [p_datarows p_state p_tscounter p_empty p_num_of_nodes p_statenames p_symbols app].
  - lia.
  - cbn. rewrite Nat.sub_0_r. reflexivity.
  - lia.
  - split; reflexivity.
  - reflexivity.
  - discriminate.
  - split; [reflexivity|]. intros j Hj. lia.
  - rewrite E. cbn [bind]. do 2 eexists. split; [reflexivity|]. lia.
Qed.

Lemma analysed_any : forall sep labels f, readable f ->
  exists df r, analyse_data_file (open_data_file f sep labels) = Ok (df, r) /\ (0 <= r)%Z.
Proof.
  intros sep [|] f HR; [|apply headerless_ok; exact HR].
  destruct (headed_or_blank _ (table sep f)) as [HB|(header & data & HH)].
  - eexists _, _. split; [exact (no_header sep f HR HB)|lia].
  - destruct (C68_lemma sep f header data HR HH) as (df & E & _). eexists df, _. split; [exact E|lia].
Qed.

Lemma C89_files_lemma : forall m sep labels f name, readable f ->
  exists m1 file m2 df r m3, mem_open_data_file m true name = Ok (m1, file) /\
    mem_analyse_data_file m1 file (open_data_file f sep labels) = Ok (m2, df, r) /\
    mem_close_data_file m2 file = Ok m3 /\ same_memory m m3.
Proof.
  intros m sep labels f name HR. destruct (analysed_any sep labels f HR) as (df & r & E & H).
  destruct (analysed_file_ok m name _ df r E H) as (m1 & file & m2 & m3 & E1 & E2 & E3 & S).
  exists m1, file, m2, df, r, m3. auto.
Qed.

Lemma C89_reading_lemma : forall m names name, named names -> forall f header data,
  readable f -> headed (table comma f) header data -> NoDup (map snd (known_columns names header)) ->
  exists m1 results m2, mem_read_timeseries m names name (Some f) = Ok (m1, results, len (blocks data)) /\
    keeps m m1 /\ release m1 results (len (blocks data)) = Ok m2 /\ same_memory m m2.
Proof.
  intros m names name HN f header data HR HH ND.
  destruct (read_file_ok m names name f _ (C67_lemma names HN f header data HR HH ND)) as (m1 & r & m2 & E & K & R & S).
  rewrite map_length in E, R. exists m1, r, m2. auto.
Qed.

Lemma C89_blank_lemma : forall m names name f, readable f -> Forall (fun t => t = []) (table comma f) ->
  exists m1 results m2, mem_read_timeseries m names name (Some f) = Ok (m1, results, 0) /\
    keeps m m1 /\ release m1 results 0 = Ok m2 /\ same_memory m m2.
Proof. intros m names name f HR HB. exact (read_file_ok m names name f [] (C67_blank_lemma names f HR HB)). Qed.
