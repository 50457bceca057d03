(** * Specification for Property C95: the memory of whole programs *)
From Coq Require Import String Ascii.
From Verif Require Import Base VariableModel JoinTreeModel NipModel SeriesFileModel ParseModel ParseSpec MemoryModel MemorySpec3 MemoryModel4 MemorySpec4.
Import ListNotations.
Open Scope nat_scope.

(** The series in a data file ([None]: there is no such file).  That a file can be
    read, and what the series are, is C67. *)
Definition data_with (names : list named_variable) (data : option (list ascii)) (series : list SeriesFileModel.series) : Prop :=
  match data with
  | None => series = []
  | Some text => read_timeseries names text = Ok (Some series)
  end.

(** The array of no series that read_timeseries allocates for a file without
    data. *)
Definition empty_array (data : option (list ascii)) (series : list SeriesFileModel.series) : nat :=
  match data, series with
  | Some _, [] => 1
  | _, _ => 0
  end.

(** The blocks that are allocated in [m]: as in C92 the texts that do not count in
    the network file, and 11 or 12 blocks for each of the sepsets that the
    construction of the join tree loses; and [extra] more. *)
Definition left_of (s : source) (M : NipModel.model) (extra : nat) (m : memory) : Prop :=
  exists leak, leaked (m_jt M) leak /\
    ignored s + 11 * length leak + extra <= live m <= ignored s + 12 * length leak + extra.

(** nipmap gets as far as writing: the output can be opened and the first series
    has a hidden variable. *)
Definition writes_output (opened : bool) (series : list SeriesFileModel.series) : Prop :=
  opened = true /\ exists ts others, series = ts :: others /\ s_hidden ts <> [].
