(** * Specification of data files (Properties C48, C67 and C68) *)
From Coq Require Import String Ascii Permutation.
From Verif Require Import Base StringSpec VariableModel NipSpec SeriesFileModel.
Import ListNotations.
Open Scope nat_scope.
Local Notation len := List.length.

(** The lines of a file, and the fields of each line: what is between
    separators and white space. *)
Definition lines (f : list ascii) : list (list ascii) :=
  pieces (Ascii.eqb end_of_line) (fun _ => false) f.
Definition comma : ascii := ascii_of_nat 44.
Definition table (separator : ascii) (f : list ascii) : list (list (list ascii)) :=
  map (fields (delimits [separator] true) (fun _ => false)) (lines f).

(** A file of characters that fits the line buffer. *)
Definition readable (f : list ascii) : Prop :=
  ~ In zero f /\ Forall (fun l => (Z.of_nat (len l) < 9999)%Z) (lines f).

(** Blocks of consecutive lines with something on them. *)
Definition blank {A} (l : list A) : bool := negb (nonempty l).
Definition blocks {A} (rows : list (list A)) : list (list (list A)) :=
  filter nonempty (pieces blank (fun _ => false) rows).

(** The first line with something on it is the header, the rest are data. *)
Definition headed {A} (rows : list (list A)) (header : list A) (data : list (list A)) : Prop :=
  exists k, rows = repeat [] k ++ header :: data /\ header <> [].

(** Every variable has a symbol and one name for each of its states. *)
Definition named (names : list named_variable) : Prop :=
  Forall (fun nv => nv_symbol nv <> None /\ exists l, nv_states nv = Names l /\ len l = nv_card nv) names.

(** The columns that belong to variables: number of the column and variable. *)
Fixpoint columns_from (names : list named_variable) (i : nat) (header : list (list ascii))
  : list (nat * nat) :=
  match header with
  | [] => []
  | s :: r =>
      match position (string_of_list_ascii s) (map symbol_of names) with
      | Some v => (i, v) :: columns_from names (S i) r
      | None => columns_from names (S i) r
      end
  end.
Definition known_columns names header := columns_from names 0 header.

(** The states of the variable. *)
Definition states_at (names : list named_variable) (v : nat) : list string :=
  match nth_error names v with Some nv => states_of nv | None => [] end.
(** The datum in a field: the number of the state, -1 for any other text. *)
Definition datum (names : list named_variable) (v : nat) (field : list ascii) : Z :=
  match position (string_of_list_ascii field) (states_at names v) with
  | Some i => Z.of_nat i
  | None => (-1)%Z
  end.
(** The data of a line.  Columns beyond the end of the line are the first
    state: this is what the code does. *)
Definition data_of_line (names : list named_variable) (cols : list (nat * nat))
    (line : list (list ascii)) : list Z :=
  map (fun '(i, v) => match nth_error line i with Some field => datum names v field | None => 0%Z end) cols.

(** The series of a block of lines. *)
Definition series_of_block (names : list named_variable) (cols : list (nat * nat))
    (block : list (list (list ascii))) : series :=
  mkSeries (filter (fun v => negb (existsb (Nat.eqb v) (map snd cols))) (seq 0 (len names)))
    (map snd cols) (len block)
    (match cols with [] => [] | _ => map (data_of_line names cols) block end).

(** The values in a column. *)
Definition column (rows : list (list (list ascii))) (j : nat) : list (list ascii) :=
  flat_map (fun r => match nth_error r j with Some x => [x] | None => [] end) rows.
Definition missing_texts : list (list ascii) :=
  map list_ascii_of_string ["N/A"; "null"; "<null>"]%string.

(** ** Written series *)
(** A name that can be written to a file and read from it. *)
Definition plain (s : list ascii) : Prop :=
  s <> [] /\ Forall (fun c => c <> zero /\ c <> comma /\ member c white = false) s.
Definition plain_string (s : string) : Prop := plain (list_ascii_of_string s).

(** Distinct plain names, none of which is the text for missing values. *)
Definition plain_names (names : list named_variable) : Prop :=
  named names /\ NoDup (map symbol_of names) /\ Forall plain_string (map symbol_of names) /\
  Forall (fun nv => NoDup (states_of nv) /\ Forall plain_string (states_of nv) /\
                    ~ In "null"%string (states_of nv)) names.

(** The longest text in the column of a variable, and the length of a line
    with all variables, with the separators or the end of the line. *)
Definition width (nv : named_variable) : nat :=
  fold_right Nat.max 4 (map String.length (symbol_of nv :: states_of nv)).
Definition line_width (names : list named_variable) : nat :=
  fold_right Nat.add 0 (map (fun nv => S (width nv)) names).

(** A series of the model: each variable is either hidden or observed, and
    there is a datum (a state, or negative if missing) for every time and
    observed variable. *)
Definition proper_series (names : list named_variable) (ts : series) : Prop :=
  Permutation (s_hidden ts ++ s_observed ts) (seq 0 (len names)) /\
  (s_observed ts <> [] -> len (s_data ts) = s_length ts) /\
  Forall (fun row => Forall2 (fun v d => (d < Z.of_nat (len (states_at names v)))%Z)
                       (s_observed ts) row) (s_data ts).

(** What the series says about a variable at a time: a state or nothing. *)
Definition said (ts : series) (v t : nat) : option nat :=
  match find (fun '(w, d) => Nat.eqb v w) (combine (s_observed ts) (nth t (s_data ts) [])) with
  | Some (_, d) => if (d <? 0)%Z then None else Some (Z.to_nat d)
  | None => None
  end.
