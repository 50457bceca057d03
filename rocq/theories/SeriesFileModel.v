(** * Model of the data files: src/nipparsers.c 44-523 and read_timeseries,
    write_timeseries of src/nip.c 519-800

    A file is the list of its characters; opening and closing succeed.
    Numbers of lines are not checked against INT_MAX; memory for zero elements
    is not NULL (as in glibc). *)
From Coq Require Import String Ascii.
From Verif Require Import Base StringModel VariableModel NipModel.
Import ListNotations.
Open Scope nat_scope.
Local Open Scope res_scope.
Local Notation len := List.length.

(** MAX_LINELENGTH, nipparsers.h 30, and NIP_FIELD_SEPARATOR, nip.h 54. *)
Definition MAX_LINELENGTH : nat := Z.to_nat 10000.
Definition FIELD_SEPARATOR : ascii := ascii_of_nat 44.

(** The characters fgets(buffer, n + 1, file) reads, and the rest of the file. *)
Fixpoint fgets_chars (n : nat) (f : list ascii) : list ascii * list ascii :=
  match n, f with
  | O, _ => ([], f)
  | _, [] => ([], [])
  | S n', c :: t =>
      if Ascii.eqb c NEWLINE then ([c], t)
      else let '(l, r) := fgets_chars n' t in (c :: l, r)
  end.
(** fgets(line, MAX_LINELENGTH, file); [None] is NULL at the end of the file. *)
Definition fgets (f : list ascii) : option (list ascii * list ascii) :=
  match f with
  | [] => None
  | _ => Some (fgets_chars (MAX_LINELENGTH - 1) f)
  end.

(** nip_data_file_struct, nipparsers.h 42-71: [f_rest] is the position in the
    open file.  Not modelled: name, write mode (here always 0), is_open (here
    always 1). *)
Record data_file := mkDataFile {
  f_separator : ascii;
  f_contents : list ascii;
  f_rest : list ascii;
  f_first_line_labels : bool;
  f_current_line : Z;
  f_label_line : Z;
  f_ndatarows : nat;
  f_datarows : list nat;
  f_num_of_nodes : nat;
  f_node_symbols : list (list ascii);
  f_node_states : list (list (list ascii))
}.

(** nip_open_data_file, nipparsers.c 44-95, for reading. *)
Definition open_data_file (contents : list ascii) (separator : ascii)
    (nodenames : bool) : data_file :=
  mkDataFile separator contents contents nodenames 0 (-1) 0 [] 0 [] [].

(** NIP_PARSER_FOUND_DATA, NIP_PARSER_EXPECT_DATA, NIP_PARSER_EXPECT_HEADER,
    nipparsers.c 32-34, are 0, 1, 2. *)

(** nip_count_data_rows, nipparsers.c 257-286: the loop.  Result: [ndatarows]
    and [label_line]. *)
Fixpoint count_data_rows_loop (fuel : nat) (sep : ascii) (f : list ascii)
    (current_line label_line : Z) (linecounter empty_lines_read ndatarows state : nat)
  : res (nat * Z) :=
  match fuel with
  | O => NoFuel
  | S fuel' =>
      match fgets f with
      | None => Ok (ndatarows, label_line)
      | Some (last_line, f) =>
          let* (num_of_tokens, _) := count_tokens last_line false (Some [sep]) 1 false true in
          let current_line := (current_line + 1)%Z in
          if Nat.eqb num_of_tokens 0 then
            count_data_rows_loop fuel' sep f current_line label_line
              0 (S empty_lines_read) ndatarows state
          else
            let linecounter := S linecounter in
            let '(state, label_line, linecounter) :=
              if Nat.leb 1 state then
                if Nat.leb 2 state then (state - 1, current_line, 0)
                else (state - 1, label_line, linecounter)
              else (state, label_line, linecounter) in
            let ndatarows :=
              if (Nat.eqb state 0 && Nat.eqb linecounter 1)%bool then S ndatarows
              else ndatarows in
            count_data_rows_loop fuel' sep f current_line label_line
              linecounter 0 ndatarows state
      end
  end.

(** nip_count_data_rows, nipparsers.c 245-291; sets [label_line], rewinds. *)
Definition count_data_rows (df : data_file) : res (nat * Z) :=
  count_data_rows_loop (S (len (f_rest df))) (f_separator df) (f_rest df)
    (f_current_line df) (f_label_line df) 0 0 0
    (if f_first_line_labels df then 2 else 1).

(** The words of a line at the boundaries, e.g. nipparsers.c 307-317: copies
    of the first [n] tokens. *)
Fixpoint words_from (line : list ascii) (bounds : list nat) (i n : nat)
  : res (list (list ascii)) :=
  match n with
  | O => Ok []
  | S n' =>
      let* w := word line bounds i in
      let* ws := words_from line bounds (S i) n' in
      Ok (w :: ws)
  end.

(** nip_null_observation, nipparsers.c 384-404. *)
Definition str (s : string) : list ascii := list_ascii_of_string s.
Definition ascii_list_eqb (a b : list ascii) : bool :=
  if list_eq_dec ascii_dec a b then true else false.
Definition null_observation (token : list ascii) : bool :=
  (ascii_list_eqb (str "N/A") token || ascii_list_eqb (str "null") token
   || ascii_list_eqb (str "<null>") token)%bool.

(** nip_accumulate_state_names, nipparsers.c 339-378.  A list of strings is
    the sequence of its elements (see ListModel.v), so that prepending is
    [cons] and nip_string_list_contains is [existsb]. *)
Fixpoint accumulate_state_names (statenames : list (list (list ascii)))
    (line : list ascii) (bounds : list nat) (i n : nat)
  : res (list (list (list ascii))) :=
  match n with
  | O => Ok statenames
  | S n' =>
      let* token := word line bounds i in
      let* l := rd statenames i in
      let* statenames :=
        if (negb (null_observation token) && negb (existsb (ascii_list_eqb token) l))%bool
        then wr statenames i (token :: l) else Ok statenames in
      accumulate_state_names statenames line bounds (S i) n'
  end.

(** What the second pass of nip_analyse_data_file changes. *)
Record pass2 := mkPass2 {
  p_tscounter : nat;
  p_state : nat;
  p_empty : nat;
  p_datarows : list nat;
  p_num_of_nodes : nat;
  p_symbols : list (list ascii);
  p_statenames : list (list (list ascii))
}.

(** nip_analyse_data_file, nipparsers.c 132-217: the loop of the second pass;
    [None] is the return of -1.  The made-up names of nip_set_node_symbols
    (nipparsers.c 320-334) are not modelled: the call is only reached with
    [first_line_labels]. *)
Fixpoint analyse_loop (fuel : nat) (sep : ascii) (f : list ascii) (p : pass2)
  : res (option pass2) :=
  match fuel with
  | O => NoFuel
  | S fuel' =>
      match fgets f with
      | None => Ok (Some p)
      | Some (last_line, f) =>
          let* (num_of_tokens, _) := count_tokens last_line false (Some [sep]) 1 false true in
          if Nat.eqb num_of_tokens 0 then
            analyse_loop fuel' sep f
              (mkPass2 (p_tscounter p) (p_state p) (S (p_empty p)) (p_datarows p)
                 (p_num_of_nodes p) (p_symbols p) (p_statenames p))
          else
            let* (bounds, _) :=
              tokenise (Some last_line) (Z.of_nat num_of_tokens) false (Some [sep]) 1 false true in
            match bounds with
            | None => Ok None
            | Some bounds =>
                let tscounter :=
                  if (negb (Nat.eqb (p_empty p) 0) && Nat.ltb (p_state p) 1)%bool
                  then S (p_tscounter p) else p_tscounter p in
                let state := if Nat.ltb 0 (p_state p) then p_state p - 1 else p_state p in
                if Nat.ltb 0 state then
                  (* nip_set_node_symbols, nipparsers.c 294-336 *)
                  let* symbols := words_from last_line bounds 0 num_of_tokens in
                  analyse_loop fuel' sep f
                    (mkPass2 tscounter state 0 (p_datarows p) num_of_tokens symbols
                       (repeat [] num_of_tokens))
                else
                  let* r := rd (p_datarows p) tscounter in
                  let* datarows := wr (p_datarows p) tscounter (S r) in
                  let i := Nat.min (p_num_of_nodes p) num_of_tokens in
                  let* statenames :=
                    accumulate_state_names (p_statenames p) last_line bounds 0 i in
                  analyse_loop fuel' sep f
                    (mkPass2 tscounter state 0 datarows (p_num_of_nodes p) (p_symbols p)
                       statenames)
            end
      end
  end.

(** nip_analyse_data_file, nipparsers.c 97-238; the returned number is -1
    after an error.  Rewinds the file. *)
Definition analyse_data_file (df : data_file) : res (data_file * Z) :=
  let* (ndatarows, label_line) := count_data_rows df in
  let* r := analyse_loop (S (len (f_contents df))) (f_separator df) (f_contents df)
              (mkPass2 0 (if f_first_line_labels df then 2 else 1) 0
                 (repeat 0 ndatarows) 0 [] []) in
  match r with
  | None => Ok (df, (-1)%Z)
  | Some p =>
      Ok (mkDataFile (f_separator df) (f_contents df) (f_contents df)
            (f_first_line_labels df) 0 label_line ndatarows (p_datarows p)
            (p_num_of_nodes p) (p_symbols p) (p_statenames p),
          Z.of_nat (p_tscounter p))
  end.

(** nip_next_line_tokens, nipparsers.c 461-474: seeks the next line of data;
    [None]: the file ended. *)
Fixpoint seek_line (fuel : nat) (df : data_file) (separator : ascii) (f : list ascii)
    (current_line : Z) : res (option (list ascii * nat) * list ascii * Z) :=
  match fuel with
  | O => NoFuel
  | S fuel' =>
      match fgets f with
      | None => Ok (None, [], current_line)
      | Some (line, f) =>
          let current_line := (current_line + 1)%Z in
          let* (num_of_tokens, _) := count_tokens line false (Some [separator]) 1 false true in
          let num_of_tokens :=
            if ((current_line =? f_label_line df)%Z && f_first_line_labels df)%bool
            then 0 else num_of_tokens in
          if Nat.ltb num_of_tokens 1 then seek_line fuel' df separator f current_line
          else Ok (Some (line, num_of_tokens), f, current_line)
      end
  end.

(** nip_next_line_tokens, nipparsers.c 443-523: the tokens ([None]: the
    function returns 0 or -1 and sets no tokens). *)
Definition next_line_tokens (df : data_file) (separator : ascii)
  : res (data_file * option (list (list ascii))) :=
  let* (l, f, current_line) :=
    seek_line (S (len (f_rest df))) df separator (f_rest df) (f_current_line df) in
  let df := mkDataFile (f_separator df) (f_contents df) f (f_first_line_labels df)
              current_line (f_label_line df) (f_ndatarows df) (f_datarows df)
              (f_num_of_nodes df) (f_node_symbols df) (f_node_states df) in
  match l with
  | None => Ok (df, None)
  | Some (line, n) =>
      let* (bounds, _) := tokenise (Some line) (Z.of_nat n) false (Some [separator]) 1 false true in
      match bounds with
      | None => Ok (df, None)
      | Some bounds =>
          let* tokens := words_from line bounds 0 (Nat.min (f_num_of_nodes df) n) in
          Ok (df, Some tokens)
      end
  end.

(** time_series_struct, nip.h: the lengths of the arrays are those of the
    lists; [s_length] is the number of rows. *)
Record series := mkSeries {
  s_hidden : list nat;
  s_observed : list nat;
  s_length : nat;
  s_data : list (list Z)
}.

(** model_variable for a name read from a file. *)
Definition variable_called (names : list named_variable) (symbol : list ascii)
  : res (option nat) := model_variable names (string_of_list_ascii symbol).

(** read_timeseries, nip.c 560-565, 596-602: the variables of the columns. *)
Fixpoint columns (names : list named_variable) (symbols : list (list ascii))
  : res (list (option nat)) :=
  match symbols with
  | [] => Ok []
  | s :: r =>
      let* v := variable_called names s in
      let* l := columns names r in
      Ok (v :: l)
  end.
Definition known (cols : list (option nat)) : list nat :=
  flat_map (fun c => match c with Some v => [v] | None => [] end) cols.

(** read_timeseries, nip.c 582-593: the hidden variables, written to an array
    of [num_of_vars - obs] references. *)
Definition hidden_variables (nvars : nat) (cols : list (option nat)) (obs : nat)
  : res (list nat) :=
  if Nat.ltb nvars obs then UB
  else
    let* (h, _) :=
      for_up 0 nvars
        (fun k '(h, m) =>
           if existsb (fun c => match c with Some v => equal_variables k v | None => false end) cols
           then Ok (h, m)
           else let* h := wr h m k in Ok (h, S m))
        (repeat 0 (nvars - obs), 0) in
    Ok h.

(** read_timeseries, nip.c 652-664: one row of data.  Columns of unknown
    variables are skipped; a short line leaves zeros. *)
Fixpoint read_row (names : list named_variable) (cols : list (option nat))
    (tokens : list (list ascii)) (k : nat) (row : list Z) : res (list Z) :=
  match cols, tokens with
  | c :: cols', t :: tokens' =>
      match c with
      | Some v =>
          let* nv := rd names v in
          let* i := variable_state_index nv (string_of_list_ascii t) in
          let* row := wr row k i in
          read_row names cols' tokens' (S k) row
      | None => read_row names cols' tokens' k row
      end
  | _, _ => Ok row
  end.

(** read_timeseries, nip.c 637-669: the rows of one series.  If no line is
    left the freed array of tokens is used again (nip.c 666-668), UB. *)
Fixpoint read_rows (names : list named_variable) (cols : list (option nat)) (obs : nat)
    (df : data_file) (n : nat) : res (data_file * list (list Z)) :=
  match n with
  | O => Ok (df, [])
  | S n' =>
      let* (df, tokens) := next_line_tokens df FIELD_SEPARATOR in
      match tokens with
      | None => UB
      | Some tokens =>
          let* row := read_row names cols tokens 0 (repeat 0%Z obs) in
          let* (df, rows) := read_rows names cols obs df n' in
          Ok (df, row :: rows)
      end
  end.

(** read_timeseries, nip.c 547-674: the loop over the series. *)
Fixpoint read_series (names : list named_variable) (df : data_file) (lengths : list nat)
  : res (list series) :=
  match lengths with
  | [] => Ok []
  | l :: r =>
      let* cols := columns names (f_node_symbols df) in
      let obs := len (known cols) in
      let* hidden := hidden_variables (len names) cols obs in
      let* (df, data) :=
        if Nat.ltb 0 obs then read_rows names cols obs df l else Ok (df, []) in
      let* rest := read_series names df r in
      Ok (mkSeries hidden (known cols) l data :: rest)
  end.

(** read_timeseries, nip.c 519-678; [None]: 0 is returned after an error. *)
Definition read_timeseries (names : list named_variable) (contents : list ascii)
  : res (option (list series)) :=
  let df := open_data_file contents FIELD_SEPARATOR true in
  let* (df, r) := analyse_data_file df in
  if (r <? 0)%Z then Ok None
  else
    let* l := read_series names df (f_datarows df) in
    Ok (Some l).

(** A NULL array if there is nothing in it. *)
Definition array_ref (l : list nat) : option (list nat) :=
  match l with [] => None | _ => Some l end.

(** write_timeseries, nip.c 710-733: the union of the observed variables. *)
Fixpoint observed_union (nvars : nat) (ss : list series) (observed : option (list nat))
    (n_observed : Z) : res (option (list nat) * Z) :=
  match ss with
  | [] => Ok (observed, n_observed)
  | ts :: r =>
      if (n_observed <? 0)%Z then UB
      else
        let* (o, n) := variable_union observed (array_ref (s_observed ts))
                         (Z.to_nat n_observed) (nvars - len (s_hidden ts)) in
        observed_union nvars r o n
  end.

(** write_timeseries, nip.c 751-758: the names of the variables. *)
Fixpoint write_header (names : list named_variable) (vars : list nat) (first : bool)
  : res (list ascii) :=
  match vars with
  | [] => Ok []
  | v :: r =>
      let* nv := rd names v in
      match nv_symbol nv with
      | None => UB
      | Some s =>
          let* t := write_header names r false in
          Ok ((if first then [] else [FIELD_SEPARATOR]) ++ str s ++ t)%list
      end
  end.

(** write_timeseries, nip.c 768-774: a record. *)
Definition record_of (n_observed : nat) (map : list nat) (row : list Z) (n : nat)
  : res (list Z) :=
  for_up 0 n
    (fun i record => let* j := rd map i in let* d := rd row i in wr record j d)
    (repeat (-1)%Z n_observed).

(** write_timeseries, nip.c 776-786: prints a record. *)
Fixpoint write_record (names : list named_variable) (vars : list nat) (record : list Z)
    (first : bool) : res (list ascii) :=
  match vars, record with
  | [], _ => Ok []
  | v :: vs, d :: ds =>
      let* w :=
        if (0 <=? d)%Z then
          let* nv := rd names v in
          let* s := variable_state_name nv d in
          match s with Some s => Ok (str s) | None => UB end
        else Ok (str "null") in
      let* t := write_record names vs ds false in
      Ok ((if first then [] else [FIELD_SEPARATOR]) ++ w ++ t)%list
  | _, [] => UB
  end.

(** write_timeseries, nip.c 765-788: the rows of a series. *)
Fixpoint write_rows (names : list named_variable) (observed : list nat) (map : list nat)
    (n : nat) (rows : list (list Z)) : res (list ascii) :=
  match rows with
  | [] => Ok []
  | row :: r =>
      let* record := record_of (len observed) map row n in
      let* line := write_record names observed record true in
      let* t := write_rows names observed map n r in
      Ok (line ++ [NEWLINE] ++ t)%list
  end.

(** write_timeseries, nip.c 761-791: the loop over the series. *)
Fixpoint write_all (names : list named_variable) (observed : list nat) (ss : list series)
  : res (list ascii) :=
  match ss with
  | [] => Ok []
  | ts :: r =>
      let* map := mapper (Some observed) (array_ref (s_observed ts)) (len observed)
                    (len (s_observed ts)) in
      let map := match map with Some m => m | None => [] end in
      (* the first [length] rows of the data, not read if nothing is observed *)
      let* rows := (if Nat.eqb (len (s_observed ts)) 0 then Ok (repeat [] (s_length ts))
                    else if Nat.ltb (len (s_data ts)) (s_length ts) then UB
                    else Ok (firstn (s_length ts) (s_data ts))) in
      let* lines := write_rows names observed map (len (s_observed ts)) rows in
      let* t := write_all names observed r in
      Ok (lines ++ [NEWLINE] ++ t)%list
  end.

(** write_timeseries, nip.c 681-800, for series of the same model: the
    contents of the file ([None]: nothing was written). *)
Definition write_timeseries (names : list named_variable) (ss : list series)
  : res (option (list ascii) * code) :=
  match ss with
  | [] => Ok (None, EINVAL)
  | ts :: r =>
      let* (observed, n_observed) :=
        variable_union (array_ref (s_observed ts)) None (len names - len (s_hidden ts)) 0 in
      if (n_observed <? 0)%Z then Ok (None, GENERAL)
      else
        let* (observed, n_observed) := observed_union (len names) r observed n_observed in
        match observed with
        | None => Ok (None, EINVAL)
        | Some observed =>
            if (n_observed =? 0)%Z then Ok (None, EINVAL)
            else
              let* h := write_header names observed true in
              let* t := write_all names observed ss in
              Ok (Some (h ++ [NEWLINE] ++ t)%list, NO_ERROR)
        end
  end.
