(** * Model of the memory of data files (src/nipparsers.c 44-523, the lists of
    strings of src/niplists.c, and read_timeseries of src/nip.c 519-678)

    What is in a file is computed by SeriesFileModel.v; here the same loops
    allocate and free.  Texts are given by their lengths, as in MemoryModel.v. *)
From Coq Require Import String Ascii.
From Verif Require Import Base StringModel VariableModel NipModel SeriesFileModel MemoryModel.
Import ListNotations.
Open Scope nat_scope.
Local Open Scope res_scope.
Local Notation len := List.length.

(** ** Lists of strings: length, first, last; a link has data, fwd, bwd *)

(** nip_new_string_list, niplists.c 88-99. *)
Definition mem_new_string_list (m : memory) : res (memory * option nat) :=
  let '(m, l) := malloc m 3 in
  let* m := store m (Some l) S_length (N 0) in
  let* m := store m (Some l) S_first (P None) in
  let* m := store m (Some l) S_last (P None) in
  Ok (m, Some l).

(** nip_prepend_string, niplists.c 299-320; the list and the string are not
    NULL. *)
Definition mem_prepend_string (m : memory) (l s : option nat) : res memory :=
  let '(m, new) := malloc m 3 in
  let* m := store m (Some new) L_data (P s) in
  let* m := store m (Some new) L_bwd (P None) in
  let* first := ptr m l S_first in
  let* m := store m (Some new) L_fwd (P first) in
  let* last := ptr m l S_last in
  let* m := match last with
            | None => store m l S_last (P (Some new))
            | Some _ => let* first := ptr m l S_first in store m first L_bwd (P (Some new))
            end in
  let* m := store m l S_first (P (Some new)) in
  let* n := num m l S_length in
  store m l S_length (N (S n)).

(** nip_string_list_to_array, niplists.c 403-428: NULL if the list is empty. *)
Definition mem_string_list_to_array (m : memory) (l : option nat) : res (memory * option nat) :=
  let* n := num m l S_length in
  if Nat.eqb n 0 then Ok (m, None)
  else
    let '(m, new) := calloc m (P None) n in
    let* ln := ptr m l S_first in
    let* (m, _) :=
      for_up 0 n
        (fun i '(m, ln) =>
           let* s := ptr m ln L_data in
           let* m := store m (Some new) i (P s) in
           let* ln := ptr m ln L_fwd in
           Ok (m, ln))
        (m, ln) in
    Ok (m, Some new).

(** nip_empty_string_list, niplists.c 491-508. *)
Fixpoint mem_empty_links (fuel : nat) (m : memory) (ln : option nat) : res memory :=
  match fuel with
  | O => NoFuel
  | S fuel' =>
      match ln with
      | None => Ok m
      | Some _ =>
          let* f := ptr m ln L_fwd in
          let* m := free m f in
          let* b := ptr m ln L_bwd in
          mem_empty_links fuel' m b
      end
  end.
Definition mem_empty_string_list (m : memory) (l : option nat) : res memory :=
  match l with
  | None => Ok m
  | Some _ =>
      let* ln := ptr m l S_last in
      let* m := store m l S_last (P None) in
      let* m := mem_empty_links (S (len m)) m ln in
      let* first := ptr m l S_first in
      let* m := free m first in
      let* m := store m l S_first (P None) in
      store m l S_length (N 0)
  end.

(** ** Data files *)

(** nip_data_file_struct, nipparsers.h 42-71: the fields that hold memory and
    the number of nodes. *)
Definition F_name := 0. Definition F_datarows := 1. Definition F_symbols := 2.
Definition F_nodes := 3. Definition F_states := 4. Definition F_nstates := 5.

(** nip_open_data_file, nipparsers.c 44-95; [there] tells if fopen succeeds,
    the name of the file has [name] characters. *)
Definition mem_open_data_file (m : memory) (there : bool) (name : nat) : res (memory * option nat) :=
  let '(m, f) := malloc m 6 in
  let f := Some f in
  let* m := store m f F_name (P None) in
  let* m := store m f F_datarows (P None) in
  let* m := store m f F_symbols (P None) in
  let* m := store m f F_nodes (N 0) in
  let* m := store m f F_states (P None) in
  let* m := store m f F_nstates (P None) in
  if there then
    let '(m, n) := calloc m (N 0) (name + 1) in
    let* m := store m f F_name (P (Some n)) in
    Ok (m, f)
  else
    let* m := free m f in
    Ok (m, None).

(** An array of copies of strings, as in nipparsers.c 297-317 and 485-517: the
    array [a] gets the copies. *)
Definition mem_copy_strings (m : memory) (a : option nat) (words : list (list ascii)) : res memory :=
  for_up 0 (len words)
    (fun i m =>
       let* w := rd words i in
       let '(m, s) := calloc m (N 0) (len w + 1) in
       store m a i (P (Some s)))
    m.

(** nip_set_node_symbols, nipparsers.c 294-336, with names in the file. *)
Definition mem_set_node_symbols (m : memory) (f : option nat) (symbols : list (list ascii)) : res memory :=
  let* m := store m f F_nodes (N (len symbols)) in
  let '(m, a) := calloc m (P None) (len symbols) in
  let* m := store m f F_symbols (P (Some a)) in
  let* a := ptr m f F_symbols in
  mem_copy_strings m a symbols.

(** nip_analyse_data_file, nipparsers.c 165-200: after the line with the names;
    returns the array of the lists of names of states. *)
Definition mem_header (m : memory) (f : option nat) : res (memory * option nat) :=
  let* n := num m f F_nodes in
  let '(m, sn) := calloc m (P None) n in
  let* m :=
    for_up 0 n (fun i m => let* (m, l) := mem_new_string_list m in store m (Some sn) i (P l)) m in
  let '(m, a) := calloc m (N 0) n in
  let* m := store m f F_nstates (P (Some a)) in
  let '(m, a) := calloc m (P None) n in
  let* m := store m f F_states (P (Some a)) in
  Ok (m, Some sn).

(** nip_accumulate_state_names, nipparsers.c 339-378. *)
Fixpoint mem_accumulate_state_names (m : memory) (sn : option nat)
    (statenames : list (list (list ascii))) (line : list ascii) (bounds : list nat) (i n : nat)
  : res (memory * list (list (list ascii))) :=
  match n with
  | O => Ok (m, statenames)
  | S n' =>
      let* token := word line bounds i in
      let '(m, s) := calloc m (N 0) (len token + 1) in
      let* l := rd statenames i in
      let* (m, statenames) :=
        if (negb (null_observation token) && negb (existsb (ascii_list_eqb token) l))%bool
        then
          let* q := ptr m sn i in
          let* m := mem_prepend_string m q (Some s) in
          let* statenames := wr statenames i (token :: l) in
          Ok (m, statenames)
        else
          let* m := free m (Some s) in
          Ok (m, statenames) in
      mem_accumulate_state_names m sn statenames line bounds (S i) n'
  end.

(** nip_analyse_data_file, nipparsers.c 132-217: the loop of the second pass;
    [None] is the return of -1.  [sn] is the variable statenames.  The array of
    the boundaries of the tokens has two elements for each of them. *)
Fixpoint mem_analyse_loop (fuel : nat) (m : memory) (file : option nat) (sep : ascii) (f : list ascii)
    (p : pass2) (sn : option nat) : res (memory * option (pass2 * option nat)) :=
  match fuel with
  | O => NoFuel
  | S fuel' =>
      match fgets f with
      | None => Ok (m, Some (p, sn))
      | Some (last_line, f) =>
          let* (num_of_tokens, _) := count_tokens last_line false (Some [sep]) 1 false true in
          if Nat.eqb num_of_tokens 0 then
            mem_analyse_loop fuel' m file sep f
              (mkPass2 (p_tscounter p) (p_state p) (S (p_empty p)) (p_datarows p)
                 (p_num_of_nodes p) (p_symbols p) (p_statenames p)) sn
          else
            let* (bounds, _) :=
              tokenise (Some last_line) (Z.of_nat num_of_tokens) false (Some [sep]) 1 false true in
            match bounds with
            | None => Ok (m, None)
            | Some bounds =>
                let '(m, tb) := calloc m (N 0) (2 * num_of_tokens) in
                let tscounter :=
                  if (negb (Nat.eqb (p_empty p) 0) && Nat.ltb (p_state p) 1)%bool
                  then S (p_tscounter p) else p_tscounter p in
                let state := if Nat.ltb 0 (p_state p) then p_state p - 1 else p_state p in
                if Nat.ltb 0 state then
                  let* symbols := words_from last_line bounds 0 num_of_tokens in
                  let* m := mem_set_node_symbols m file symbols in
                  let* (m, sn) := mem_header m file in
                  let* m := free m (Some tb) in
                  mem_analyse_loop fuel' m file sep f
                    (mkPass2 tscounter state 0 (p_datarows p) num_of_tokens symbols
                       (repeat [] num_of_tokens)) sn
                else
                  let* r := rd (p_datarows p) tscounter in
                  let* datarows := wr (p_datarows p) tscounter (S r) in
                  let i := Nat.min (p_num_of_nodes p) num_of_tokens in
                  let* (m, statenames) :=
                    mem_accumulate_state_names m sn (p_statenames p) last_line bounds 0 i in
                  let* m := free m (Some tb) in
                  mem_analyse_loop fuel' m file sep f
                    (mkPass2 tscounter state 0 datarows (p_num_of_nodes p) (p_symbols p)
                       statenames) sn
            end
      end
  end.

(** nip_analyse_data_file, nipparsers.c 219-226: lists become arrays. *)
Definition mem_lists_to_arrays (m : memory) (file sn : option nat) : res memory :=
  let* n := num m file F_nodes in
  let* m :=
    for_up 0 n
      (fun i m =>
         let* l := ptr m sn i in
         let* k := num m l S_length in
         let* a := ptr m file F_nstates in
         let* m := store m a i (N k) in
         let* (m, x) := mem_string_list_to_array m l in
         let* a := ptr m file F_states in
         let* m := store m a i (P x) in
         let* m := mem_empty_string_list m l in
         free m l)
      m in
  free m sn.

(** nip_analyse_data_file, nipparsers.c 97-238.  The numbers in the array
    datarows are in [f_datarows]. *)
Definition mem_analyse_data_file (m : memory) (file : option nat) (df : data_file)
  : res (memory * data_file * Z) :=
  let* (ndatarows, label_line) := count_data_rows df in
  let '(m, d) := calloc m (N 0) ndatarows in
  let* m := store m file F_datarows (P (Some d)) in
  let* (m, r) :=
    mem_analyse_loop (S (len (f_contents df))) m file (f_separator df) (f_contents df)
      (mkPass2 0 (if f_first_line_labels df then 2 else 1) 0 (repeat 0 ndatarows) 0 [] []) None in
  match r with
  | None => Ok (m, df, (-1)%Z)
  | Some (p, sn) =>
      let* m := mem_lists_to_arrays m file sn in
      Ok (m,
          mkDataFile (f_separator df) (f_contents df) (f_contents df)
            (f_first_line_labels df) 0 label_line ndatarows (p_datarows p)
            (p_num_of_nodes p) (p_symbols p) (p_statenames p),
          Z.of_nat (p_tscounter p))
  end.

(** nip_close_data_file, nipparsers.c 407-418, and nip_free_data_file,
    nipparsers.c 422-440; the file is not NULL. *)
Definition mem_close_data_file (m : memory) (f : option nat) : res memory :=
  let* n := ptr m f F_name in let* m := free m n in
  let* a := ptr m f F_symbols in
  let* m := match a with
            | Some _ =>
                let* n := num m f F_nodes in
                let* m := for_up 0 n (fun j m => let* s := ptr m a j in free m s) m in
                free m a
            | None => Ok m
            end in
  let* a := ptr m f F_states in
  let* m := match a with
            | Some _ =>
                let* n := num m f F_nodes in
                let* m :=
                  for_up 0 n
                    (fun i m =>
                       let* b := ptr m f F_nstates in
                       let* k := num m b i in
                       let* m :=
                         for_up 0 k
                           (fun j m => let* x := ptr m a i in let* s := ptr m x j in free m s) m in
                       let* x := ptr m a i in
                       free m x)
                    m in
                free m a
            | None => Ok m
            end in
  let* b := ptr m f F_nstates in let* m := free m b in
  let* d := ptr m f F_datarows in let* m := free m d in
  free m f.

(** nip_next_line_tokens, nipparsers.c 443-523: the variable tokens after the
    call, which does not change when there is no line, and the number returned.
    (The array of boundaries is given the size of the tokens that are copied.) *)
Definition mem_next_line_tokens (m : memory) (df : data_file) (separator : ascii) (tokens : option nat)
  : res (memory * data_file * option nat * nat) :=
  let* (df, words) := next_line_tokens df separator in
  match words with
  | None => Ok (m, df, tokens, 0)
  | Some words =>
      let '(m, tb) := calloc m (N 0) (2 * len words) in
      let '(m, a) := calloc m (P None) (len words) in
      let* m := mem_copy_strings m (Some a) words in
      let* m := free m (Some tb) in
      Ok (m, df, Some a, len words)
  end.

(** ** read_timeseries *)

(** nip.c 637-669: the lines of one series; [tokens] is the variable of that
    name. *)
Fixpoint mem_read_rows (m : memory) (df : data_file) (tokens : option nat) (n : nat)
  : res (memory * data_file * option nat) :=
  match n with
  | O => Ok (m, df, tokens)
  | S n' =>
      let* (m, df, tokens, k) := mem_next_line_tokens m df FIELD_SEPARATOR tokens in
      let* m := for_up 0 k (fun i m => let* s := ptr m tokens i in free m s) m in
      let* m := free m tokens in
      mem_read_rows m df tokens n'
  end.

(** nip.c 547-674: the series of the given lengths, from number [n] on. *)
Fixpoint mem_read_series (m : memory) (names : list named_variable) (df : data_file) (results tokens : option nat)
    (n : nat) (lengths : list nat) : res memory :=
  match lengths with
  | [] => Ok m
  | l :: r =>
      let* cols := columns names (f_node_symbols df) in
      let obs := len (known cols) in
      let* (m, ts) := new_timeseries m (Some (len names - obs)) obs l in
      let* (m, df, tokens) :=
        if Nat.ltb 0 obs then mem_read_rows m df tokens l else Ok (m, df, tokens) in
      let* m := store m results n (P ts) in
      mem_read_series m names df results tokens (S n) r
  end.

(** read_timeseries, nip.c 519-678; [contents] is [None] if the file is not
    there.  Returns the array [*results] (unchanged: [None]) and the number of
    series. *)
Definition mem_read_timeseries (m : memory) (names : list named_variable) (name : nat)
    (contents : option (list ascii)) : res (memory * option nat * nat) :=
  let* (m, file) := mem_open_data_file m (match contents with Some _ => true | None => false end) name in
  match contents, file with
  | Some text, Some _ =>
      let* (m, df, r) := mem_analyse_data_file m file (open_data_file text FIELD_SEPARATOR true) in
      if (r <? 0)%Z then Ok (m, None, 0)
      else
        let '(m, a) := calloc m (P None) (f_ndatarows df) in
        let* m := mem_read_series m names df (Some a) None 0 (f_datarows df) in
        let* m := mem_close_data_file m file in
        Ok (m, Some a, f_ndatarows df)
  | _, _ => Ok (m, None, 0)
  end.
