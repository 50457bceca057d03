(** * Model of the memory of whole programs
    (util/nipinference.c, nipnext.c, nipmap.c, niplikelihood.c, nipsample.c and
    niptrain.c; write_model, write_timeseries and write_uncertainseries of
    src/nip.c)

    The programs with enough arguments, as far as memory is concerned: they are
    put together from the parser (MemoryModel4.v), the reader of data files
    (MemoryModel2.v), and inference, learning and sampling (MemoryModel5.v).  The
    contents of the arrays of the model other than its variables are not in
    MemoryModel.v: their elements are named by numbers (of NipModel.v and
    SeriesFileModel.v) and fetched from the array of the variables.  What depends
    on numbers or on the file system is given as an argument.  Allocation
    succeeds.  Texts of messages are not modelled. *)
From Coq Require Import String Ascii.
From Verif Require Import Base VariableModel NipModel SeriesFileModel ParseModel MemoryModel MemoryModel2 MemoryModel3 MemoryModel4 MemoryModel5.
Import ListNotations.
Open Scope nat_scope.
Local Open Scope list_scope.
Local Open Scope res_scope.
Local Notation len := List.length.

(** ** Parts *)

(** model->variables[i]. *)
Definition variable_at (m : memory) (model : option nat) (i : nat) : res (option nat) :=
  let* a := ptr m model M_vars in ptr m a i.
Fixpoint variables_at (m : memory) (model : option nat) (l : list nat) : res (list (option nat)) :=
  match l with
  | [] => Ok []
  | i :: l =>
      let* v := variable_at m model i in
      let* r := variables_at m model l in
      Ok (v :: r)
  end.

(** model_variable, nip.c 1602-1615: the symbols of the variables are compared
    until it is found (NipModel.v). *)
Definition m_model_variable (m : memory) (model : option nat) (names : list named_variable) (symbol : string)
  : res (option nat) :=
  let* n := num m model M_nvars in
  let* found := model_variable names symbol in
  let* m := for_up 0 (match found with Some i => i + 1 | None => n end) (fun i m =>
    let* v := variable_at m model i in
    let* _ := ptr m v V_symbol in
    Ok m) m in
  match found with Some i => variable_at m model i | None => Ok None end.

(** A loop that marks or unmarks all variables, e.g. nipinference.c 122-123.  The
    mark is not in the block of MemoryModel.v, the id stands for it. *)
Definition mark_variables (m : memory) (model : option nat) : res memory :=
  let* n := num m model M_nvars in
  for_up 0 n (fun i m =>
    let* v := variable_at m model i in
    let* _ := num m v V_id in
    Ok m) m.

(** The end of most programs, e.g. nipmap.c 208-210: the series and their array. *)
Definition free_series (m : memory) (set : option nat) (n : nat) : res memory :=
  let* m := for_up 0 n (fun i m => let* y := ptr m set i in free_timeseries m y) m in
  free m set.

(** The probabilities of a series read at all time steps: the arrays
    ucs->data[t][i] must be allocated.  Like [write_results], which writes them. *)
Definition read_results (m : memory) (u : option nat) : res memory :=
  let* n := num m u U_length in
  for_up 0 n (fun t m => write_results m u t (fun _ => [])) m.

(** write_uncertainseries, nip.c 826-904; [opened]: the file can be opened.  The
    variable is one of each of the series (lines 856-860), because the programs
    ask for it. *)
Definition m_write_uncertainseries (m : memory) (set : option nat) (n : nat) (v : option nat) (opened : bool) : res memory :=
  let* c := num m v V_card in
  if negb (Nat.ltb 0 c && Nat.ltb 0 n)%bool then Ok m
  else
    let '(m, index) := calloc m (N 0) n in
    let* m := for_up 0 n (fun s m =>
      let* u := ptr m set s in
      let* _ := ptr m u U_variables in
      Ok m) m in
    if negb opened then free m (Some index)
    else
      let* m := for_up 0 n (fun s m => let* u := ptr m set s in read_results m u) m in
      free m (Some index).

(** The rows of a series are read, nip.c 765-773. *)
Definition read_rows_of (m : memory) (y : option nat) : res memory :=
  let* n := num m y Y_length in
  for_up 0 n (fun t m =>
    let* d := ptr m y Y_data in
    let* r := ptr m d t in
    match r with Some a => let* _ := use m a in Ok m | None => UB end) m.

(** write_timeseries, nip.c 681-800, for [n] series that observe all [nvars]
    variables, as those of generate_data do: the union of the observed variables
    (nip_variable_union, nipvariable.c 446-503, allocates one array) has [nvars]
    elements.  Without series (line 695) or variables (line 729) nothing is
    allocated. *)
Definition m_write_timeseries (m : memory) (set : option nat) (n nvars : nat) (opened : bool) : res memory :=
  if (Nat.eqb n 0 || Nat.eqb nvars 0)%bool then Ok m else
  let* y := ptr m set 0 in
  let* _ := ptr m y Y_observed in
  let '(m, observed) := calloc m (P None) nvars in
  let* (m, observed) := for_up 1 n (fun s (st : memory * nat) =>
    let '(m, observed) := st in
    let* y := ptr m set s in
    let* _ := ptr m y Y_observed in
    let '(m, more) := calloc m (P None) nvars in
    let* m := free m (Some observed) in
    Ok (m, more)) (m, observed) in
  let '(m, record) := calloc m (N 0) nvars in
  if negb opened
  then
    let* m := free m (Some observed) in
    free m (Some record)
  else
    let* m := for_up 0 n (fun s m =>
      let* y := ptr m set s in
      let '(m, mapping) := calloc m (N 0) nvars in
      let* m := read_rows_of m y in
      free m (Some mapping)) m in
    let* m := free m (Some observed) in
    free m (Some record).

(** write_model, nip.c 295-489; [opened]: the file can be opened.  [children]: the
    variables with parents.  [families] and [w] as in [em_learn]: the
    cardinalities of the family, and nip_find_family. *)
Definition m_write_model (m : memory) (model : option nat) (children : list nat) (families : nat -> list nat)
    (w : nat -> list nat) (opened : bool) : res memory :=
  if negb opened then Ok m
  else
    let* m := mark_variables m model in (* lines 329-367: fields of the variables *)
    for_up 0 (len children) (fun i m =>
      let* c := rd children i in
      let* v := variable_at m model c in
      let* k := num m v V_nparents in
      let '(m, temp) := calloc m (N 0) (k + 1) in
      let* (m, p) := new_potential m (families c) in
      let* m := work m (w c) in
      let* m := find_family_mapping m v in
      let* m := touch m p in
      let* m := free m (Some temp) in
      free_potential m p) m.

(** ** Programs *)

(** main, nipinference.c 49-158, after the model was parsed.  [data]: the contents
    of the data file, [name]: the length of its name. *)
Definition nipinference_memory (m : memory) (x : option nat) (names : list named_variable) (M : NipModel.model)
    (data : option (list ascii)) (name : nat) (symbol : string) (opened : bool) (w : nat -> nat -> nat -> list nat) : res memory :=
  let* (m, set, n) := mem_read_timeseries m names name data in
  if Nat.ltb n 1 then free_model m x
  else
    let '(m, results) := calloc m (P None) n in
    let* v := m_model_variable m x names symbol in
    match v with
    | None =>
        let* m := free_series m set n in
        let* m := free m (Some results) in
        free_model m x
    | Some _ =>
        let* m := mark_variables m x in
        let* m := for_up 0 n (fun i m =>
          let* y := ptr m set i in
          let* out := variables_at m x (m_out M) in
          let* (m, u) := forward_backward_inference m y [v] out (w i) in
          let* m := store m (Some results) i (P u) in
          let* _ := num m y Y_length in
          Ok m) m in
        let* m := m_write_uncertainseries m (Some results) n v opened in
        let* m := for_up 0 n (fun i m =>
          let* y := ptr m set i in
          let* m := free_timeseries m y in
          let* u := ptr m (Some results) i in
          free_uncertainseries m u) m in
        let* m := free m set in
        let* m := free m (Some results) in
        free_model m x
    end.

(** main, nipnext.c 48-161. *)
Definition nipnext_memory (m : memory) (x : option nat) (names : list named_variable) (M : NipModel.model)
    (data : option (list ascii)) (name : nat) (symbol : string) (w : nat -> nat -> nat -> list nat) : res memory :=
  let* (m, set, n) := mem_read_timeseries m names name data in
  if Nat.ltb n 1 then free_model m x
  else
    let* v := m_model_variable m x names symbol in
    match v with
    | None =>
        let* m := free_series m set n in
        free_model m x
    | Some _ =>
        let* m := mark_variables m x in
        let* m := for_up 0 n (fun i m =>
          let* y := ptr m set i in
          let* out := variables_at m x (m_out M) in
          let* (m, u) := forward_inference m y [v] out (w i) in
          let* l := num m u U_length in
          let* m := if Nat.ltb 0 l then write_results m u (l - 1) (fun _ => []) else Ok m in (* get_posterior, nip.c 945-958 *)
          let* _ := num m y Y_length in
          let* m := free_timeseries m y in
          free_uncertainseries m u) m in
        let* m := free m set in
        free_model m x
    end.

(** main, nipmap.c 49-214; [series]: what is in the file (SeriesFileModel.v);
    [opened] and [closed]: fopen and fclose of the output succeed. *)
Definition nipmap_memory (m : memory) (x : option nat) (names : list named_variable) (M : NipModel.model)
    (data : option (list ascii)) (name : nat) (series : list SeriesFileModel.series) (opened closed : bool)
    (w : nat -> nat -> nat -> list nat) : res memory :=
  let* (m, set, n) := mem_read_timeseries m names name data in
  if Nat.ltb n 1 then free_model m x
  else
    let* ts := rd series 0 in
    if (negb opened || Nat.eqb (len (s_hidden ts)) 0)%bool
    then
      let* m := free_series m set n in
      free_model m x
    else
      let* m := mark_variables m x in
      let* m := for_up 0 n (fun i m =>
        let* y := ptr m set i in
        let* ts := rd series i in
        let* hidden := variables_at m x (s_hidden ts) in
        let* out := variables_at m x (m_out M) in
        let* (m, u) := forward_backward_inference m y hidden out (w i) in
        let* m := read_results m u in
        let* m := free_uncertainseries m u in
        let* _ := num m y Y_length in
        Ok m) m in
      if negb closed then Ok m (* line 204 *)
      else
        let* m := free_series m set n in
        free_model m x.

(** main, niplikelihood.c 53-144, for the variables [symbols]; [w i t]: the arrays
    used for a while at time step [t] of series [i]. *)
Definition niplikelihood_memory (m : memory) (x : option nat) (names : list named_variable)
    (data : option (list ascii)) (name : nat) (symbols : list string) (w : nat -> nat -> list nat) : res memory :=
  let* (m, set, n) := mem_read_timeseries m names name data in
  if Nat.eqb n 0 then free_model m x
  else
    let* m := mark_variables m x in
    let* m := for_up 0 (len symbols) (fun i m =>
      let* s := rd symbols i in
      let* v := m_model_variable m x names s in
      match v with Some _ => let* _ := num m v V_id in Ok m | None => Ok m end) m in
    let* m := for_up 0 n (fun i m =>
      let* y := ptr m set i in
      let* l := num m y Y_length in
      for_up 0 l (fun t m => work m (w i t)) m) m in
    let* m := free_series m set n in
    free_model m x.

(** main, nipsample.c 48-148; [valid]: the seed and the two numbers are accepted,
    [count] series of [length] steps.  [order]: the variables in the order in which
    generate_data draws them. *)
Definition nipsample_memory (m : memory) (x : option nat) (M : NipModel.model) (valid : bool) (count length : nat)
    (order : list nat) (opened : bool) (w : nat -> nat -> nat -> list nat) : res memory :=
  if negb valid then free_model m x
  else
    let '(m, set) := calloc m (P None) count in
    let* m := for_up 0 count (fun i m =>
      let* vars := variables_at m x order in
      let* out := variables_at m x (m_out M) in
      let* (m, y) := generate_data m vars out length (w i) in
      store m (Some set) i (P y)) m in
    let* m := m_write_timeseries m (Some set) count (len order) opened in
    let* m := for_down count 0 (fun i m => let* y := ptr m (Some set) i in free_timeseries m y) m in
    let* m := free m (Some set) in
    free_model m x.

(** One call of em_learn by niptrain (niptrain.c 211-231): its iterations, the
    number of values that they append to the learning curve, and whether the model
    can be written afterwards. *)
Record batch := mkBatch {
  b_random : bool;
  b_search : nat -> list nat;
  b_first : iteration;
  b_others : list iteration;
  b_values : nat;
  b_opened : bool
}.
(** The learning curve: nip_append_double (niplists.c 163-183) [k] times.  It is
    called during em_learn, here after it. *)
Fixpoint grow (m : memory) (curve : mlist) (k : nat) : res (memory * mlist) :=
  match k with
  | O => Ok (m, curve)
  | S k => let* (m, curve) := m_link m curve in grow m curve k
  end.
(** nip_empty_double_list, niplists.c 471-488: the struct stays. *)
Definition empty_curve (m : memory) (curve : mlist) : res (memory * mlist) :=
  let* _ := use m (b_list curve) in
  let* m := free_all m (b_nodes curve) in
  Ok (m, mkMlist (b_list curve) []).

(** The series, ts_set[0], ts_set[1], ..., each with its number of observed
    variables. *)
Fixpoint series_at (m : memory) (set : option nat) (i : nat) (nobs : list nat) : res (list (option nat * nat)) :=
  match nobs with
  | [] => Ok []
  | k :: nobs =>
      let* y := ptr m set i in
      let* l := series_at m set (S i) nobs in
      Ok ((y, k) :: l)
  end.

(** niptrain.c 207-242: the batches of one run.  [false]: an error that is not
    NIP_ERROR_BAD_LUCK. *)
Fixpoint train_batches (m : memory) (x set : option nat) (nobs : list nat) (nvars : nat) (out children : list nat)
    (families : nat -> list nat) (curve : mlist) (l : list batch) : res (memory * mlist * bool) :=
  match l with
  | [] => Ok (m, curve, true)
  | b :: l =>
      let* vars := variables_at m x (seq 0 nvars) in
      let* outs := variables_at m x out in
      let* ts := series_at m set 0 nobs in
      let* (m, e) := em_learn m ts vars outs families (b_random b) (b_search b) (b_first b :: b_others b) in
      let* (m, curve) := grow m curve (b_values b) in
      match e with
      | Failed => Ok (m, curve, false)
      | _ =>
          let* m := m_write_model m x children families (b_search b) (b_opened b) in
          train_batches m x set nobs nvars out children families curve l
      end
  end.
(** niptrain.c 195-262: the runs. *)
Fixpoint train_runs (m : memory) (x set : option nat) (nobs : list nat) (nvars : nat) (out children : list nat)
    (families : nat -> list nat) (curve : mlist) (l : list (list batch)) : res (memory * mlist * bool) :=
  match l with
  | [] => Ok (m, curve, true)
  | r :: l =>
      let* (m, curve) := match b_nodes curve with [] => Ok (m, curve) | _ => empty_curve m curve end in
      let* (m, curve, ok) := train_batches m x set nobs nvars out children families curve r in
      if (ok : bool) then train_runs m x set nobs nvars out children families curve l else Ok (m, curve, false)
  end.

(** main, niptrain.c 73-293; [valid]: the threshold and the likelihood are accepted
    (the seed and the number of iterations always are), [runs]: the runs that take
    place.  [opened]: the final model can be written. *)
Definition niptrain_memory (m : memory) (x : option nat) (names : list named_variable) (M : NipModel.model)
    (data : option (list ascii)) (name : nat) (series : list SeriesFileModel.series) (valid : bool)
    (families : nat -> list nat) (runs : list (list batch)) (w : nat -> list nat) (opened : bool) : res memory :=
  let* (m, set, n) := mem_read_timeseries m names name data in
  if Nat.eqb n 0 then free_model m x
  else
    let* ts := rd series 0 in
    if (Nat.eqb (len (s_observed ts)) 0 || negb valid)%bool
    then
      let* m := free_series m set n in
      free_model m x
    else
      let* m := mark_variables m x in
      let '(m, curve) := m_list m None in
      let* nvars := num m x M_nvars in
      let* (m, curve, ok) := train_runs m x set (map (fun ts => len (s_observed ts)) series) nvars (m_out M) (m_children M)
                               families curve runs in
      if negb ok
      then
        let* m := free_series m set n in
        let* m := free_model m x in
        m_drop m curve
      else
        let* m := free_series m set n in
        let* _ := use_list m curve in
        let* m := m_drop m curve in
        let* m := m_write_model m x (m_children M) families w opened in
        free_model m x.

(** The programs: the parser first.  [None]: there is no model, return -1. *)
Definition with_model (k1 k2 : list pvar -> list nat -> Z) (g : globals) (s : source)
    (main : memory -> option nat -> list named_variable -> NipModel.model -> res memory) : res (option memory) :=
  let* r := m_parse_model k1 k2 g s in
  match r with
  | None => Ok None
  | Some (m, x, names, M, _) => let* m := main m x names M in Ok (Some m)
  end.
