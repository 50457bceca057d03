(** * Model of write_uncertainseries (src/nip.c 826-904) and of the programs
    util/nipinference.c, util/nipmap.c, util/nipnext.c and util/nipconvert.c

    A program is a function of the contents of its input files ([None]: the
    file cannot be opened) and of its other arguments; enough arguments are
    given.  Allocations succeed.  Not modelled: what is written to stderr, the
    memory that is freed at the end. *)
From Coq Require Import String Ascii.
From Verif Require Import Base PotentialModel VariableModel JoinTreeModel NipModel SliceModel LearnModel
  StringModel SeriesFileModel GraphModel ParseModel NetLexModel NetGrammarModel WriteModel.
Import ListNotations.
Open Scope nat_scope.
Local Open Scope res_scope.
Local Notation len := List.length.

(** ** write_uncertainseries *)

(** The separator before all but the first field, e.g. nip.c 868-869. *)
Definition separated (i : nat) (out : list ascii) : list ascii :=
  if Nat.ltb 0 i then out ++ [FIELD_SEPARATOR] else out.

(** [nip_variable_state_name(v, i)] printed with [%s] (NULL: undefined). *)
Definition state_name_text (names : list named_variable) (v i : nat) : res (list ascii) :=
  let* nv := rd names v in
  let* s := variable_state_name nv (Z.of_nat i) in
  match s with Some s => Ok (str s) | None => UB end.

(** The names of the [n] states of [v] as a line, nip.c 867-872. *)
Definition write_state_names (names : list named_variable) (v n : nat) (out : list ascii)
  : res (list ascii) :=
  let* out :=
    for_up 0 n
      (fun i out =>
         let* s := state_name_text names v i in
         Ok (separated i out ++ s))
      out in
  Ok (out ++ NL).

(** write_uncertainseries, nip.c 845-859: the positions of [v] in the series;
    [None]: not in all of them. *)
Fixpoint columns_for (ucs_set : list uncertain_series) (v : nat) : res (option (list nat)) :=
  match ucs_set with
  | [] => Ok (Some [])
  | ucs :: r =>
      let* i := find_up 0 (len (ucs_variables ucs))
                  (fun i => let* w := rd (ucs_variables ucs) i in Ok (equal_variables v w)) in
      match i with
      | None => Ok None
      | Some i =>
          let* l := columns_for r v in
          Ok (match l with None => None | Some l => Some (i :: l) end)
      end
  end.

(** write_uncertainseries, nip.c 878-887: one series. *)
Definition write_one_uncertain (ucs : uncertain_series) (index n : nat) (out : list ascii)
  : res (list ascii) :=
  let* out :=
    for_up 0 (len (ucs_data ucs))
      (fun t out =>
         let* out :=
           for_up 0 n
             (fun i out =>
                let* row := rd (ucs_data ucs) t in
                let* d := rd row index in
                let* q := rd d i in
                Ok (separated i out ++ print_f q))
             out in
         Ok (out ++ NL))
      out in
  Ok (out ++ NL).

(** write_uncertainseries, nip.c 826-904.  [opened] and [closed]: fopen and
    fclose succeed; no contents if the file was not opened. *)
Definition write_uncertainseries (opened closed : bool) (names : list named_variable)
    (ucs_set : list uncertain_series) (v : nat) : res (option (list ascii) * code) :=
  let* nv := rd names v in
  let n := nv_card nv in
  if negb (Nat.ltb 0 n && Nat.ltb 0 (len ucs_set))%bool then Ok (None, EINVAL)
  else
    let* v_index := columns_for ucs_set v in
    match v_index with
    | None => Ok (None, EINVAL)
    | Some v_index =>
        if negb opened then Ok (None, EIO)
        else
          let* out := write_state_names names v n [] in
          let* out :=
            for_up 0 (len ucs_set)
              (fun s out =>
                 let* ucs := rd ucs_set s in
                 let* index := rd v_index s in
                 write_one_uncertain ucs index n out)
              out in
          Ok (Some out, if closed then NO_ERROR else EIO)
    end.

(** ** What the programs have in common *)

(** A series that read_timeseries made, for the functions of NipModel.v: its
    first [s_length] rows, which are not read if nothing is observed. *)
Definition rows_of (ts : series) : list (list Z) :=
  match s_observed ts with
  | [] => repeat [] (s_length ts)
  | _ => firstn (s_length ts) (s_data ts)
  end.
Definition to_ts (ts : series) : time_series := mkTS (s_observed ts) (rows_of ts).

(** parse_model and read_timeseries, e.g. nipinference.c 72-94; [None]: the
    program ends with status -1. *)
Definition read_inputs (k1 k2 : list pvar -> list nat -> Z) (g : globals)
    (net_file data_file : option (list ascii))
  : res (option (list named_variable * model * list series)) :=
  match net_file with
  | None => Ok None
  | Some net_text =>
      let* r := parse_file k1 k2 g net_text in
      match r with
      | None => Ok None
      | Some (names, m, _, _, _) =>
          match data_file with
          | None => Ok None
          | Some data_text =>
              let* l := read_timeseries names data_text in
              match l with
              | None => Ok None
              | Some [] => Ok None
              | Some l => Ok (Some (names, m, l))
              end
          end
      end
  end.

(** nip_mark_variable for all variables, e.g. nipinference.c 123-124. *)
Definition mark_all (m : model) : res model :=
  for_up 0 (len (m_vars m)) (fun i m => mark_var m i MARK_ON) m.

(** What a program leaves: its status, the contents of its output file ([None]
    if it was not opened). *)
Record finished := mkFinished {
  x_status : Z;
  x_file : option (list ascii)
}.
Definition failed : finished := mkFinished (-1) None.

(** ** util/nipinference.c *)

(** nipinference.c 132-141: inference for every series.  The second component
    are the masses of the steps of each series, from which the average
    log-likelihood is computed (see [evidence_mass] of SliceModel.v). *)
Fixpoint infer_all (m : model) (ss : list series) (v : nat)
  : res (model * list uncertain_series * list (list (Qc * Qc))) :=
  match ss with
  | [] => Ok (m, [], [])
  | ts :: r =>
      let* (m, results, ll) := forward_backward_inference m (to_ts ts) [v] true in
      let* (m, l, lls) := infer_all m r v in
      Ok (m, mkUCS [v] results :: l, ll :: lls)
  end.

(** main, nipinference.c 49-158. *)
Definition nipinference (k1 k2 : list pvar -> list nat -> Z) (g : globals)
    (net_file data_file : option (list ascii)) (symbol : string) (opened closed : bool)
  : res (finished * list (list (Qc * Qc))) :=
  let* r := read_inputs k1 k2 g net_file data_file in
  match r with
  | None => Ok (failed, [])
  | Some (names, m, ss) =>
      let* v := model_variable names symbol in
      match v with
      | None => Ok (failed, [])
      | Some v =>
          let* m := mark_all m in
          let* (m, l, lls) := infer_all m ss v in
          let* (f, _) := write_uncertainseries opened closed names l v in
          Ok (mkFinished 0 f, lls)
      end
  end.

(** ** util/nipmap.c *)

(** nipmap.c 158-166: the state with the largest probability. *)
Definition map_value (d : list Qc) (n : nat) : res nat :=
  let* (k, _) :=
    for_up 0 n
      (fun j '(k, m_max) =>
         let* x := rd d j in
         Ok (if Qc_ltb m_max x then (j, x) else (k, m_max)))
      (0, 0%Qc) in
  Ok k.

(** nipmap.c 158-167, 174-183: the name of this state of the [i]-th variable. *)
Definition map_text (names : list named_variable) (vars : list nat) (row : list (list Qc)) (i : nat)
  : res (list ascii) :=
  let* temp := rd vars i in
  let* nv := rd names temp in
  let* d := rd row i in
  let* k := map_value d (nv_card nv) in
  state_text names temp k.

(** nipmap.c 152-184: one time step.  Without variables the last one is
    variable number -1. *)
Definition write_map_row (names : list named_variable) (vars : list nat) (row : list (list Qc))
    (out : list ascii) : res (list ascii) :=
  match len vars with
  | O => UB
  | S n =>
      let* out :=
        for_up 0 n
          (fun i out =>
             let* s := map_text names vars row i in
             Ok (out ++ s ++ [FIELD_SEPARATOR]))
          out in
      let* s := map_text names vars row n in
      Ok (out ++ s ++ NL)
  end.

(** nipmap.c 143-189: the loop over the series. *)
Fixpoint write_maps (names : list named_variable) (m : model) (ss : list series) (out : list ascii)
  : res (list ascii) :=
  match ss with
  | [] => Ok out
  | ts :: r =>
      let* (m, results, _) := forward_backward_inference m (to_ts ts) (s_hidden ts) false in
      let* out :=
        for_up 0 (len results)
          (fun t out => let* row := rd results t in write_map_row names (s_hidden ts) row out)
          out in
      write_maps names m r (out ++ NL)
  end.

(** nipmap.c 130-136: the symbols of the hidden variables. *)
Definition write_map_header (names : list named_variable) (hidden : list nat) : res (list ascii) :=
  let* v := rd hidden 0 in
  let* s := symbol_text names v in
  let* out :=
    for_up 1 (len hidden)
      (fun i out =>
         let* v := rd hidden i in
         let* s := symbol_text names v in
         Ok (out ++ [FIELD_SEPARATOR] ++ s))
      s in
  Ok (out ++ NL).

(** main, nipmap.c 49-207. *)
Definition nipmap (k1 k2 : list pvar -> list nat -> Z) (g : globals)
    (net_file data_file : option (list ascii)) (opened closed : bool) : res finished :=
  let* r := read_inputs k1 k2 g net_file data_file in
  match r with
  | None => Ok failed
  | Some (names, m, ss) =>
      let* ts := rd ss 0 in
      if negb opened then Ok failed
      else if Nat.eqb (len (s_hidden ts)) 0 then Ok (mkFinished (-1) (Some []))
      else
        let* m := mark_all m in
        let* out := write_map_header names (s_hidden ts) in
        let* out := write_maps names m ss out in
        Ok (mkFinished (if closed then 0 else -1) (Some out))
  end.

(** ** util/nipnext.c *)

(** nipnext.c 130-136: a line with the logarithms of the [n] numbers of [p]; [show]
    stands for what printf writes for the format %g and the logarithm of a number
    (log and %g are not modelled). *)
Definition print_logs (show : Qc -> list ascii) (n : nat) (p : list Qc) (out : list ascii) : res (list ascii) :=
  for_up 0 n
    (fun j out =>
       let* x := rd p j in
       let out := out ++ show x in
       Ok (if Nat.ltb (j + 1) n then out ++ [FIELD_SEPARATOR] else out ++ NL))
    out.

(** nipnext.c 121-149: filtering; for every series a line for the posterior at the
    last step, if there is one.  The texts on stderr are left out, and with them the
    average of the log-likelihoods. *)
Fixpoint next_all (show : Qc -> list ascii) (n : nat) (m : model) (ss : list series) (v : nat) (out : list ascii)
  : res (list ascii) :=
  match ss with
  | [] => Ok out
  | ts :: r =>
      let* (m, results, _) := forward_inference m (to_ts ts) [v] true in
      let* p := get_posterior (mkUCS [v] results) v (Z.of_nat (len results) - 1) in
      let* out := match p with Some p => print_logs show n p out | None => Ok out end in
      next_all show n m r v out
  end.

(** main, nipnext.c 48-161: the status and the standard output. *)
Definition nipnext (show : Qc -> list ascii) (k1 k2 : list pvar -> list nat -> Z) (g : globals)
    (net_file data_file : option (list ascii)) (symbol : string)
  : res (Z * list ascii) :=
  let* r := read_inputs k1 k2 g net_file data_file in
  match r with
  | None => Ok ((-1)%Z, [])
  | Some (names, m, ss) =>
      let* v := model_variable names symbol in
      match v with
      | None => Ok ((-1)%Z, [])
      | Some v =>
          let* nv := rd names v in
          let* header := write_state_names names v (nv_card nv) [] in
          let* m := mark_all m in
          let* out := next_all show (nv_card nv) m ss v header in
          Ok (0%Z, out)
      end
  end.

(** ** util/nipconvert.c *)

(** nipconvert.c 144-166: one time step. *)
Definition write_unary_row (n : nat) (row : list Z) (out : list ascii) : res (list ascii) :=
  let* d := rd row 0 in
  let* record :=
    if ((0 <=? d)%Z && (d <? Z.of_nat n)%Z)%bool then wr (repeat false n) (Z.to_nat d) true
    else Ok (repeat false n) in
  let* out :=
    for_up 0 n
      (fun i out =>
         let* b := rd record i in
         Ok (separated i out ++ str (if (b : bool) then "1" else "0")))
      out in
  Ok (out ++ NL).

(** write_unary_timeseries, nipconvert.c 57-179, for series of the same model.
    The data of a series are NULL if nothing is observed. *)
Definition write_unary_timeseries (opened closed : bool) (names : list named_variable)
    (ss : list series) : res (option (list ascii) * code) :=
  match ss with
  | [] => Ok (None, EINVAL)
  | ts :: r =>
      let* (observed, n_observed) :=
        variable_union (array_ref (s_observed ts)) None (len names - len (s_hidden ts)) 0 in
      if (n_observed <? 0)%Z then Ok (None, GENERAL)
      else
        let* (observed, n_observed) := observed_union (len names) r observed n_observed in
        if (n_observed <? 1)%Z then Ok (None, EINVAL)
        else
          match observed with
          | None => UB
          | Some observed =>
              let* v := rd observed 0 in
              let* nv := rd names v in
              let n := nv_card nv in
              if negb opened then Ok (None, EIO)
              else
                let* out := write_state_names names v n [] in
                let* out :=
                  for_up 0 (len ss)
                    (fun s out =>
                       let* ts := rd ss s in
                       let* out :=
                         for_up 0 (s_length ts)
                           (fun t out => let* row := rd (s_data ts) t in write_unary_row n row out)
                           out in
                       Ok (out ++ NL))
                    out in
                Ok (Some out, if closed then NO_ERROR else EIO)
          end
  end.

(** main, nipconvert.c 182-264, for the formats univariate and unary.  The
    status is 0 only if the file was written. *)
Definition nipconvert (k1 k2 : list pvar -> list nat -> Z) (g : globals)
    (net_file data_file : option (list ascii)) (opened closed : bool) : res finished :=
  let* r := read_inputs k1 k2 g net_file data_file in
  match r with
  | None => Ok failed
  | Some (names, m, ss) =>
      let* (f, e) := write_unary_timeseries opened closed names ss in
      Ok (mkFinished (if is_err e then -1 else 0) f)
  end.
