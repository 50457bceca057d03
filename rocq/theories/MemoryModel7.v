(** * Model of the memory of two more programs (util/nipbenchmark.c and
    util/nipconvert.c)

    As in MemoryModel6.v. *)
From Coq Require Import String Ascii.
From Verif Require Import Base VariableModel NipModel SeriesFileModel ParseModel MemoryModel MemoryModel2 MemoryModel3 MemoryModel4 MemoryModel5 MemoryModel6.
Import ListNotations.
Open Scope nat_scope.
Local Open Scope list_scope.
Local Open Scope res_scope.
Local Notation len := List.length.

(** ** nipbenchmark *)

(** nipbenchmark.c 171-177: the series without number [i]. *)
Definition leave_one_out (m : memory) (set loo : option nat) (n i : nat) : res memory :=
  for_up 0 n (fun j m =>
    let* m := if Nat.ltb j i then let* y := ptr m set j in store m loo j (P y) else Ok m in
    if Nat.ltb i j then let* y := ptr m set j in store m loo (j - 1) (P y) else Ok m) m.

(** nipbenchmark.c 183-214: calls of em_learn until one is good enough.  Nothing is
    written in between.  [false]: an error that is not NIP_ERROR_BAD_LUCK. *)
Fixpoint attempts (m : memory) (x loo : option nat) (nobs : list nat) (nvars : nat) (out : list nat)
    (families : nat -> list nat) (curve : mlist) (l : list batch) : res (memory * mlist * bool) :=
  match l with
  | [] => Ok (m, curve, true)
  | b :: l =>
      let* (m, curve) := match b_nodes curve with [] => Ok (m, curve) | _ => empty_curve m curve end in
      let* vars := variables_at m x (seq 0 nvars) in
      let* outs := variables_at m x out in
      let* ts := series_at m loo 0 nobs in
      let* (m, e) := em_learn m ts vars outs families (b_random b) (b_search b) (b_first b :: b_others b) in
      let* (m, curve) := grow m curve (b_values b) in
      match e with
      | Failed => Ok (m, curve, false)
      | _ => attempts m x loo nobs nvars out families curve l
      end
  end.

(** The numbers of observed variables of the series without number [i]. *)
Definition others (nobs : list nat) (i : nat) : list nat := firstn i nobs ++ skipn (S i) nobs.

(** nipbenchmark.c 169-230: round [i] and those after it, [k] in all.  [Some i]: an
    error in round [i]. *)
Fixpoint rounds (k : nat) (i : nat) (m : memory) (x set results loo : option nat) (n : nat) (nobs : list nat) (nvars : nat)
    (out : list nat) (v : option nat) (families : nat -> list nat) (plan : nat -> list batch) (w : nat -> nat -> nat -> list nat)
    (curve : mlist) : res (memory * mlist * option nat) :=
  match k with
  | O => Ok (m, curve, None)
  | S k =>
      let* m := leave_one_out m set loo n i in
      let* m := mark_variables m x in
      let* (m, curve, ok) := attempts m x loo (others nobs i) nvars out families curve (plan i) in
      if (ok : bool)
      then
        let* y := ptr m set i in
        let* _ := num m v V_id in (* nip_unmark_variable *)
        let* outs := variables_at m x out in
        let* (m, u) := forward_backward_inference m y [v] outs (w i) in
        let* m := store m results i (P u) in
        let* _ := num m y Y_length in
        rounds k (S i) m x set results loo n nobs nvars out v families plan w curve
      else Ok (m, curve, Some i)
  end.

(** main, nipbenchmark.c 51-253; [valid]: the threshold and the likelihood are
    accepted; [plan i]: the calls of em_learn in round [i].  [Some i] beside the
    memory: learning failed in round [i]. *)
Definition nipbenchmark_memory (m : memory) (x : option nat) (names : list named_variable) (M : NipModel.model)
    (data : option (list ascii)) (name : nat) (series : list SeriesFileModel.series) (valid : bool) (symbol : string)
    (families : nat -> list nat) (plan : nat -> list batch) (w : nat -> nat -> nat -> list nat) (opened : bool)
  : res (memory * option nat) :=
  let* (m, set, n) := mem_read_timeseries m names name data in
  if Nat.ltb n 2 then let* m := free_model m x in Ok (m, None)
  else
    let '(m, results) := calloc m (P None) n in
    let '(m, loo) := calloc m (P None) (n - 1) in
    let* v := if (valid : bool) then m_model_variable m x names symbol else Ok None in
    match v with
    | None =>
        let* m := free_series m set n in
        let* m := free m (Some results) in
        let* m := free m (Some loo) in
        let* m := free_model m x in
        Ok (m, None)
    | Some _ =>
        let '(m, curve) := m_list m None in
        let* nvars := num m x M_nvars in
        let* (m, curve, failed) := rounds n 0 m x set (Some results) (Some loo) n (map (fun ts => len (s_observed ts)) series) nvars
                                     (m_out M) v families plan w curve in
        match failed with
        | Some i =>
            let* m := free_series m set n in
            let* m := free m (Some results) in
            let* m := free m (Some loo) in
            let* m := free_model m x in
            let* (m, curve) := empty_curve m curve in
            let* m := m_drop m curve in
            Ok (m, Some i)
        | None =>
            let* m := m_write_uncertainseries m (Some results) n v opened in
            let* (m, curve) := match b_nodes curve with [] => Ok (m, curve) | _ => empty_curve m curve end in
            let* m := m_drop m curve in
            let* m := for_up 0 n (fun i m =>
              let* y := ptr m set i in
              let* m := free_timeseries m y in
              let* u := ptr m (Some results) i in
              free_uncertainseries m u) m in
            let* m := free m set in
            let* m := free m (Some results) in
            let* m := free m (Some loo) in
            let* m := free_model m x in
            Ok (m, None)
        end
    end.

(** ** nipconvert *)

(** The variables that are observed in one of the first [n] series. *)
Definition observed_in (series : list SeriesFileModel.series) (n : nat) : list nat :=
  nodup Nat.eq_dec (flat_map s_observed (firstn n series)).
(** The array that nip_variable_union returns (nipvariable.c 446-503): NULL for the
    empty union. *)
Definition union_array (m : memory) (k : nat) : memory * option nat :=
  match k with
  | O => (m, None)
  | _ => let '(m, a) := calloc m (P None) k in (m, Some a)
  end.

(** write_unary_timeseries, nipconvert.c 59-177: that the values ts->data[t][0]
    (lines 152-154) exist is in C78; they are not read here. *)
Definition write_unary (m : memory) (x set : option nat) (series : list SeriesFileModel.series) (opened : bool) : res memory :=
  let n := len series in
  if Nat.eqb n 0 then Ok m
  else
    let* y := ptr m set 0 in
    let* _ := ptr m y Y_observed in
    let '(m, observed) := union_array m (len (observed_in series 1)) in
    let* (m, observed) := for_up 1 n (fun s (st : memory * option nat) =>
      let '(m, observed) := st in
      let* y := ptr m set s in
      let* _ := ptr m y Y_observed in
      let '(m, more) := union_array m (len (observed_in series (s + 1))) in
      let* m := free m observed in
      Ok (m, more)) (m, observed) in
    match flat_map s_observed (firstn n series) with (* observed[0] *)
    | [] => Ok m
    | first :: _ =>
        let* v := variable_at m x first in
        let* c := num m v V_card in
        let '(m, record) := calloc m (N 0) c in
        let* m := if (opened : bool) then
            for_up 0 n (fun s m => let* y := ptr m set s in let* _ := num m y Y_length in Ok m) m
          else Ok m in
        let* m := free m observed in
        free m (Some record)
    end.

(** main, nipconvert.c 180-264; [formats]: both formats are known. *)
Definition nipconvert_memory (m : memory) (x : option nat) (names : list named_variable)
    (data : option (list ascii)) (name : nat) (series : list SeriesFileModel.series) (formats opened : bool) : res memory :=
  if negb formats then free_model m x
  else
    let* (m, set, n) := mem_read_timeseries m names name data in
    if Nat.ltb n 1 then free_model m x
    else
      let* m := write_unary m x set series opened in
      let* m := free_series m set n in
      free_model m x.

(** As [with_model] of MemoryModel6.v, for a program with a further result. *)
Definition with_model_and {A : Type} (k1 k2 : list pvar -> list nat -> Z) (g : globals) (s : source)
    (main : memory -> option nat -> list named_variable -> NipModel.model -> res A) : res (option A) :=
  let* r := m_parse_model k1 k2 g s in
  match r with
  | None => Ok None
  | Some (m, x, names, M, _) => let* a := main m x names M in Ok (Some a)
  end.
