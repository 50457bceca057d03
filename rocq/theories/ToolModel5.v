(** * Model of the program util/nipbenchmark.c

    As in ToolModel3.v.  Log-likelihoods are represented by their exponentials.
    When series [i] is left out, [growth i] is exp(threshold * steps) and [low i]
    is exp(min_log_likelihood * steps), where steps is the number of time steps of
    the other series; [tiny] is exp(-DBL_MAX).  [rnd i k]: the random numbers of
    attempt [k] for series [i].  All six arguments are given. *)
From Coq Require Import String Ascii.
From Verif Require Import Base PotentialModel VariableModel JoinTreeModel NipModel SliceModel LearnModel
  StringModel SeriesFileModel GraphModel ParseModel NetLexModel NetGrammarModel WriteModel ToolModel.
Import ListNotations.
Open Scope nat_scope.
Local Open Scope res_scope.
Local Notation len := List.length.

(** MAX_ITER, nipbenchmark.c 45. *)
Definition MAX_ITER : Z := 1024.

(** nipbenchmark.c 171-177: the array of the other series. *)
Definition leave_one_out (ts_set : list series) (i : nat) (loo_set : list (option series)) : res (list (option series)) :=
  for_up 0 (len ts_set)
    (fun j loo_set =>
       let* ts := rd ts_set j in
       let* loo_set := if Nat.ltb j i then wr loo_set j (Some ts) else Ok loo_set in
       if Nat.ltb i j then wr loo_set (j - 1) (Some ts) else Ok loo_set)
    loo_set.
(** The array as em_learn reads it: a NULL would be followed. *)
Fixpoint no_null (l : list (option series)) : res (list series) :=
  match l with
  | [] => Ok []
  | None :: _ => UB
  | Some ts :: l => let* l := no_null l in Ok (ts :: l)
  end.

(** nipbenchmark.c 183-214: learning from the other series until they are
    probable enough; [last] is 1 (the exponential of 0) if the learning curve is
    empty, and the curve is emptied before each attempt.  Any code except NO_ERROR
    and BAD_LUCK ends the program with status -1 ([None], lines 195-207). *)
Fixpoint attempts (fuel : nat) (ts : list time_series) (growth tiny low : Qc) (rnd : nat -> nat -> nat -> Qc)
    (k : nat) (m : model) : res (option model) :=
  match fuel with
  | O => NoFuel
  | S fuel' =>
      let* (m, o) := em_learn m ts (Some (rnd k)) MAX_ITER growth tiny [] in
      match o_code o with
      | NO_ERROR | BAD_LUCK =>
          let last := last (o_curve o) 1%Qc in
          if (match o_code o with BAD_LUCK => true | _ => false end || Qc_ltb last low)%bool
          then attempts fuel' ts growth tiny low rnd (k + 1) m
          else Ok (Some m)
      | _ => Ok None
      end
  end.

(** nipbenchmark.c 169-230: the series [is]; the results and the masses of the
    steps (as in [infer_all] of ToolModel.v). *)
Fixpoint benchmark (fuel : nat) (ts_set : list series) (growth : nat -> Qc) (tiny : Qc) (low : nat -> Qc)
    (rnd : nat -> nat -> nat -> nat -> Qc) (v : nat) (is : list nat) (loo_set : list (option series)) (m : model)
  : res (option (list uncertain_series * list (list (Qc * Qc)))) :=
  match is with
  | [] => Ok (Some ([], []))
  | i :: is =>
      let* loo_set := leave_one_out ts_set i loo_set in
      let* m := mark_all m in
      let* others := no_null loo_set in
      let* r := attempts fuel (map to_ts others) (growth i) tiny (low i) (rnd i) 0 m in
      match r with
      | None => Ok None
      | Some m =>
          let* ts := rd ts_set i in
          let* m := mark_var m v MARK_OFF in
          let* (m, results, ll) := forward_backward_inference m (to_ts ts) [v] true in
          let* r := benchmark fuel ts_set growth tiny low rnd v is loo_set m in
          Ok (match r with None => None | Some (l, lls) => Some (mkUCS [v] results :: l, ll :: lls) end)
      end
  end.

(** main, nipbenchmark.c 51-253.  [valid_numbers]: the threshold is in (0, 1] and
    the minimum likelihood below 0 (lines 116-142). *)
Definition nipbenchmark (fuel : nat) (k1 k2 : list pvar -> list nat -> Z) (g : globals)
    (net_file data_file : option (list ascii)) (valid_numbers : bool) (growth : nat -> Qc) (tiny : Qc) (low : nat -> Qc)
    (symbol : string) (rnd : nat -> nat -> nat -> nat -> Qc) (opened closed : bool)
  : res (finished * list (list (Qc * Qc))) :=
  let* r := read_inputs k1 k2 g net_file data_file in
  match r with
  | None => Ok (failed, [])
  | Some (names, m, ts_set) =>
      let n_max := len ts_set in
      if Nat.ltb n_max 2 then Ok (failed, [])
      else if negb valid_numbers then Ok (failed, [])
      else
        let* v := model_variable names symbol in
        match v with
        | None => Ok (failed, [])
        | Some v =>
            let* r := benchmark fuel ts_set growth tiny low rnd v (seq 0 n_max) (repeat None (n_max - 1)) m in
            match r with
            | None => Ok (failed, [])
            | Some (ucs_set, lls) =>
                let* (f, _) := write_uncertainseries opened closed names ucs_set v in
                Ok (mkFinished 0 f, lls)
            end
        end
  end.
