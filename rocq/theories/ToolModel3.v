(** * Model of the program util/niptrain.c

    As in ToolModel.v.  Log-likelihoods are represented by their exponentials:
    [growth] is exp(threshold * steps), [low] is exp(min_log_likelihood * steps),
    where steps is the number of time steps of all series, and [tiny] is
    exp(-DBL_MAX).  [rnd n k v i]: the random numbers of batch k in run n.  The
    output file can always be written. *)
From Coq Require Import String Ascii.
From Verif Require Import Base PotentialModel VariableModel JoinTreeModel NipModel SliceModel LearnModel
  StringModel SeriesFileModel GraphModel ParseModel NetLexModel NetGrammarModel WriteModel ToolModel.
Import ListNotations.
Open Scope nat_scope.
Local Open Scope res_scope.
Local Notation len := List.length.

(** BATCH_ITERATIONS, niptrain.c 56. *)
Definition BATCH_ITERATIONS : Z := 32.

(** What a run leaves behind: the model, the learning curve, the stopping
    criterion ([None] is LIKELIHOOD), the code of the last em_learn and the contents of the file. *)
Record run_state := mkRun {
  r_model : model;
  r_curve : list Qc;
  r_criterion : option convergence;
  r_code : code;
  r_file : option (list ascii)
}.

(** niptrain.c 205-246: the batches of one run, from batch [k] on with [left]
    iterations left.  Any code except NO_ERROR and BAD_LUCK ends the program
    (lines 212-222). *)
Fixpoint train_run (fuel : nat) (names : list named_variable) (pages : list page) (size : Z * Z)
    (ts : list time_series) (growth tiny : Qc) (rnd : nat -> nat -> nat -> Qc)
    (k : nat) (left : Z) (have_random_init : bool) (m : model) (learning_curve : list Qc)
    (stopping_criterion : option convergence) : res run_state :=
  match fuel with
  | O => NoFuel
  | S fuel' =>
      let current := if (BATCH_ITERATIONS <? left)%Z then BATCH_ITERATIONS else left in
      let* (m, o) := em_learn m ts (if have_random_init then Some (rnd k) else None) current growth tiny learning_curve in
      let stopping_criterion := match o_criterion o with Some c => Some c | None => stopping_criterion end in
      match o_code o with
      | NO_ERROR | BAD_LUCK =>
          let left := (left - current)%Z in
          let* (m, text, _) := write_model true true names pages size m in
          let have_random_init := match stopping_criterion with Some ITERATIONS => false | _ => have_random_init end in
          let left := match stopping_criterion with Some DELTA => 0%Z | _ => left end in
          if (0 <? left)%Z then
            train_run fuel' names pages size ts growth tiny rnd (k + 1) left have_random_init m (o_curve o) stopping_criterion
          else Ok (mkRun m (o_curve o) stopping_criterion (o_code o) text)
      | e => Ok (mkRun m (o_curve o) stopping_criterion e None)
      end
  end.

(** niptrain.c 192-264: the runs; [last] is 1 (the exponential of 0) if the
    learning curve is empty. *)
Fixpoint train_runs (fuel batches : nat) (names : list named_variable) (pages : list page) (size : Z * Z)
    (ts : list time_series) (growth tiny low : Qc) (rnd : nat -> nat -> nat -> nat -> Qc) (max_iterations : Z)
    (n : nat) (have_random_init : bool) (m : model) (stopping_criterion : option convergence) : res run_state :=
  match fuel with
  | O => NoFuel
  | S fuel' =>
      let* r := train_run batches names pages size ts growth tiny (rnd n) 0 max_iterations have_random_init m []
                  stopping_criterion in
      match r_code r with
      | NO_ERROR | BAD_LUCK =>
          let last := last (r_curve r) 1%Qc in
          if (match r_code r with BAD_LUCK => true | _ => false end || Qc_ltb last low)%bool
          then train_runs fuel' batches names pages size ts growth tiny low rnd max_iterations (n + 1) true
                 (r_model r) (r_criterion r)
          else Ok r
      | _ => Ok r
      end
  end.

(** main, niptrain.c 73-293, for valid arguments: [randomise] if the third one is
    a number.  The status, the contents of the file and the learning curve that
    is printed. *)
Definition niptrain (fuel batches : nat) (k1 k2 : list pvar -> list nat -> Z) (g : globals)
    (net_file data_file : option (list ascii)) (randomise : bool) (growth tiny low : Qc) (max_iterations : Z)
    (rnd : nat -> nat -> nat -> nat -> Qc) : res (Z * option (list ascii) * list Qc) :=
  match net_file with
  | None => Ok ((-1)%Z, None, [])
  | Some net_text =>
      let* l := load k1 k2 g net_text in
      match l, data_file with
      | None, _ => Ok ((-1)%Z, None, [])
      | _, None => Ok ((-1)%Z, None, [])
      | Some (names, pages, size, m, _), Some data_text =>
          let* d := read_timeseries names data_text in
          match d with
          | None | Some [] => Ok ((-1)%Z, None, [])
          | Some ((s :: _) as ss) =>
              if Nat.eqb (len (s_observed s)) 0 then Ok ((-1)%Z, None, [])
              else
                let* m := mark_all m in
                let* r := train_runs fuel batches names pages size (map to_ts ss) growth tiny low rnd max_iterations 1
                            randomise m None in
                match r_code r with
                | NO_ERROR =>
                    let* (_, text, e) := write_model true true names pages size (r_model r) in
                    if is_err e then Ok ((-1)%Z, r_file r, r_curve r) else Ok (0%Z, text, r_curve r)
                | _ => Ok ((-1)%Z, r_file r, [])
                end
          end
      end
  end.
