(** * Model of numbers given as arguments of nipsample, niptrain and nipbenchmark *)
From Coq Require Import String Ascii QArith_base.
From Verif Require Import Base PotentialModel VariableModel JoinTreeModel NipModel StringModel GraphModel ParseModel NetLexModel NetGrammarModel
  SliceModel SeriesFileModel LearnModel CostModel SeedSpec SeedModel ToolModel ToolModel2 ArgumentSpec.
Import ListNotations.
Open Scope nat_scope.
Local Open Scope res_scope.

(** strtod of <stdlib.h> as in NetLexModel.v, with the kinds of values that are no
    numbers. *)
Definition strtod_full (s : list ascii) : option double :=
  match strtod s with
  | None => None
  | Some (Finite q) => Some (D_number q)
  | Some NonFinite =>
      let '(neg, t) := read_sign (skip_space s) in
      Some (if prefix_nocase (str "inf") t then D_infinite neg else D_nan)
  end.

(** Comparisons of a double [d] with a number [x]: d <= x, d > x and d >= x.  None holds
    of what is not a number. *)
Definition double_le (d : double) (x : Q) : bool :=
  match d with D_number q => Qle_bool q x | D_infinite neg => neg | D_nan => false end.
Definition double_gt (d : double) (x : Q) : bool :=
  match d with D_number q => negb (Qle_bool q x) | D_infinite neg => negb neg | D_nan => false end.
Definition double_ge (d : double) (x : Q) : bool :=
  match d with D_number q => Qle_bool x q | D_infinite neg => negb neg | D_nan => false end.

(** [(int) d]: undefined unless an int holds what is left without the fraction. *)
Definition double_to_int (d : double) : res Z :=
  match d with
  | D_number q => int_of (Z.quot (Qnum q) (Zpos (Qden q)))
  | _ => UB
  end.

(** nipsample.c 92-98, and 101-107: an amount; [None]: rejected.  Without conversion
    strtod returns 0. *)
Definition read_amount (argument : list ascii) : res (option Z) :=
  let r := strtod_full argument in
  let d := match r with Some d => d | None => D_number 0 end in
  let* n := double_to_int d in
  if (double_le d 0 || double_gt d (inject_Z 1000000) || match r with None => true | _ => false end)%bool
  then Ok None else Ok (Some n).

(** main, nipsample.c 48-149: [argv] without the name of the program; [disk]: the
    contents of the files; [generator u]: the random numbers after srand(u).  The
    loops (117-128) run for nonnegative numbers, which they are here.  The output
    file can be opened. *)
Definition nipsample_main (fuel : nat) (k1 k2 : list pvar -> list nat -> Z) (g : globals)
    (disk : list ascii -> option (list ascii)) (generator : Z -> nat -> nat -> nat -> Qc)
    (pid : Z) (now : time_of_day) (argv : list (list ascii)) : res finished :=
  match argv with
  | net :: seed :: count :: length_ :: out :: _ =>
      match disk net with
      | None => Ok failed
      | Some net_text =>
          let* r := parse_file k1 k2 g net_text in
          match r with
          | None => Ok failed
          | Some (names, m, _, _, _) =>
              let* s := nipsample_seed seed pid now in
              match s with
              | None => Ok failed
              | Some (_, u) =>
                  let* n := read_amount count in
                  match n with
                  | None => Ok failed
                  | Some n =>
                      let* t := read_amount length_ in
                      match t with
                      | None => Ok failed
                      | Some t =>
                          let* ss := sample_all fuel m (Z.to_nat n) (Z.to_nat t) 0 (generator u) in
                          let* (f, e) := write_timeseries names ss in
                          Ok (mkFinished (if is_err e then -1 else 0) f)
                      end
                  end
              end
          end
      end
  | _ => Ok (mkFinished 0 None)
  end.

(** niptrain.c 158-166 and nipbenchmark.c 117-127: the threshold.  [None]: rejected. *)
Definition read_threshold (argument : list ascii) : option double :=
  match strtod_full argument with
  | None => None
  | Some d => if (double_le d 0 || double_gt d 1)%bool then None else Some d
  end.

(** niptrain.c 170-179 and nipbenchmark.c 131-142: the lowest log-likelihood. *)
Definition read_lowest (argument : list ascii) : option double :=
  match strtod_full argument with
  | None => None
  | Some d => if double_ge d 0 then None else Some d
  end.

(** niptrain.c 182-187: the number of iterations. *)
Definition read_iterations (argument : list ascii) : Z :=
  match strtol argument with
  | None => LONG_MAX
  | Some z => z
  end.
