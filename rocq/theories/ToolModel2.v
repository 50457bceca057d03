(** * Model of the programs util/niplikelihood.c and util/nipsample.c

    As in ToolModel.v. *)
From Coq Require Import String Ascii.
From Verif Require Import Base PotentialModel VariableModel JoinTreeModel NipModel SliceModel LearnModel
  StringModel SeriesFileModel GraphModel ParseModel NetLexModel NetGrammarModel WriteModel ToolModel.
Import ListNotations.
Open Scope nat_scope.
Local Open Scope res_scope.
Local Notation len := List.length.

(** ** util/niplikelihood.c *)

(** niplikelihood.c 118-132: one time step; the masses m1 and m2, which are
    printed with log(m2) - log(m1). *)
Definition likelihood_step (ts : time_series) (t : nat) (m : model) : res (model * (Qc * Qc)) :=
  let* (m, _) := insert_ts_step ts (Z.of_nat t) m MARK_OFF in
  let* m := make_consistent_model m in
  let* (m, m1) := model_prob_mass m in
  let* (m, _) := insert_ts_step ts (Z.of_nat t) m MARK_ON in
  let* m := make_consistent_model m in
  let* (m, m2) := model_prob_mass m in
  let* m := reset_model m in
  let* m := use_priors m true in
  Ok (m, (m1, m2)).

(** niplikelihood.c 111-135: the loop over the series. *)
Fixpoint likelihood_all (m : model) (ss : list series) : res (list (list (Qc * Qc))) :=
  match ss with
  | [] => Ok []
  | ts :: r =>
      let* m := reset_model m in
      let* m := use_priors m false in
      let* (m, l) :=
        for_up 0 (s_length ts)
          (fun t '(m, l) => let* (m, x) := likelihood_step (to_ts ts) t m in Ok (m, l ++ [x]))
          (m, []) in
      let* ls := likelihood_all m r in
      Ok (l :: ls)
  end.

(** niplikelihood.c 92-108: unknown symbols are ignored. *)
Fixpoint mark_asked (names : list named_variable) (m : model) (symbols : list string) : res model :=
  match symbols with
  | [] => Ok m
  | s :: r =>
      let* v := model_variable names s in
      match v with
      | None => mark_asked names m r
      | Some v => let* m := mark_var m v MARK_ON in mark_asked names m r
      end
  end.

(** main, niplikelihood.c 53-144: the status, and for each series the numbers of
    each step.  Simplified: the numbers instead of their decimals. *)
Definition niplikelihood (k1 k2 : list pvar -> list nat -> Z) (g : globals)
    (net_file data_file : option (list ascii)) (symbols : list string)
  : res (Z * list (list (Qc * Qc))) :=
  let* r := read_inputs k1 k2 g net_file data_file in
  match r with
  | None => Ok ((-1)%Z, [])
  | Some (names, m, ss) =>
      let* m := for_up 0 (len (m_vars m)) (fun i m => mark_var m i MARK_OFF) m in
      let* m := mark_asked names m symbols in
      let* l := likelihood_all m ss in
      Ok (0%Z, l)
  end.

(** ** util/nipsample.c *)

(** nipsample.c 117-128: [rnd i] are the random numbers for the i-th series.  No
    variable is hidden in a series of generate_data (nip.c 2408-2413). *)
Fixpoint sample_all (fuel : nat) (m : model) (count length_ i : nat) (rnd : nat -> nat -> nat -> Qc)
  : res (list series) :=
  match count with
  | O => Ok []
  | S count' =>
      let* (m, ts) := generate_data fuel m length_ (rnd i) in
      let* l := sample_all fuel m count' length_ (i + 1) rnd in
      Ok (mkSeries [] (ts_observed ts) length_ (ts_data ts) :: l)
  end.

(** main, nipsample.c 48-148, for valid numbers [count] and [length_]; [fuel]
    is for the loop that orders the variables.  The output file can be opened. *)
Definition nipsample (fuel : nat) (k1 k2 : list pvar -> list nat -> Z) (g : globals)
    (net_file : option (list ascii)) (count length_ : nat) (rnd : nat -> nat -> nat -> Qc) : res finished :=
  match net_file with
  | None => Ok failed
  | Some net_text =>
      let* r := parse_file k1 k2 g net_text in
      match r with
      | None => Ok failed
      | Some (names, m, _, _, _) =>
          let* ss := sample_all fuel m count length_ 0 rnd in
          let* (f, e) := write_timeseries names ss in
          Ok (mkFinished (if is_err e then -1 else 0) f)
      end
  end.
