(** * Model of util/nipjoint.c

    The standard output is modelled up to the table; the two masses that are
    printed after it are numbers.  The release of memory at the end is
    [release] below, on the memory of MemoryModel.v. *)
From Coq Require Import String Ascii.
From Verif Require Import Base StringModel PotentialModel VariableModel JoinTreeModel NipModel SliceModel LearnModel GatherModel SeriesFileModel
  ParseModel NetLexModel NetGrammarModel WriteModel ToolModel.
From Verif Require MemoryModel.
Import ListNotations.
Open Scope nat_scope.
Local Open Scope res_scope.
Local Notation len := List.length.

(** NIP_MARK_BOTH, nipvariable.h 39. *)
Definition MARK_BOTH : nat := Nat.lor MARK_OFF MARK_ON.

(** nip_fprintf_potential, nippotential.c 548-566. *)
Definition fprintf_potential (p : potential) (out : list ascii) : res (list ascii) :=
  if Nat.eqb (dimensionality p) 0 then
    let* q := rd (data p) 0 in
    Ok (out ++ str "P(0) = " ++ print_f q ++ NL)
  else
    for_up 0 (size_of_data p)
      (fun big_index out =>
         let* temp := inverse_mapping p big_index (temp_index p) in
         let out := out ++ str "P(" in
         let* out :=
           for_up 0 (dimensionality p)
             (fun i out =>
                let* x := rd temp i in
                let out := out ++ print_d (Z.of_nat x) in
                Ok (if Nat.ltb i (dimensionality p - 1) then out ++ str ", " else out))
             out in
         let* q := rd (data p) big_index in
         Ok (out ++ str ") = " ++ print_f q ++ NL))
      out.

(** nipjoint.c 87-100: the variables given by their symbols ([None]: one of them
    is unknown). *)
Fixpoint joint_named (names : list named_variable) (symbols : list string) : res (option (list nat)) :=
  match symbols with
  | [] => Ok (Some [])
  | s :: r =>
      let* v := model_variable names s in
      match v with
      | None => Ok None
      | Some v =>
          let* l := joint_named names r in
          Ok (match l with Some l => Some (v :: l) | None => None end)
      end
  end.

(** nipjoint.c 84-113: the variables. *)
Definition joint_variables (names : list named_variable) (ts : series) (symbols : list string)
  : res (option (list nat)) :=
  match symbols with
  | _ :: _ => joint_named names symbols
  | [] =>
      if Nat.ltb 0 (len (s_hidden ts)) then Ok (Some (s_hidden ts))
      else let* v := rd (s_observed ts) 0 in Ok (Some [v])
  end.

(** nipjoint.c 121-127: the heading.  There is at least one variable. *)
Definition write_joint_head (names : list named_variable) (vars : list nat) (out : list ascii)
  : res (list ascii) :=
  match len vars with
  | O => UB (* vars[-1] *)
  | S n =>
      let out := out ++ str "P(" in
      let* out :=
        for_up 0 n
          (fun i out =>
             let* v := rd vars i in
             let* s := symbol_text names v in
             Ok (out ++ s ++ str ", "))
          out in
      let* v := rd vars n in
      let* s := symbol_text names v in
      Ok (out ++ s ++ str ") equals: " ++ NL)
  end.

(** main, nipjoint.c 48-153, up to the release of memory: the status, the output
    up to the table and the masses m1 and m2 (none if the program ends before). *)
Definition nipjoint (k1 k2 : list pvar -> list nat -> Z) (g : globals)
    (net_file data_file : option (list ascii)) (symbols : list string)
  : res (Z * list ascii * option (Qc * Qc)) :=
  let out := str "nipjoint:" ++ NL in
  match net_file with
  | None => Ok ((-1)%Z, out, None)
  | Some net_text =>
      let* r := parse_file k1 k2 g net_text in
      match r with
      | None => Ok ((-1)%Z, out, None)
      | Some (names, m, _, _, _) =>
          let* m := use_priors m false in
          match data_file with
          | None => Ok ((-1)%Z, out, None)
          | Some data_text =>
              let* l := read_timeseries names data_text in
              match l with
              | None | Some [] => Ok ((-1)%Z, out, None)
              | Some (ts :: _) =>
                  let* m := make_consistent_model m in
                  let* (m, m1) := model_prob_mass m in
                  let* (m, _) := insert_ts_step (to_ts ts) 0 m MARK_BOTH in
                  let* m := make_consistent_model m in
                  let* (m, m2) := model_prob_mass m in
                  let* vars := joint_variables names ts symbols in
                  match vars with
                  | None => Ok ((-1)%Z, out, None)
                  | Some vars =>
                      let* (m, result) := get_joint_probability m vars in
                      let* out := write_joint_head names vars out in
                      match result with
                      | None => UB (* nip_fprintf_potential(stdout, NULL) *)
                      | Some result =>
                          let* out := fprintf_potential result out in
                          Ok (0%Z, out, Some (m1, m2))
                      end
                  end
              end
          end
      end
  end.

(** nipjoint.c 84-113 and 134-140: [named] tells whether the variables were given
    by their symbols, so that [vars] is an array of its own, of [n] pointers;
    otherwise it is the array of the [hidden] hidden variables or that of the
    observed variables of the first series.  (The table, the other series and the
    model are left out.) *)
Definition joint_array (m : MemoryModel.memory) (named : bool) (n hidden : nat) (ts : option nat)
  : res (MemoryModel.memory * option nat) :=
  if named then
    let '(m, a) := MemoryModel.calloc m (MemoryModel.P None) n in Ok (m, Some a)
  else if Nat.ltb 0 hidden then
    let* a := MemoryModel.ptr m ts MemoryModel.Y_hidden in Ok (m, a)
  else
    let* a := MemoryModel.ptr m ts MemoryModel.Y_observed in Ok (m, a).
Definition joint_release (m : MemoryModel.memory) (vars : option nat) (ts : option nat)
  : res MemoryModel.memory :=
  let* m := MemoryModel.free m vars in
  MemoryModel.free_timeseries m ts.
