(** * Model of the memory of joint probabilities and of nipjoint
    (src/nipjointree.c 1164-1366, src/nip.c 2323-2344, util/nipjoint.c)

    As MemoryModel5.v and MemoryModel6.v: only blocks and pointers, numbers decide
    through arguments, allocation succeeds. *)
From Coq Require Import String Ascii.
From Verif Require Import Base VariableModel NipModel SeriesFileModel ParseModel MemoryModel MemoryModel2 MemoryModel3 MemoryModel4 MemoryModel5 MemoryModel6 MemorySpec8.
Import ListNotations.
Open Scope nat_scope.
Local Open Scope list_scope.
Local Open Scope res_scope.
Local Notation len := List.length.

(** An array of ints that may be NULL (nip_mapper, nipvariable.c 560-589). *)
Definition m_mapper (m : memory) (size : option nat) : memory * option nat :=
  match size with
  | Some n => let '(m, a) := calloc m (N 0) n in (m, Some a)
  | None => (m, None)
  end.

(** The release on most errors, e.g. nipjointree.c 1239-1241. *)
Definition m_give_up (m : memory) (cardinality prod_vars prod : option nat) : res memory :=
  let* m := free m cardinality in
  let* m := free m prod_vars in
  free_potential m prod.

(** nip_gather_joint_probability, nipjointree.c 1164-1366, and its loop over the
    neighbours, 1259-1324 ([false]: it returned NULL).  [None]: NULL. *)
Fixpoint m_gather (m : memory) (v : visit) : res (memory * option nat) :=
  match v with
  | No_variables => new_potential m []
  | Visit product mapping first_fails neighbours result sum_fails =>
      let '(m, a) := calloc m (P None) (len product) in
      let prod_vars := Some a in
      let '(m, c) := calloc m (N 0) (len product) in
      let cardinality := Some c in
      let* (m, prod) := new_potential m product in
      let '(m, map) := m_mapper m mapping in
      match map with
      | None => let* m := m_give_up m cardinality prod_vars prod in Ok (m, None)
      | Some _ =>
          let* m := touch m prod in
          let* m := free m map in
          if first_fails
          then let* m := m_give_up m cardinality prod_vars prod in Ok (m, None)
          else
            let* (m, ok) := m_neighbours m prod_vars cardinality prod neighbours in
            if negb ok then Ok (m, None)
            else
              let* m := free m prod_vars in
              if Nat.eqb (len product) (len result)
              then let* m := free m cardinality in Ok (m, prod)
              else
                let* (m, sum) := new_potential m result in
                let* m := free m cardinality in
                let '(m, map) := calloc m (N 0) (len result) in
                let* m := touch m prod in
                let* m := touch m sum in
                let* m := free m (Some map) in
                let* m := free_potential m prod in
                if sum_fails
                then let* m := free_potential m sum in Ok (m, None)
                else Ok (m, sum)
      end
  end
with m_neighbours (m : memory) (prod_vars cardinality prod : option nat) (b : branches) : res (memory * bool) :=
  match b with
  | Done => Ok (m, true)
  | Branch sizes division_fails common call message mapping product_fails others =>
      let* m := work m sizes in
      let* m := touch m prod in
      if division_fails
      then let* m := m_give_up m cardinality prod_vars prod in Ok (m, false)
      else
        match common with
        | None => let* m := m_give_up m cardinality prod_vars prod in Ok (m, false)
        | Some n =>
            let '(m, msg_isect) := calloc m (P None) n in
            let* (m, msg) := m_gather m call in
            let '(m, msg_vars) := calloc m (P None) message in
            let '(m, map) := m_mapper m mapping in
            let* m := free m (Some msg_vars) in
            let* m := match msg with Some _ => touch m msg | None => Ok m end in
            let* m := touch m prod in
            let* m := free m map in
            let* m := free_potential m msg in
            if product_fails
            then
              let* m := free m cardinality in
              let* m := free_potential m prod in
              Ok (m, false)
            else m_neighbours m prod_vars cardinality prod others
        end
  end.

(** nipjoint.c 88-99: the variables named by [symbols]; [false]: one of them is not
    known. *)
Definition named_variables (m : memory) (x : option nat) (names : list named_variable) (vars : option nat) (symbols : list string)
  : res (memory * bool) :=
  for_up 0 (len symbols) (fun i (st : memory * bool) =>
    let '(m, ok) := st in
    if negb ok then Ok st
    else
      let* s := rd symbols i in
      let* v := m_model_variable m x names s in
      match v with
      | None => Ok (m, false)
      | Some _ => let* m := store m vars i (P v) in Ok (m, true)
      end) (m, true).

(** nipjoint.c 101-113: [hidden]: there are hidden variables. *)
Definition unnamed_variables (m : memory) (ts : option nat) (hidden : bool) : res (option nat) :=
  ptr m ts (if hidden then Y_hidden else Y_observed).

(** nipjoint.c 115-142: the table (printing NULL is undefined; get_joint_probability,
    nip.c 2323-2344, allocates nothing itself) and the release. *)
Definition joint_rest (m : memory) (x set : option nat) (n : nat) (vars : option nat) (v : visit) : res memory :=
  let* (m, result) := m_gather m v in
  let* m := touch m result in
  let* m := free m vars in
  let* m := free_potential m result in
  let* m := free_series m set n in
  free_model m x.

(** main, nipjoint.c 48-153, after the model was parsed; [w]: arrays used for a while
    by use_priors (0), make_consistent and insert_ts_step (1). *)
Definition nipjoint_memory (m : memory) (x : option nat) (names : list named_variable)
    (data : option (list ascii)) (name : nat) (series : list SeriesFileModel.series) (symbols : list string)
    (v : visit) (w : nat -> list nat) : res memory :=
  let* m := work m (w 0) in
  let* (m, set, n) := mem_read_timeseries m names name data in
  if Nat.eqb n 0 then Ok m
  else
    let* ts := ptr m set 0 in
    let* m := work m (w 1) in
    match symbols with
    | [] =>
        let* first := rd series 0 in
        let* vars := unnamed_variables m ts (Nat.ltb 0 (len (s_hidden first))) in
        match vars with
        | None => UB (* NULL is printed, nipjoint.c 121-128 *)
        | Some _ => joint_rest m x set n vars v
        end
    | _ :: _ =>
        let '(m, a) := calloc m (P None) (len symbols) in
        let* (m, ok) := named_variables m x names (Some a) symbols in
        if negb ok then Ok m
        else joint_rest m x set n (Some a) v
    end.
