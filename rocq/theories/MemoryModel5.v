(** * Model of the memory of inference, learning and sampling
    (src/nip.c 1058-1125, 1130-1337, 1342-1599, 1726-2017, 2020-2077, 2082-2272,
    2283-2320 and 2348-2500)

    As in MemoryModel.v only blocks of memory and the pointers in them are
    modelled; the numbers are in SliceModel.v and LearnModel.v.  What depends on
    numbers is given as an argument: whether a step of learning fails, and how
    often.  Allocation succeeds.

    Some functions on the way allocate one array, fill and read it and free it
    again: nip_mapper in nip_message_pass (nipjointree.c 645-678), the array
    evidence of nip_enter_index_observation (nipjointree.c 801-825) and the array
    family of nip_find_family (nipjointree.c 936-960, nothing once the family is
    known).  They are only represented by the sizes of these arrays, [w] below;
    the two potentials of a sepset, which nip_message_pass exchanges, are not. *)
From Verif Require Import Base MemoryModel.
Import ListNotations.
Open Scope nat_scope.
Local Open Scope res_scope.

(** An array that lives during one call, and several of them. *)
Definition scratch (m : memory) (n : nat) : res memory :=
  let '(m, a) := calloc m (N 0) n in free m (Some a).
Fixpoint work (m : memory) (sizes : list nat) : res memory :=
  match sizes with
  | [] => Ok m
  | n :: sizes => let* m := scratch m n in work m sizes
  end.

(** Access to the table of a potential, p->data. *)
Definition touch (m : memory) (p : option nat) : res memory :=
  let* _ := ptr m p T_data in Ok m.

(** The array cardinalities, nip.c 1141-1152, 1354-1365, 1776-1793 and 2435-2447;
    none if there is no interface. *)
Definition interface_array (m : memory) (out : list nat) : memory * option nat :=
  match out with
  | [] => (m, None)
  | _ => let '(m, a) := calloc m (N 0) (length out) in (m, Some a)
  end.

(** start_timeslice_message_pass, nip.c 1058-1092; [out]: cardinalities of the
    variables of the interface.  Always NIP_NO_ERROR. *)
Definition start_pass (m : memory) (out : list nat) (alpha_or_gamma : option nat) : res memory :=
  match out with
  | [] => touch m alpha_or_gamma
  | _ =>
      let '(m, mapping) := calloc m (N 0) (length out) in
      let* m := touch m alpha_or_gamma in
      let* m := free m (Some mapping) in
      touch m alpha_or_gamma
  end.
(** finish_timeslice_message_pass, nip.c 1096-1125.  Always NIP_NO_ERROR. *)
Definition finish_pass (m : memory) (out : list nat) (num den : option nat) : res memory :=
  match out with
  | [] => Ok m
  | _ =>
      let '(m, mapping) := calloc m (N 0) (length out) in
      let* m := touch m num in
      let* m := match den with Some _ => touch m den | None => Ok m end in
      free m (Some mapping)
  end.

(** An array of potentials: filling it, nip.c 1440-1445 and 1795-1798, and
    freeing it, nip.c 1593-1596, 2005-2014 and 2266-2269. *)
Definition fill (m : memory) (a : option nat) (n : nat) (cards : nat -> list nat) : res memory :=
  for_up 0 n (fun i m => let* (m, p) := new_potential m (cards i) in store m a i (P p)) m.
Definition free_array (m : memory) (a : option nat) (n : nat) : res memory :=
  let* m := for_up 0 n (fun i m => let* p := ptr m a i in free_potential m p) m in
  free m a.

(** Writing the results of time step [t], nip.c 1295-1312 and 1552-1571: the array
    results->data[t][i] must be allocated; [w]: nip_find_family. *)
Definition write_results (m : memory) (u : option nat) (t : nat) (w : nat -> list nat) : res memory :=
  let* k := num m u U_nvars in
  for_up 0 k (fun i m =>
    let* m := work m (w i) in
    let* d := ptr m u U_data in
    let* r := ptr m d t in
    let* x := ptr m r i in
    match x with
    | Some a => match nth_error m a with Some (Some _) => Ok m | _ => UB end
    | None => UB
    end) m.

(** forward_inference, nip.c 1130-1337, of the series at [y] for [vars]; [out]: the
    variables of the interface.  [w t k]: arrays used for a while before (0) and
    after (1) the message to the next step, and (2 + i) for variable [i].  The
    error branches are not taken, since the messages between time steps do not
    fail. *)
Definition forward_inference (m : memory) (y : option nat) (vars out : list (option nat)) (w : nat -> nat -> list nat)
  : res (memory * option nat) :=
  let* outc := cardinalities m out in
  let '(m, card) := interface_array m outc in
  let* n := num m y Y_length in
  let* cards := cardinalities m vars in
  let* (m, results) := new_uncertainseries m cards n in
  let* (m, alpha) := new_potential m outc in
  let* m := free m card in
  let* m := for_up 0 n (fun t m =>
    let* m := if Nat.ltb 0 t then finish_pass m outc alpha None else Ok m in
    let* m := work m (w t 0) in
    let* m := write_results m results t (fun i => w t (2 + i)) in
    let* m := start_pass m outc alpha in
    work m (w t 1)) m in
  let* m := free_potential m alpha in
  Ok (m, results).

(** forward_backward_inference, nip.c 1342-1599; [w t k]: as above in the forward
    phase (0 and 1) and in the backward phase (2 to 4, and 5 + i). *)
Definition forward_backward_inference (m : memory) (y : option nat) (vars out : list (option nat)) (w : nat -> nat -> list nat)
  : res (memory * option nat) :=
  let* outc := cardinalities m out in
  let '(m, card) := interface_array m outc in
  let* n := num m y Y_length in
  let* cards := cardinalities m vars in
  let* (m, results) := new_uncertainseries m cards n in
  let '(m, a) := calloc m (P None) (n + 1) in
  let alpha_gamma := Some a in
  let* m := fill m alpha_gamma (n + 1) (fun _ => outc) in
  let* m := free m card in
  (* forward *)
  let* m := for_up 0 n (fun t m =>
    let* m := if Nat.ltb 0 t then (let* p := ptr m alpha_gamma (t - 1) in finish_pass m outc p None) else Ok m in
    let* m := work m (w t 0) in
    let* p := ptr m alpha_gamma t in
    let* m := start_pass m outc p in
    work m (w t 1)) m in
  (* backward *)
  let* m := for_down n 0 (fun t m =>
    let* m := if Nat.ltb 0 t then (let* p := ptr m alpha_gamma (t - 1) in finish_pass m outc p None) else Ok m in
    let* m := work m (w t 2) in
    let* m := if Nat.ltb t (n - 1)
              then (let* p := ptr m alpha_gamma (t + 1) in let* q := ptr m alpha_gamma t in finish_pass m outc p q)
              else Ok m in
    let* m := work m (w t 3) in
    let* m := write_results m results t (fun i => w t (5 + i)) in
    let* m := if Nat.ltb 0 t then (let* p := ptr m alpha_gamma t in start_pass m outc p) else Ok m in
    work m (w t 4)) m in
  let* m := free_array m alpha_gamma (n + 1) in
  Ok (m, results).

(** What numbers decide in one iteration of learning: m_step may fail at a
    variable (nip_init_potential), e_step may have bad luck with a series at a
    time step (nip.c 1842-1844), the callback em_progress may fail, and the
    likelihood may show that the parameters were not valid (nip.c 2234-2236).
    [it_skip t i]: variable [i] is left out (nip.c 1943-1945).  [it_work]: arrays
    used for a while, by series (or m_step), time step and place. *)
Record iteration := mkIteration {
  it_fails : nat -> bool;
  it_bad : nat -> nat -> bool;
  it_curve : bool;
  it_invalid : bool;
  it_skip : nat -> nat -> bool;
  it_work : nat -> nat -> nat -> list nat
}.
(** How learning ends: NIP_NO_ERROR, NIP_ERROR_BAD_LUCK or another code. *)
Inductive ending := Learned | Bad_luck | Failed.

(** nip.c 1845-1852 and 2004-2014: all that e_step allocated. *)
Definition e_step_free (m : memory) (results data observed alpha_gamma : option nat) (nv n : nat) : res memory :=
  let* m := free_array m results nv in
  let* m := free m data in
  let* m := free m observed in
  free_array m alpha_gamma (n + 1).

(** nip.c 1936-1978: the expected counts of one time step; the array parameters
    and the array results have an element for every variable. *)
Definition e_step_counts (m : memory) (vars : list (option nat)) (parameters results : option nat)
    (skip : nat -> bool) (w : nat -> list nat) : res memory :=
  for_up 0 (length vars) (fun i m =>
    let* p := ptr m results i in
    let* v := rd vars i in
    if skip i then Ok m
    else
      let* m := work m (w i) in
      let* m := find_family_mapping m v in
      let* m := touch m p in
      let* q := ptr m parameters i in
      touch m q) m.

(** e_step, nip.c 1726-2017, for a series of [nobs] observed variables; [families]:
    the cardinalities of the parameters, read from them (lines 1764-1770), which
    are not copied here.  [false]: NIP_ERROR_BAD_LUCK. *)
Definition e_step (m : memory) (y : option nat) (nobs : nat) (vars out : list (option nat)) (families : nat -> list nat)
    (parameters : option nat) (bad : nat -> bool) (skip : nat -> nat -> bool) (w : nat -> nat -> list nat)
  : res (memory * bool) :=
  let '(m, observed) := calloc m (P None) nobs in
  let '(m, data) := calloc m (N 0) nobs in
  let '(m, r) := calloc m (P None) (length vars) in
  let results := Some r in
  let* m := for_up 0 (length vars) (fun i m =>
    let* p := ptr m parameters i in
    let* m := touch m p in
    let* (m, p) := new_potential m (families i) in
    store m results i (P p)) m in
  let* n := num m y Y_length in
  let '(m, a) := calloc m (P None) (n + 1) in
  let alpha_gamma := Some a in
  let* outc := cardinalities m out in
  let '(m, card) := interface_array m outc in
  let* m := fill m alpha_gamma (n + 1) (fun _ => outc) in
  let* m := free m card in
  (* forward *)
  let* (m, ok) := for_up 0 n (fun t (st : memory * bool) =>
    let '(m, ok) := st in
    if negb ok then Ok st
    else
      let* m := if Nat.ltb 0 t then (let* p := ptr m alpha_gamma (t - 1) in finish_pass m outc p None) else Ok m in
      let* m := work m (w t 0) in
      if bad t then Ok (m, false)
      else
        let* p := ptr m alpha_gamma t in
        let* m := start_pass m outc p in
        let* m := work m (w t 1) in
        Ok (m, true)) (m, true) in
  if negb ok
  then
    let* m := e_step_free m results (Some data) (Some observed) alpha_gamma (length vars) n in
    Ok (m, false)
  else
    (* backward *)
    let* m := for_down n 0 (fun t m =>
      let* m := if Nat.ltb 0 t then (let* p := ptr m alpha_gamma (t - 1) in finish_pass m outc p None) else Ok m in
      let* m := work m (w t 2) in
      let* m := if Nat.ltb t (n - 1)
                then (let* p := ptr m alpha_gamma (t + 1) in let* q := ptr m alpha_gamma t in finish_pass m outc p q)
                else Ok m in
      let* m := work m (w t 3) in
      let* m := e_step_counts m vars parameters results (skip t) (fun i => w t (5 + i)) in
      let* m := if Nat.ltb 0 t then (let* p := ptr m alpha_gamma t in start_pass m outc p) else Ok m in
      work m (w t 4)) m in
    let* m := e_step_free m results (Some data) (Some observed) alpha_gamma (length vars) n in
    Ok (m, true).

(** m_step, nip.c 2020-2077.  [false]: an error. *)
Definition m_step (m : memory) (vars : list (option nat)) (parameters : option nat) (fails : nat -> bool) (w : nat -> list nat)
  : res (memory * bool) :=
  let* m := for_up 0 (length vars) (fun i m => let* p := ptr m parameters i in touch m p) m in
  for_up 0 (length vars) (fun i (st : memory * bool) =>
    let '(m, ok) := st in
    if negb ok then Ok st
    else
      let* child := rd vars i in
      let* k := num m child V_nparents in
      if Nat.ltb 0 k
      then
        let* m := work m (w i) in
        let* m := find_family_mapping m child in
        let* p := ptr m parameters i in
        let* m := touch m p in
        Ok (m, negb (fails i))
      else
        let* p := ptr m parameters i in
        let* m := touch m p in
        Ok (m, true)) (m, true).

(** nip.c 2189-2219: e_step for each of the series (their addresses and numbers of
    observed variables). *)
Fixpoint e_steps (m : memory) (ts : list (option nat * nat)) (k : nat) (vars out : list (option nat)) (families : nat -> list nat)
    (parameters : option nat) (it : iteration) : res (memory * bool) :=
  match ts with
  | [] => Ok (m, true)
  | (y, nobs) :: ts =>
      let* (m, ok) := e_step m y nobs vars out families parameters (it_bad it k) (it_skip it) (it_work it (S k)) in
      if (ok : bool) then e_steps m ts (S k) vars out families parameters it else Ok (m, false)
  end.

(** The loop of em_learn, nip.c 2163-2269: the iterations that take place, of
    which the last one is the one after which learning has converged (unless an
    iteration ends it).  What the callback em_progress and the learning curve,
    which belongs to the caller, allocate is not modelled. *)
Fixpoint em_loop (m : memory) (ts : list (option nat * nat)) (vars out : list (option nat)) (families : nat -> list nat)
    (parameters : option nat) (its : list iteration) : res (memory * ending) :=
  match its with
  | [] =>
      let* m := free_array m parameters (length vars) in Ok (m, Learned)
  | it :: its =>
      let* (m, ok) := m_step m vars parameters (it_fails it) (it_work it 0 0) in
      if negb ok then (let* m := free_array m parameters (length vars) in Ok (m, Failed))
      else
        let* m := for_up 0 (length vars) (fun v m => let* p := ptr m parameters v in touch m p) m in
        let* (m, ok) := e_steps m ts 0 vars out families parameters it in
        if negb ok then (let* m := free_array m parameters (length vars) in Ok (m, Bad_luck))
        else if it_curve it then (let* m := free_array m parameters (length vars) in Ok (m, Failed))
        else if it_invalid it then (let* m := free_array m parameters (length vars) in Ok (m, Bad_luck))
        else em_loop m ts vars out families parameters its
  end.

(** em_learn, nip.c 2082-2272; [families v]: the cardinalities of variable [v] and
    its parents.  [w]: nip_find_family in lines 2137-2138. *)
Definition em_learn (m : memory) (ts : list (option nat * nat)) (vars out : list (option nat)) (families : nat -> list nat)
    (have_random_init : bool) (w : nat -> list nat) (its : list iteration) : res (memory * ending) :=
  let '(m, a) := calloc m (P None) (length vars) in
  let parameters := Some a in
  let* m := for_up 0 (length vars) (fun v m =>
    let* x := rd vars v in
    let* k := num m x V_nparents in
    let '(m, card) := calloc m (N 0) (k + 1) in
    let* (m, p) := new_potential m (families v) in
    let* m := store m parameters v (P p) in
    free m (Some card)) m in
  let* m := for_up 0 (length vars) (fun v m =>
    let* x := rd vars v in
    let* m := if have_random_init then Ok m
              else (let* m := work m (w v) in find_family_mapping m x) in
    let* p := ptr m parameters v in
    touch m p) m in
  em_loop m ts vars out families parameters its.

(** get_probability, nip.c 2283-2320: the result is the caller's. *)
Definition get_probability (m : memory) (v : option nat) (w : list nat) : res (memory * option nat) :=
  let* c := num m v V_card in
  let '(m, result) := calloc m (N 0) c in
  let* m := work m w in
  Ok (m, Some result).

(** generate_data, nip.c 2348-2500; [vars]: the variables in the order in which they
    are drawn (lines 2366-2399), [length]: of the series. *)
Definition generate_data (m : memory) (vars out : list (option nat)) (length : nat) (w : nat -> nat -> list nat)
  : res (memory * option nat) :=
  let '(m, vs) := allocate m (map P vars) in
  let '(m, y) := malloc m 4 in
  let y := Some y in
  let* m := store m y Y_hidden (P None) in
  let* m := store m y Y_observed (P (Some vs)) in
  let* m := store m y Y_length (N length) in
  let* m := store m y Y_data (P None) in
  let '(m, d) := calloc m (P None) length in
  let* m := store m y Y_data (P (Some d)) in
  let* d := ptr m y Y_data in
  let* m := rows m d length (List.length vars) in
  let* outc := cardinalities m out in
  let '(m, card) := interface_array m outc in
  let* (m, alpha) := new_potential m outc in
  let* m := free m card in
  let* m := work m (w 0 0) in
  let* m := for_up 0 length (fun t m =>
    let* m := if Nat.ltb 0 t then finish_pass m outc alpha None else Ok m in
    let* m := for_up 0 (List.length vars) (fun i m =>
      let* v := rd vars i in
      let* (m, distribution) := get_probability m v (w t (2 + i)) in
      let* m := free m distribution in
      let* r := ptr m d t in
      let* _ := fetch m r i in
      work m (w t (2 + i))) m in
    let* m := work m (w t 0) in
    let* m := start_pass m outc alpha in
    work m (w t 1)) m in
  let* m := free_potential m alpha in
  Ok (m, y).
