(** * Model of learning and sampling: src/nip.c 1726-2272 and 2348-2543

    Allocations are assumed to succeed.  Random numbers are arguments.
    Logarithms: a double that holds a log-likelihood is represented by its
    exponential, so that 0.0 becomes 1, a sum a product, and the comparisons stay
    the same; exp(ts_steps * threshold) is the argument [growth]. *)
From Verif Require Import Base PotentialModel VariableModel JoinTreeModel NipModel SliceModel.
Import ListNotations.
Open Scope nat_scope.
Local Open Scope res_scope.

Definition Qc_ltb (x y : Qc) : bool := if Qclt_le_dec x y then true else false.

(** ** The E-step *)

(** One step of the forward phase of e_step, nip.c 1808-1890.  [true]: the
    function returns NIP_ERROR_BAD_LUCK. *)
Definition e_forward_step (ts : time_series) (t : nat) (m : model) (alpha_gamma : list potential)
    (ll : Qc) : res (model * list potential * Qc * bool) :=
  let T := length (ts_data ts) in
  let* m :=
    if Nat.ltb 0 t then
      let* a := rd alpha_gamma (t - 1) in finish_message m FORWARD a None
    else Ok m in
  let* m := make_consistent_model m in
  let* (m, m1) := model_prob_mass m in
  let* (m, _) := insert_ts_step ts (Z.of_nat t) m MARK_ON in
  let* m := make_consistent_model m in
  let* (m, m2) := model_prob_mass m in
  let ll := if (Qc_ltb 0 m1 && Qc_ltb 0 m2)%bool then (ll * (m2 / m1))%Qc else ll in
  if (negb (Qc_ltb 0 m1) || negb (Qc_ltb 0 m2) || Qc_ltb 1 ll)%bool
  then Ok (m, alpha_gamma, ll, true)
  else
    let* a := rd alpha_gamma t in
    let* a := start_message m FORWARD a in
    let* alpha_gamma := wr alpha_gamma t a in
    let* m := reset_model m in
    let* m := use_priors m (Nat.ltb 1 T) in
    Ok (m, alpha_gamma, ll, false).

(** Steps [t], [t + 1], ... [t + k - 1] until one returns. *)
Fixpoint e_forward (ts : time_series) (k t : nat) (m : model) (alpha_gamma : list potential)
    (ll : Qc) : res (model * list potential * Qc * bool) :=
  match k with
  | O => Ok (m, alpha_gamma, ll, false)
  | S k' =>
      let* (m, alpha_gamma, ll, bad) := e_forward_step ts t m alpha_gamma ll in
      if (bad : bool) then Ok (m, alpha_gamma, ll, true)
      else e_forward ts k' (t + 1) m alpha_gamma ll
  end.

(** The loop over the variables that adds the expected counts of time step [t],
    nip.c 1937-1977.  A violated assertion is UB. *)
Definition add_counts (t : nat) (m : model) (results parameters : list potential)
  : res (model * list potential * list potential) :=
  for_up 0 (length (m_vars m))
    (fun i '(m, results, parameters) =>
       let* p := rd results i in
       let* x := rd (m_vars m) i in
       if (Nat.ltb 0 t && v_old x)%bool then Ok (m, results, parameters)
       else
         let* (m, c) := find_family m i in
         match c with
         | None => UB
         | Some c =>
             let* (m, mapping) := find_family_mapping m c i in
             let* k := rd (cls (m_jt m)) c in
             let* (p, _) := general_marginalise (c_p k) p mapping in
             let* (p, _) := normalise_potential (Some p) in
             match p with
             | None => UB
             | Some p =>
                 let* results := wr results i p in
                 let* s := rd parameters i in
                 let* (s, _) := sum_potential (Some s) (Some p) in
                 match s with
                 | None => UB
                 | Some s => let* parameters := wr parameters i s in Ok (m, results, parameters)
                 end
             end
         end)
    (m, results, parameters).

(** The backward phase of e_step, nip.c 1895-2002. *)
Definition e_backward (m : model) (ts : time_series) (alpha_gamma results parameters : list potential)
  : res (model * list potential * list potential * list potential) :=
  let T := length (ts_data ts) in
  for_down T 0
    (fun t '(m, alpha_gamma, results, parameters) =>
       let* m :=
         if Nat.ltb 0 t then
           let* a := rd alpha_gamma (t - 1) in finish_message m FORWARD a None
         else Ok m in
       let* (m, _) := insert_ts_step ts (Z.of_nat t) m MARK_ON in
       let* m :=
         if Nat.ltb t (T - 1) then
           let* g := rd alpha_gamma (t + 1) in
           let* a := rd alpha_gamma t in
           finish_message m BACKWARD g (Some a)
         else Ok m in
       let* m := make_consistent_model m in
       let* (m, results, parameters) := add_counts t m results parameters in
       let* alpha_gamma :=
         if Nat.ltb 0 t then
           let* g := rd alpha_gamma t in
           let* g := start_message m BACKWARD g in
           wr alpha_gamma t g
         else Ok alpha_gamma in
       let* m := reset_model m in
       let* m := use_priors m (Nat.ltb 1 t) in
       Ok (m, alpha_gamma, results, parameters))
    (m, alpha_gamma, results, parameters).

(** A new potential of the same shape for every parameter table, nip.c
    1764-1770.  NULL is UB. *)
Definition new_results_like (n : nat) (parameters : list potential) : res (list potential) :=
  for_up 0 n
    (fun i l =>
       let* p := rd parameters i in
       let* q := new_potential (card_array p) (Z.of_nat (dimensionality p)) None in
       match q with Some q => Ok (l ++ [q]) | None => UB end)
    [].

(** e_step, nip.c 1726-2017.  Simplified: the model is an argument instead of
    ts->model. *)
Definition e_step (m : model) (ts : time_series) (parameters : list potential)
  : res (model * list potential * Qc * code) :=
  let T := length (ts_data ts) in
  let* results := new_results_like (length (m_vars m)) parameters in
  let* alpha := interface_potential m in
  let alpha_gamma := repeat alpha (T + 1) in
  let* m := reset_model m in
  let* m := use_priors m false in
  let* (m, alpha_gamma, ll, bad) := e_forward ts T 0 m alpha_gamma 1%Qc in
  if (bad : bool) then Ok (m, parameters, ll, BAD_LUCK)
  else
    let* (m, _, _, parameters) := e_backward m ts alpha_gamma results parameters in
    Ok (m, parameters, ll, NO_ERROR).

(** ** The M-step *)

(** m_step, nip.c 2020-2077 (PARAMETER_EPSILON is not defined). *)
Definition m_step (m : model) (parameters : list potential)
  : res (model * list potential * code) :=
  let n := length (m_vars m) in
  let* parameters :=
    for_up 0 n
      (fun i l =>
         let* p := rd l i in
         let* (p, _) := normalise_cpd (Some p) in
         match p with None => UB | Some p => wr l i p end)
      parameters in
  let* m := total_reset m in
  let* (m, e) :=
    for_up 0 n
      (fun i '(m, e) =>
         if is_err e then Ok (m, e)
         else
           let* x := rd (m_vars m) i in
           let* p := rd parameters i in
           if Nat.ltb 0 (length (v_parents x)) then
             let* (m, c) := find_family m i in
             match c with
             | None => UB
             | Some c =>
                 let* (m, fam_map) := find_family_mapping m c i in
                 let* k := rd (cls (m_jt m)) c in
                 let* (q, e1) := init_potential p (c_p k) (Some fam_map) in
                 let* (o, e2) := init_potential p (c_orig k) (Some fam_map) in
                 let* jt := put_clique (m_jt m) c (set_orig (set_p k q) o) in
                 Ok (set_jt m jt, if (is_err e1 || is_err e2)%bool then GENERAL else NO_ERROR)
             end
           else
             match v_prior x with
             | None => UB
             | Some prior =>
                 let* (prior, _) := total_marginalise p prior 0 in
                 let* m := put_var m i (set_prior x (Some prior)) in
                 Ok (m, NO_ERROR)
             end)
      (m, NO_ERROR) in
  Ok (m, parameters, e).

(** ** em_learn *)
Inductive convergence := DELTA | ITERATIONS.
Definition MIN_EM_ITERATIONS : nat := 3.

(** The parameter tables, nip.c 2108-2124: the child is the first variable. *)
Definition new_parameters (m : model) : res (list potential) :=
  for_up 0 (length (m_vars m))
    (fun v l =>
       let* x := rd (m_vars m) v in
       let n := length (v_parents x) + 1 in
       let* card := wr (repeat 0 n) 0 (v_card x) in
       let* card :=
         for_up 1 n
           (fun i card => let* w := rd (v_parents x) (i - 1) in
                          let* y := rd (m_vars m) w in wr card i (v_card y))
           card in
       let* p := new_potential card (Z.of_nat n) None in
       match p with Some p => Ok (l ++ [p]) | None => UB end)
    [].

(** The initial parameters, nip.c 2130-2152.  [rnd v i] is the number of the
    i-th call of rand() for variable v, divided by RAND_MAX.  A family without a
    clique: the function returns an error. *)
Definition initial_parameters (m : model) (random : option (nat -> nat -> Qc)) (parameters : list potential)
  : res (model * list potential * code) :=
  match random with
  | Some rnd =>
      let* parameters :=
        for_up 0 (length (m_vars m))
          (fun v l => let* p := rd l v in
                      let* p := random_potential p (rnd v) in wr l v p)
          parameters in
      Ok (m, parameters, NO_ERROR)
  | None =>
      for_up 0 (length (m_vars m))
        (fun v '(m, l, e) =>
           if is_err e then Ok (m, l, e)
           else
             let* (m, c) := find_family m v in
             match c with
             | None => Ok (m, l, ENOMEM)
             | Some c =>
                 let* (m, mapping) := find_family_mapping m c v in
                 let* k := rd (cls (m_jt m)) c in
                 let* p := rd l v in
                 let* (p, _) := general_marginalise (c_orig k) p mapping in
                 let* l := wr l v p in
                 Ok (m, l, NO_ERROR)
             end)
        (m, parameters, NO_ERROR)
  end.

(** The E-step over all series, nip.c 2189-2217; the assertion of line 2211 is
    UB. *)
Fixpoint e_steps (m : model) (ts : list time_series) (parameters : list potential) (loglikelihood : Qc)
  : res (model * list potential * Qc * code) :=
  match ts with
  | [] => Ok (m, parameters, loglikelihood, NO_ERROR)
  | s :: ts' =>
      let* (m, parameters, probe, e) := e_step m s parameters in
      if is_err e then Ok (m, parameters, loglikelihood, e)
      else if Qc_ltb 1 probe then UB
      else e_steps m ts' parameters (loglikelihood * probe)%Qc
  end.

(** One iteration up to the new likelihood, nip.c 2168-2217: M-step, tables set
    to 1.0, E-step. *)
Definition em_iteration (ts : list time_series) (state : model * list potential)
  : res ((model * list potential) * Qc * code) :=
  let '(m, parameters) := state in
  let* (m, parameters, e) := m_step m parameters in
  if is_err e then Ok ((m, parameters), 1%Qc, e)
  else
    let* parameters :=
      for_up 0 (length (m_vars m))
        (fun v l => let* p := rd l v in let* p := uniform_potential p 1%Qc in wr l v p)
        parameters in
    let* (m, parameters, ll, e) := e_steps m ts parameters 1%Qc in
    Ok ((m, parameters), ll, e).

(** What em_learn gives back besides the model. *)
Record outcome := mkOutcome {
  o_curve : list Qc;                   (* the learning curve *)
  o_criterion : option convergence;    (* *stopping_criterion, if set *)
  o_code : code                        (* the returned code *)
}.

(** The do-while loop, nip.c 2163-2264, for any iteration function; em_progress
    appends to the learning curve and succeeds. *)
Fixpoint em_loop {A : Type} (iteration : A -> res (A * Qc * code)) (growth : Qc) (max_iterations : Z)
    (fuel : nat) (state : A) (loglikelihood : Qc) (i : nat) (curve : list Qc) : res (A * outcome) :=
  match fuel with
  | O => NoFuel
  | S fuel' =>
      let* (state, ll, e) := iteration state in
      match e with
      | NO_ERROR =>
          let old := loglikelihood in
          let curve := curve ++ [ll] in
          if (Qc_ltb (ll * growth) old || Qc_ltb 1 ll)%bool
          then Ok (state, mkOutcome curve None BAD_LUCK)
          else
            let i := i + 1 in
            if Nat.leb MIN_EM_ITERATIONS i then
              if Qc_ltb (old * growth) ll then
                if (max_iterations <=? Z.of_nat i)%Z
                then Ok (state, mkOutcome curve (Some ITERATIONS) NO_ERROR)
                else em_loop iteration growth max_iterations fuel' state ll i curve
              else Ok (state, mkOutcome curve (Some DELTA) NO_ERROR)
            else em_loop iteration growth max_iterations fuel' state ll i curve
      | BAD_LUCK => Ok (state, mkOutcome curve None BAD_LUCK)
      | e => Ok (state, mkOutcome [] None e)
      end
  end.

(** em_learn, nip.c 2082-2272; [tiny] is exp(-DBL_MAX). *)
Definition em_learn (m : model) (ts : list time_series) (random : option (nat -> nat -> Qc))
    (max_iterations : Z) (growth tiny : Qc) (learning_curve : list Qc) : res (model * outcome) :=
  match ts with
  | [] => UB
  | _ =>
    let* parameters := new_parameters m in
    let* (m, parameters, e) := initial_parameters m random parameters in
    if is_err e then Ok (m, mkOutcome learning_curve None e)
    else
      let* (state, o) :=
        em_loop (em_iteration ts) growth max_iterations (Nat.max MIN_EM_ITERATIONS (Z.to_nat max_iterations))
          (m, parameters) tiny 0 learning_curve in
      Ok (fst state, o)
  end.

(** ** Sampling *)

(** lottery, nip.c 2530-2543, with the random number [r] in [0, 1]. *)
Fixpoint lottery_loop (fuel : nat) (distribution : list Qc) (size i : nat) (sum r : Qc) : res Z :=
  match fuel with
  | O => NoFuel
  | S fuel' =>
      if Nat.leb size i then Ok (Z.of_nat size - 1)%Z
      else
        let* d := rd distribution i in
        let sum := (sum + d)%Qc in
        if Qc_ltb sum r then lottery_loop fuel' distribution size (i + 1) sum r
        else Ok (Z.of_nat i)
  end.
Definition lottery (distribution : list Qc) (size : nat) (r : Qc) : res Z :=
  lottery_loop (size + 1) distribution size 0 0%Qc r.

(** nip_unmark_variable, nip_mark_variable and nip_variable_marked,
    nipvariable.c 215-229. *)
Definition MARK_OFF : nat := 1.
Definition mark_var (m : model) (v k : nat) : res model :=
  let* x := rd (m_vars m) v in put_var m v (set_vmark x k).
Definition marked (m : model) (v : nat) : res bool :=
  let* x := rd (m_vars m) v in Ok (negb (Nat.eqb (v_mark x) MARK_OFF)).

(** [vars[j++] = v; nip_mark_variable(v)]; [vars] is the filled part of an array of
    num_of_vars elements. *)
Definition take_var (m : model) (vars : list nat) (v : nat) : res (model * list nat) :=
  if Nat.ltb (length vars) (length (m_vars m)) then
    let* m := mark_var m v MARK_ON in Ok (m, vars ++ [v])
  else UB.

(** The loop over the parents, nip.c 2386-2392. *)
Definition parents_marked (m : model) (parents : list nat) : res bool :=
  let* f := find_up 0 (length parents)
              (fun k => let* p := rd parents k in
                        let* b := marked m p in Ok (negb b)) in
  Ok (match f with Some _ => false | None => true end).

(** One pass of the loop over the variables, nip.c 2382-2397. *)
Definition order_pass (m : model) (vars : list nat) : res (model * list nat) :=
  for_up 0 (length (m_vars m))
    (fun i '(m, vars) =>
       let* b := marked m i in
       if (b : bool) then Ok (m, vars)
       else
         let* x := rd (m_vars m) i in
         let* t := parents_marked m (v_parents x) in
         if (t : bool) then take_var m vars i else Ok (m, vars))
    (m, vars).
Fixpoint order_loop (fuel : nat) (m : model) (vars : list nat) : res (model * list nat) :=
  if Nat.ltb (length vars) (length (m_vars m)) then
    match fuel with
    | O => NoFuel
    | S fuel' => let* (m, vars) := order_pass m vars in order_loop fuel' m vars
    end
  else Ok (m, vars).

(** The order of the variables, nip.c 2367-2398. *)
Definition sampling_order (fuel : nat) (m : model) : res (model * list nat) :=
  let n := length (m_vars m) in
  let* m := for_up 0 n (fun i m => mark_var m i MARK_OFF) m in
  let* (m, vars) :=
    for_up 0 n
      (fun i '(m, vars) =>
         let* x := rd (m_vars m) i in
         if Nat.eqb (length (v_parents x)) 0 then take_var m vars i else Ok (m, vars))
      (m, []) in
  order_loop fuel m vars.

(** The loop over the variables of one time step, nip.c 2471-2483; [rnd] gives
    the random numbers of the step. *)
Definition sample_step (m : model) (vars : list nat) (rnd : nat -> Qc) (row : list Z)
  : res (model * list Z) :=
  for_up 0 (length vars)
    (fun i '(m, row) =>
       let* m := make_consistent_model m in
       let* v := rd vars i in
       let* (m, d) := get_probability m v in
       match d with
       | None => UB
       | Some d =>
           let* x := rd (m_vars m) v in
           let* k := lottery d (v_card x) (rnd i) in
           let* row := wr row i k in
           let* (m, _) := enter_index_observation m v k in
           Ok (m, row)
       end)
    (m, row).

(** generate_data, nip.c 2348-2500; [rnd t i] is the random number for the i-th
    variable at time t. *)
Definition generate_data (fuel : nat) (m : model) (length_ : nat) (rnd : nat -> nat -> Qc)
  : res (model * time_series) :=
  let nvars := length (m_vars m) in
  let* (m, vars) := sampling_order fuel m in
  let* alpha := interface_potential m in
  let* m := reset_model m in
  let* m := use_priors m false in
  let* (m, _, data) :=
    for_up 0 length_
      (fun t '(m, alpha, data) =>
         let* m := if Nat.ltb 0 t then finish_message m FORWARD alpha None else Ok m in
         let* row := rd data t in
         let* (m, row) := sample_step m vars (rnd t) row in
         let* data := wr data t row in
         let* m := make_consistent_model m in
         let* alpha := start_message m FORWARD alpha in
         let* m := reset_model m in
         let* m := use_priors m true in
         Ok (m, alpha, data))
      (m, alpha, repeat (repeat 0%Z nvars) length_) in
  Ok (m, mkTS vars data).
