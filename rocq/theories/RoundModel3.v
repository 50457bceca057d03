(** * Learning with rounded arithmetic

    Continues RoundModel.v and RoundModel2.v: the M-step (src/nip.c 2020-2077) and
    the loop of em_learn (src/nip.c 2082-2272), with a rounding after every
    addition, multiplication and division of doubles.  What the code does with
    log-likelihoods is a parameter (the account of RoundModel2.v and the judge
    below), so that the theorems hold for every log() and for every decision to
    stop. *)
From Verif Require Import Base PotentialModel VariableModel JoinTreeModel NipModel SliceModel LearnModel RoundModel
  RoundModel2.
Import ListNotations.
Open Scope nat_scope.
Local Open Scope res_scope.

(** The variables loglikelihood and old_loglikelihood of em_learn: the value before
    the series (nip.c 2181), the sum (nip.c 2214), the assertion on the
    log-likelihood of a series (nip.c 2211), the test for a useless iteration
    (nip.c 2234-2236) and the test for an improvement (nip.c 2251), both of the old
    and the new value. *)
Record judge (L : Type) := mkJudge {
  j_zero : L;
  j_sum : L -> L -> res L;
  j_sound : L -> bool;
  j_bad : L -> L -> bool;
  j_better : L -> L -> bool
}.
Arguments j_zero {L}. Arguments j_sum {L}. Arguments j_sound {L}. Arguments j_bad {L}. Arguments j_better {L}.

Section Rounded.

(** The rounding of the result of one operation, as in RoundModel.v. *)
Variable rnd : Qc -> res Qc.

(** The loop [for(i = 0; i < p->size_of_data; i += n)] of nip_normalise_cpd,
    nippotential.c 373-374. *)
Fixpoint r_normalise_blocks (fuel : nat) (d : list Qc) (i size n : nat)
  : res (list Qc) :=
  match fuel with
  | O => NoFuel
  | S fuel' =>
      if Nat.ltb i size then
        let* d' := r_normalise_array_at rnd d i n in
        r_normalise_blocks fuel' d' (i + n) size n
      else Ok d
  end.

(** nip_normalise_cpd, nippotential.c 367-377. *)
Definition r_normalise_cpd (p : option potential)
  : res (option potential * code) :=
  match p with
  | None => Ok (None, EFAULT)
  | Some p =>
      let* n := rd (card_array p) 0 in
      let* d := r_normalise_blocks (S (size_of_data p)) (data p) 0
                  (size_of_data p) n in
      Ok (Some (mkPot (dims p) d), NO_ERROR)
  end.

(** nip_init_potential with a mapping, nippotential.c 507-544 (m_step always gives
    one). *)
Definition r_init_potential (probs target : potential) (mapping : list nat) : res (potential * code) :=
  if Nat.eqb (dimensionality probs) 0 then Ok (target, NO_ERROR)
  else
    let* d :=
      for_up 0 (size_of_data target)
        (fun i d =>
           let* tix := inverse_mapping target i (temp_index target) in
           let* pix := choose_potential_indices tix (temp_index probs)
                         mapping (dimensionality probs) in
           let* k := get_potential_pointer probs pix in
           let* y := rd (data probs) k in
           let* x := rd d i in
           let* z := rnd (x * y)%Qc in
           wr d i z)
        (data target) in
    Ok (mkPot (dims target) d, NO_ERROR).

(** total_reset, nip.c 75-84. *)
Definition r_total_reset (m : model) : res model :=
  let* jt :=
    for_up 0 (length (cls (m_jt m)))
      (fun i jt =>
         let* c := rd (cls jt) i in
         let* o := uniform_potential (c_orig c) 1%Qc in
         put_clique jt i (set_orig c o))
      (m_jt m) in
  r_reset_model rnd (set_jt m jt).

(** m_step, nip.c 2020-2077 (PARAMETER_EPSILON is not defined). *)
Definition r_m_step (m : model) (parameters : list potential)
  : res (model * list potential * code) :=
  let n := length (m_vars m) in
  let* parameters :=
    for_up 0 n
      (fun i l =>
         let* p := rd l i in
         let* (p, _) := r_normalise_cpd (Some p) in
         match p with None => UB | Some p => wr l i p end)
      parameters in
  let* m := r_total_reset m in
  let* (m, e) :=
    for_up 0 n
      (fun i '(m, e) =>
         if is_err e then Ok (m, e)
         else
           let* x := rd (m_vars m) i in
           let* p := rd parameters i in
           if Nat.ltb 0 (length (v_parents x)) then
             let* (m, c) := find_family m i in
             match c with
             | None => UB
             | Some c =>
                 let* (m, fam_map) := find_family_mapping m c i in
                 let* k := rd (cls (m_jt m)) c in
                 let* (q, e1) := r_init_potential p (c_p k) fam_map in
                 let* (o, e2) := r_init_potential p (c_orig k) fam_map in
                 let* jt := put_clique (m_jt m) c (set_orig (set_p k q) o) in
                 Ok (set_jt m jt, if (is_err e1 || is_err e2)%bool then GENERAL else NO_ERROR)
             end
           else
             match v_prior x with
             | None => UB
             | Some prior =>
                 let* (prior, _) := r_total_marginalise rnd p prior 0 in
                 let* m := put_var m i (set_prior x (Some prior)) in
                 Ok (m, NO_ERROR)
             end)
      (m, NO_ERROR) in
  Ok (m, parameters, e).

(** The initial parameters, nip.c 2130-2152, as [initial_parameters] of
    LearnModel.v.  The random numbers [random v i] are doubles. *)
Definition r_initial_parameters (m : model) (random : option (nat -> nat -> Qc)) (parameters : list potential)
  : res (model * list potential * code) :=
  match random with
  | Some _ => initial_parameters m random parameters
  | None =>
      for_up 0 (length (m_vars m))
        (fun v '(m, l, e) =>
           if is_err e then Ok (m, l, e)
           else
             let* (m, c) := find_family m v in
             match c with
             | None => Ok (m, l, ENOMEM)
             | Some c =>
                 let* (m, mapping) := find_family_mapping m c v in
                 let* k := rd (cls (m_jt m)) c in
                 let* p := rd l v in
                 let* (p, _) := r_general_marginalise rnd (c_orig k) p mapping in
                 let* l := wr l v p in
                 Ok (m, l, NO_ERROR)
             end)
        (m, parameters, NO_ERROR)
  end.

Context {L : Type}.

(** The log-likelihood of e_step (nip.c 1806, 1838 and 1844) and those of em_learn
    (nip.c 2181-2251). *)
Variable A : account L.
Variable J : judge L.

(** The E-step over all series, nip.c 2189-2217; the assertion of line 2211 is
    UB. *)
Fixpoint r_e_steps (m : model) (ts : list time_series) (parameters : list potential) (loglikelihood : L)
  : res (model * list potential * L * code) :=
  match ts with
  | [] => Ok (m, parameters, loglikelihood, NO_ERROR)
  | s :: ts' =>
      let* (m, parameters, probe, e) := r_e_step rnd A m s parameters in
      if is_err e then Ok (m, parameters, loglikelihood, e)
      else if negb (j_sound J probe) then UB
      else
        let* loglikelihood := j_sum J loglikelihood probe in
        r_e_steps m ts' parameters loglikelihood
  end.

(** One iteration up to the new likelihood, nip.c 2168-2217: M-step, tables set
    to 1.0, E-step. *)
Definition r_em_iteration (ts : list time_series) (state : model * list potential)
  : res ((model * list potential) * L * code) :=
  let '(m, parameters) := state in
  let* (m, parameters, e) := r_m_step m parameters in
  if is_err e then Ok ((m, parameters), j_zero J, e)
  else
    let* parameters :=
      for_up 0 (length (m_vars m))
        (fun v l => let* p := rd l v in let* p := uniform_potential p 1%Qc in wr l v p)
        parameters in
    let* (m, parameters, ll, e) := r_e_steps m ts parameters (j_zero J) in
    Ok ((m, parameters), ll, e).

(** The do-while loop, nip.c 2163-2264, as [em_loop] of LearnModel.v: the learning
    curve, the stopping criterion if it is set, and the returned code.  Simplified:
    the curve contains the log-likelihoods before the division by the number of
    time steps (nip.c 2221). *)
Fixpoint r_em_loop {S : Type} (iteration : S -> res (S * L * code)) (max_iterations : Z)
    (fuel : nat) (state : S) (loglikelihood : L) (i : nat) (curve : list L)
  : res (S * (list L * option convergence * code)) :=
  match fuel with
  | O => NoFuel
  | S fuel' =>
      let* (state, ll, e) := iteration state in
      match e with
      | NO_ERROR =>
          let old := loglikelihood in
          let curve := curve ++ [ll] in
          if j_bad J old ll
          then Ok (state, (curve, None, BAD_LUCK))
          else
            let i := i + 1 in
            if Nat.leb MIN_EM_ITERATIONS i then
              if j_better J old ll then
                if (max_iterations <=? Z.of_nat i)%Z
                then Ok (state, (curve, Some ITERATIONS, NO_ERROR))
                else r_em_loop iteration max_iterations fuel' state ll i curve
              else Ok (state, (curve, Some DELTA, NO_ERROR))
            else r_em_loop iteration max_iterations fuel' state ll i curve
      | BAD_LUCK => Ok (state, (curve, None, BAD_LUCK))
      | e => Ok (state, ([], None, e))
      end
  end.

(** em_learn, nip.c 2082-2272; [first] is the old log-likelihood of the first
    iteration (nip.c 2090). *)
Definition r_em_learn (m : model) (ts : list time_series) (random : option (nat -> nat -> Qc))
    (max_iterations : Z) (first : L) (learning_curve : list L)
  : res (model * (list L * option convergence * code)) :=
  match ts with
  | [] => UB
  | _ =>
    let* parameters := new_parameters m in
    let* (m, parameters, e) := r_initial_parameters m random parameters in
    if is_err e then Ok (m, (learning_curve, None, e))
    else
      let* (state, o) :=
        r_em_loop (r_em_iteration ts) max_iterations (Nat.max MIN_EM_ITERATIONS (Z.to_nat max_iterations))
          (m, parameters) first 0 learning_curve in
      Ok (fst state, o)
  end.

End Rounded.

(** The judge of LearnModel.v, for nip.c 2181-2251: exponentials of log-likelihoods;
    [growth] is the exponential of the threshold times the number of steps. *)
Definition exact_judge (growth : Qc) : judge Qc :=
  mkJudge Qc 1%Qc (fun l p => Ok (l * p)%Qc) (fun p => negb (Qc_ltb 1 p))
    (fun old new => (Qc_ltb (new * growth) old || Qc_ltb 1 new)%bool)
    (fun old new => Qc_ltb (old * growth) new).

(** The judge with the doubles of the code, nip.c 2181-2251: [step] is the product
    ts_steps * threshold and [huge] is HUGE_DOUBLE.  Simplified: a sum or difference
    that [rnd] does not represent passes neither test. *)
Definition log_judge (rnd : Qc -> res Qc) (step huge : Qc) : judge Qc :=
  mkJudge Qc 0%Qc (fun l p => rnd (l + p)%Qc) (fun p => (Qc_ltb (- huge) p && negb (Qc_ltb 0 p))%bool)
    (fun old new => (match rnd (new + step)%Qc with Ok x => Qc_ltb x old | _ => false end || Qc_ltb 0 new)%bool)
    (fun old new => match rnd (new - old)%Qc with Ok x => Qc_ltb step x | _ => false end).
