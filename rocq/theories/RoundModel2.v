(** * The E-step of learning with rounded arithmetic

    Continues RoundModel.v: the functions of src/nip.c 1726-2017 (e_step) with a
    rounding after every addition, subtraction, multiplication and division of
    doubles.  The masses m1 and m2 are computed as the code computes them.  What
    the code does with their logarithms is a parameter (an account, below), because
    log() is a function of the C library: the theorems that hold for every account
    hold for every log(). *)
From Verif Require Import Base PotentialModel VariableModel JoinTreeModel NipModel SliceModel LearnModel RoundModel.
Import ListNotations.
Open Scope nat_scope.
Local Open Scope res_scope.

(** The variable *loglikelihood of e_step: its first value (nip.c 1806), its value
    after a step with the masses m1 and m2 (nip.c 1838) and the test that it is
    positive (nip.c 1844). *)
Record account (L : Type) := mkAccount {
  l_first : L;
  l_add : L -> Qc -> Qc -> res L;
  l_positive : L -> bool
}.
Arguments l_first {L}. Arguments l_add {L}. Arguments l_positive {L}.

Section Rounded.

(** The rounding of the result of one operation, as in RoundModel.v. *)
Variable rnd : Qc -> res Qc.

(** The account of nip.c 1806, 1838 and 1844 with the function [log] of the C
    library. *)
Definition log_account (log : Qc -> Qc) : account Qc :=
  mkAccount Qc 0%Qc
    (fun l m1 m2 => let* d := rnd (log m2 - log m1)%Qc in rnd (l + d)%Qc)
    (fun l => Qc_ltb 0%Qc l).

(** The loops over the data in nipjointree.c 1125-1126 and 1134-1135. *)
Definition r_data_mass (p : potential) : res Qc :=
  for_up 0 (size_of_data p)
    (fun i m => let* x := rd (data p) i in rnd (m + x)%Qc) 0%Qc.

(** nip_clique_mass, nipjointree.c 1122-1129. *)
Definition r_clique_mass (i : nat) (jt : jtree) (ret : Qc)
  : res (jtree * Qc * code) :=
  let* c := rd (cls jt) i in
  let* m := r_data_mass (c_p c) in
  let* ret := rnd (ret + m)%Qc in
  Ok (jt, ret, NO_ERROR).

(** nip_neg_sepset_mass, nipjointree.c 1131-1138. *)
Definition r_neg_sepset_mass (s : nat) (jt : jtree) (ret : Qc)
  : res (jtree * Qc * code) :=
  let* sp := rd (sps jt) s in
  let* m := r_data_mass (s_new sp) in
  let* ret := rnd (ret - m)%Qc in
  Ok (jt, ret, NO_ERROR).

(** nip_probability_mass, nipjointree.c 1141-1155. *)
Definition r_probability_mass (jt : jtree) : res (jtree * Qc) :=
  let* jt := unmark_all jt in
  let* (jt, ret, _) :=
    join_tree_dfs (length (cls jt)) r_clique_mass r_neg_sepset_mass 0 jt 0%Qc in
  Ok (jt, ret).

(** model_prob_mass, nip.c 2276-2280. *)
Definition r_model_prob_mass (m : model) : res (model * Qc) :=
  let* (jt, r) := r_probability_mass (m_jt m) in
  Ok (set_jt m jt, r).

(** nip_sum_potential, nippotential.c 401-416. *)
Definition r_sum_potential (sum increment : option potential)
  : res (option potential * code) :=
  match sum, increment with
  | Some s, Some inc =>
      if negb (Nat.eqb (size_of_data s) (size_of_data inc))
      then Ok (Some s, EINVAL)
      else
        let* d := for_up 0 (size_of_data s)
                    (fun i d =>
                       let* x := rd d i in
                       let* y := rd (data inc) i in
                       let* z := rnd (x + y)%Qc in
                       wr d i z)
                    (data s) in
        Ok (Some (mkPot (dims s) d), NO_ERROR)
  | s, _ => Ok (s, EFAULT)
  end.

(** The loop over the variables that adds the expected counts of time step [t],
    nip.c 1937-1977, as [add_counts] of LearnModel.v. *)
Definition r_add_counts (t : nat) (m : model) (results parameters : list potential)
  : res (model * list potential * list potential) :=
  for_up 0 (length (m_vars m))
    (fun i '(m, results, parameters) =>
       let* p := rd results i in
       let* x := rd (m_vars m) i in
       if (Nat.ltb 0 t && v_old x)%bool then Ok (m, results, parameters)
       else
         let* (m, c) := find_family m i in
         match c with
         | None => UB
         | Some c =>
             let* (m, mapping) := find_family_mapping m c i in
             let* k := rd (cls (m_jt m)) c in
             let* (p, _) := r_general_marginalise rnd (c_p k) p mapping in
             let* (p, _) := r_normalise_potential rnd (Some p) in
             match p with
             | None => UB
             | Some p =>
                 let* results := wr results i p in
                 let* s := rd parameters i in
                 let* (s, _) := r_sum_potential (Some s) (Some p) in
                 match s with
                 | None => UB
                 | Some s => let* parameters := wr parameters i s in Ok (m, results, parameters)
                 end
             end
         end)
    (m, results, parameters).

(** The backward phase of e_step, nip.c 1895-2002. *)
Definition r_e_backward (m : model) (ts : time_series) (alpha_gamma results parameters : list potential)
  : res (model * list potential * list potential * list potential) :=
  let T := length (ts_data ts) in
  for_down T 0
    (fun t '(m, alpha_gamma, results, parameters) =>
       let* m :=
         if Nat.ltb 0 t then
           let* a := rd alpha_gamma (t - 1) in r_finish_message rnd m FORWARD a None
         else Ok m in
       let* (m, _) := r_insert_ts_step rnd ts (Z.of_nat t) m MARK_ON in
       let* m :=
         if Nat.ltb t (T - 1) then
           let* g := rd alpha_gamma (t + 1) in
           let* a := rd alpha_gamma t in
           r_finish_message rnd m BACKWARD g (Some a)
         else Ok m in
       let* m := r_make_consistent_model rnd m in
       let* (m, results, parameters) := r_add_counts t m results parameters in
       let* alpha_gamma :=
         if Nat.ltb 0 t then
           let* g := rd alpha_gamma t in
           let* g := r_start_message rnd m BACKWARD g in
           wr alpha_gamma t g
         else Ok alpha_gamma in
       let* m := r_reset_model rnd m in
       let* m := r_use_priors rnd m (Nat.ltb 1 t) in
       Ok (m, alpha_gamma, results, parameters))
    (m, alpha_gamma, results, parameters).

Context {L : Type}.

(** The account of the variable *loglikelihood, nip.c 1806, 1838 and 1844. *)
Variable A : account L.

(** One step of the forward phase of e_step, nip.c 1808-1890.  [true]: the
    function returns NIP_ERROR_BAD_LUCK. *)
Definition r_e_forward_step (ts : time_series) (t : nat) (m : model) (alpha_gamma : list potential)
    (ll : L) : res (model * list potential * L * bool) :=
  let T := length (ts_data ts) in
  let* m :=
    if Nat.ltb 0 t then
      let* a := rd alpha_gamma (t - 1) in r_finish_message rnd m FORWARD a None
    else Ok m in
  let* m := r_make_consistent_model rnd m in
  let* (m, m1) := r_model_prob_mass m in
  let* (m, _) := r_insert_ts_step rnd ts (Z.of_nat t) m MARK_ON in
  let* m := r_make_consistent_model rnd m in
  let* (m, m2) := r_model_prob_mass m in
  let* ll := if (Qc_ltb 0 m1 && Qc_ltb 0 m2)%bool then l_add A ll m1 m2 else Ok ll in
  if (negb (Qc_ltb 0 m1) || negb (Qc_ltb 0 m2) || l_positive A ll)%bool
  then Ok (m, alpha_gamma, ll, true)
  else
    let* a := rd alpha_gamma t in
    let* a := r_start_message rnd m FORWARD a in
    let* alpha_gamma := wr alpha_gamma t a in
    let* m := r_reset_model rnd m in
    let* m := r_use_priors rnd m (Nat.ltb 1 T) in
    Ok (m, alpha_gamma, ll, false).

(** Steps [t], [t + 1], ... [t + k - 1] until one returns, nip.c 1807-1890. *)
Fixpoint r_e_forward (ts : time_series) (k t : nat) (m : model) (alpha_gamma : list potential)
    (ll : L) : res (model * list potential * L * bool) :=
  match k with
  | O => Ok (m, alpha_gamma, ll, false)
  | S k' =>
      let* (m, alpha_gamma, ll, bad) := r_e_forward_step ts t m alpha_gamma ll in
      if (bad : bool) then Ok (m, alpha_gamma, ll, true)
      else r_e_forward ts k' (t + 1) m alpha_gamma ll
  end.

(** e_step, nip.c 1726-2017.  Simplified: the model is an argument instead of
    ts->model. *)
Definition r_e_step (m : model) (ts : time_series) (parameters : list potential)
  : res (model * list potential * L * code) :=
  let T := length (ts_data ts) in
  let* results := new_results_like (length (m_vars m)) parameters in
  let* alpha := interface_potential m in
  let alpha_gamma := repeat alpha (T + 1) in
  let* m := r_reset_model rnd m in
  let* m := r_use_priors rnd m false in
  let* (m, alpha_gamma, ll, bad) := r_e_forward ts T 0 m alpha_gamma (l_first A) in
  if (bad : bool) then Ok (m, parameters, ll, BAD_LUCK)
  else
    let* (m, _, _, parameters) := r_e_backward m ts alpha_gamma results parameters in
    Ok (m, parameters, ll, NO_ERROR).

End Rounded.

(** The account of LearnModel.v, for nip.c 1806, 1838 and 1844: the exponential of
    the log-likelihood. *)
Definition exact_account : account Qc :=
  mkAccount Qc 1%Qc (fun l m1 m2 => Ok (l * (m2 / m1))%Qc) (fun l => Qc_ltb 1%Qc l).
