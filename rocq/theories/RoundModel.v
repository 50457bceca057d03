(** * Inference with rounded arithmetic

    The same functions as in PotentialModel, JoinTreeModel, NipModel and
    SliceModel, with one difference: every sum, product and quotient of two
    doubles that the code computes goes through [rnd], in the order in which the
    code computes them.  [rnd x = Ok y] says that the machine represents the
    result [x] of one operation by the double [y]; anything else says that [x]
    is outside of the range in which it does so with a small relative error
    (overflow, or underflow to a subnormal number), and the run is not looked at
    any further.  Simplified: each operation is rounded on its own, to the
    precision of the type double (no fused operations and no extended
    intermediate results); infinities, NaNs and subnormal numbers do not occur;
    the likelihood of a series is not asked for.  Functions that only copy,
    compare and store numbers are those of the exact model. *)
From Coq Require Import String.
From Verif Require Import Base PotentialModel VariableModel JoinTreeModel NipModel SliceModel.
Import ListNotations.
Open Scope nat_scope.
Local Open Scope res_scope.

Section Rounded.

(** The rounding of the result of one operation on doubles, in every line cited
    below that adds, multiplies or divides. *)
Variable rnd : Qc -> res Qc.

(** nip_general_marginalise, nippotential.c 267-306; the additions are those of the
    assignments with += at the two loops. *)
Definition r_general_marginalise (source destination : potential)
    (mapping : list nat) : res (potential * code) :=
  if Nat.ltb (dimensionality source) (dimensionality destination)
  then Ok (destination, EINVAL)
  else if Nat.eqb (dimensionality destination) 0 then
    let* d0 := wr (data destination) 0 0%Qc in
    let* d := for_up 0 (size_of_data source)
                (fun i d =>
                   let* x := rd d 0 in
                   let* s := rd (data source) i in
                   let* y := rnd (x + s)%Qc in
                   wr d 0 y)
                d0 in
    Ok (mkPot (dims destination) d, NO_ERROR)
  else
    let* dest0 := uniform_potential destination 0%Qc in
    let* dest :=
      for_up 0 (size_of_data source)
        (fun i dest =>
           let* six := inverse_mapping source i (temp_index source) in
           let* dix := choose_potential_indices six (temp_index dest) mapping
                         (dimensionality dest) in
           let* k := get_potential_pointer dest dix in
           let* x := rd (data dest) k in
           let* s := rd (data source) i in
           let* y := rnd (x + s)%Qc in
           let* d := wr (data dest) k y in
           Ok (mkPot (dims dest) d))
        dest0 in
    Ok (dest, NO_ERROR).

(** nip_total_marginalise, nippotential.c 309-340. *)
Definition r_total_marginalise (source : potential) (destination : list Qc)
    (variable : Z) : res (list Qc * code) :=
  if (variable <? 0)%Z || (Z.of_nat (dimensionality source) <=? variable)%Z
  then Ok (destination, EINVAL)
  else
    let v := Z.to_nat variable in
    let* cv := rd (card_array source) v in
    let* dest0 := for_up 0 cv (fun i d => wr d i 0%Qc) destination in
    let* (dest, _) :=
      for_up 0 (size_of_data source)
        (fun i '(dest, index) =>
           let* (_, _, index') :=
             for_down (dimensionality source) v
               (fun j '(x, flat_index, index) =>
                  let* c := rd (card_array source) j in
                  let* x' := idiv x c in
                  let* q := idiv flat_index x' in
                  Ok (x', flat_index - q * x', q))
               (size_of_data source, i, index) in
           let* x := rd dest index' in
           let* s := rd (data source) i in
           let* y := rnd (x + s)%Qc in
           let* dest' := wr dest index' y in
           Ok (dest', index'))
        (dest0, 0) in
    Ok (dest, NO_ERROR).

(** nip_normalise_array, nippotential.c 343-353, applied to the [n] cells starting
    at position [off] of [result].  Note that the test of the sum is made on the
    rounded sum. *)
Definition r_normalise_array_at (result : list Qc) (off n : nat)
  : res (list Qc) :=
  let* sum := for_up 0 n
                (fun i sum => let* x := rd result (off + i) in rnd (sum + x)%Qc)
                0%Qc in
  if qzero sum then Ok result
  else for_up 0 n
         (fun i r => let* x := rd r (off + i) in
                     let* y := qdiv x sum in
                     let* y := rnd y in
                     wr r (off + i) y)
         result.

(** nip_normalise_array, nippotential.c 343-353. *)
Definition r_normalise_array (result : list Qc) (array_size : nat)
  : res (list Qc) := r_normalise_array_at result 0 array_size.

(** nip_normalise_potential, nippotential.c 357-362. *)
Definition r_normalise_potential (p : option potential)
  : res (option potential * code) :=
  match p with
  | None => Ok (None, EFAULT)
  | Some p =>
      let* d := r_normalise_array (data p) (size_of_data p) in
      Ok (Some (mkPot (dims p) d), NO_ERROR)
  end.

(** One step of the division in nip_update_potential, nippotential.c 447-452 and
    469-475. *)
Definition r_update_divide (x y : Qc) : res Qc :=
  if qzero y then Ok 0%Qc else let* q := qdiv x y in rnd q.

(** nip_update_potential, nippotential.c 419-479. *)
Definition r_update_potential (numerator denominator : option potential)
    (target : potential) (mapping : list nat) : res (potential * code) :=
  match numerator, denominator with
  | None, None => Ok (target, EINVAL)
  | _, _ =>
    let bad :=
      match numerator, denominator with
      | Some n, Some d =>
          negb (Nat.eqb (dimensionality n) (dimensionality d))
          || Nat.ltb (dimensionality target) (dimensionality n)
      | _, _ => false
      end in
    if bad then Ok (target, EINVAL)
    else
      let nvars :=
        match numerator, denominator with
        | Some n, _ => dimensionality n
        | None, Some d => dimensionality d
        | None, None => 0
        end in
      let source_index := repeat 0 (Nat.max 1 nvars) in
      if Nat.eqb nvars 0 then
        let* d :=
          for_up 0 (size_of_data target)
            (fun i d =>
               let* d1 :=
                 match numerator with
                 | Some n =>
                     let* x := rd d i in
                     let* y := rd (data n) 0 in
                     let* t := rnd (x * y)%Qc in
                     wr d i t
                 | None => Ok d
                 end in
               match denominator with
               | Some dn =>
                   let* y := rd (data dn) 0 in
                   let* x := rd d1 i in
                   let* z := r_update_divide x y in
                   wr d1 i z
               | None => Ok d1
               end)
            (data target) in
        Ok (mkPot (dims target) d, NO_ERROR)
      else
        let* d :=
          for_up 0 (size_of_data target)
            (fun i d =>
               let* tix := inverse_mapping target i (temp_index target) in
               let* six := choose_potential_indices tix source_index mapping
                             nvars in
               let* d1 :=
                 match numerator with
                 | Some n =>
                     let* k := get_potential_pointer n six in
                     let* y := rd (data n) k in
                     let* x := rd d i in
                     let* t := rnd (x * y)%Qc in
                     wr d i t
                 | None => Ok d
                 end in
               match denominator with
               | Some dn =>
                   let* k := get_potential_pointer dn six in
                   let* y := rd (data dn) k in
                   let* x := rd d1 i in
                   let* z := r_update_divide x y in
                   wr d1 i z
               | None => Ok d1
               end)
            (data target) in
        Ok (mkPot (dims target) d, NO_ERROR)
  end.

(** nip_update_evidence, nippotential.c 482-504. *)
Definition r_update_evidence (numerator : list Qc) (denominator : option (list Qc))
    (target : potential) (var : nat) : res potential :=
  let* d :=
    for_up 0 (size_of_data target)
      (fun i d =>
         let* tix := inverse_mapping target i (temp_index target) in
         let* s := rd tix var in
         let* x := rd d i in
         let* y := rd numerator s in
         let* t := rnd (x * y)%Qc in
         let* d1 := wr d i t in
         match denominator with
         | Some dn =>
             let* z := rd dn s in
             if qzero z then Ok d1
             else
               let* x1 := rd d1 i in
               let* q := qdiv x1 z in
               let* q := rnd q in
               wr d1 i q
         | None => Ok d1
         end)
      (data target) in
  Ok (mkPot (dims target) d).

(** nip_message_pass, nipjointree.c 645-678. *)
Definition r_message_pass (jt : jtree) (c1 s c2 : nat) : res (jtree * code) :=
  let* sp := rd (sps jt) s in
  (* switch the pointers old and new *)
  let old := s_new sp in
  let new := s_old sp in
  let* jt := put_sepset jt s (set_old_new sp old new) in
  let* k1 := rd (cls jt) c1 in
  let* m := mapper (arr (c_vars k1)) (arr (s_vars sp))
              (dimensionality (c_p k1)) (dimensionality new) in
  let* (new, err) := r_general_marginalise (c_p k1) new (unarr m) in
  let* jt := put_sepset jt s (set_old_new sp old new) in
  if is_err err then Ok (jt, err)
  else
    let* k2 := rd (cls jt) c2 in
    let* m := mapper (arr (c_vars k2)) (arr (s_vars sp))
                (dimensionality (c_p k2)) (dimensionality new) in
    let* (p, err) := r_update_potential (Some new) (Some old) (c_p k2) (unarr m) in
    let* jt := put_clique jt c2 (set_p k2 p) in
    Ok (jt, err).

(** nip_distribute_evidence, nipjointree.c 549-596. *)
Fixpoint r_distribute_evidence (fuel : nat) (jt : jtree) (c : nat)
  : res (jtree * code) :=
  match fuel with
  | O => NoFuel
  | S f =>
      let* k := rd (cls jt) c in
      let* jt := mark_clique jt c in
      let* (jt, err) :=
        each (c_sepsets k)
          (fun s jt =>
             let* sp := rd (sps jt) s in
             let* m1 := clique_marked jt (s_first sp) in
             if negb m1 then r_message_pass jt c s (s_first sp)
             else
               let* m2 := clique_marked jt (s_second sp) in
               if negb m2 then r_message_pass jt c s (s_second sp)
               else Ok (jt, NO_ERROR))
          jt in
      if is_err err then Ok (jt, err)
      else
        each (c_sepsets k)
          (fun s jt =>
             let* sp := rd (sps jt) s in
             let* m1 := clique_marked jt (s_first sp) in
             if negb m1 then r_distribute_evidence f jt (s_first sp)
             else
               let* m2 := clique_marked jt (s_second sp) in
               if negb m2 then r_distribute_evidence f jt (s_second sp)
               else Ok (jt, NO_ERROR))
          jt
  end.

(** nip_collect_evidence, nipjointree.c 599-642; [parent] as in [collect_evidence]. *)
Fixpoint r_collect_evidence (fuel : nat) (jt : jtree) (parent : option (nat * nat))
    (c2 : nat) : res (jtree * code) :=
  match fuel with
  | O => NoFuel
  | S f =>
      let* jt := mark_clique jt c2 in
      let* k := rd (cls jt) c2 in
      let* (jt, err) :=
        each (c_sepsets k)
          (fun s jt =>
             let* sp := rd (sps jt) s in
             let* m1 := clique_marked jt (s_first sp) in
             let* (jt, err) :=
               if negb m1 then r_collect_evidence f jt (Some (c2, s)) (s_first sp)
               else Ok (jt, NO_ERROR) in
             if is_err err then Ok (jt, err)
             else
               let* m2 := clique_marked jt (s_second sp) in
               if negb m2 then r_collect_evidence f jt (Some (c2, s)) (s_second sp)
               else Ok (jt, NO_ERROR))
          jt in
      if is_err err then Ok (jt, err)
      else
        match parent with
        | None => Ok (jt, NO_ERROR)
        | Some (c1, s12) => r_message_pass jt c2 s12 c1
        end
  end.

(** make_consistent, nip.c 1618-1635. *)
Definition r_make_consistent (jt : jtree) : res (jtree * code) :=
  let* jt := unmark_all jt in
  let* (jt, err) := r_collect_evidence (length (cls jt)) jt None 0 in
  if is_err err then Ok (jt, GENERAL)
  else
    let* jt := unmark_all jt in
    let* (jt, err) := r_distribute_evidence (length (cls jt)) jt 0 in
    if is_err err then Ok (jt, GENERAL) else Ok (jt, NO_ERROR).

(** nip_marginalise_clique, nipjointree.c 744-757. *)
Definition r_marginalise_clique (jt : jtree) (i v : nat) (r : list Qc)
  : res (list Qc * code) :=
  let* c := rd (cls jt) i in
  let* ix := clique_var_index c v in
  match ix with
  | None => Ok (r, EINVAL)
  | Some k => r_total_marginalise (c_p c) r (Z.of_nat k)
  end.

(** The multiplication [nip_update_evidence(num, den, c->p, index)] in
    nipjointree.c 776-779, 841-854 and 894-901, as [multiply_vector]. *)
Definition r_multiply_vector (m : model) (c : option nat) (v : nat)
    (num : list Qc) (den : option (list Qc)) : res model :=
  match c with
  | None => UB
  | Some c =>
      let* k := rd (cls (m_jt m)) c in
      let* ix := clique_var_index k v in
      match ix with
      | None => UB
      | Some index =>
          let* p := r_update_evidence num den (c_p k) index in
          let* jt := put_clique (m_jt m) c (set_p k p) in
          Ok (set_jt m jt)
      end
  end.

(** nip_global_retraction, nipjointree.c 760-786. *)
Definition r_global_retraction (m : model) : res (model * code) :=
  let* jt := unmark_all (m_jt m) in
  let* (jt, _, _) := join_tree_dfs (length (cls jt)) retract_clique retract_sepset 0 jt tt in
  let* m :=
    for_up 0 (length (m_vars m))
      (fun i m =>
         let* (m, c) := find_family m i in
         let* x := rd (m_vars m) i in
         r_multiply_vector m c i (v_lik x) None)
      (set_jt m jt) in
  Ok (m, NO_ERROR).

(** nip_enter_evidence, nipjointree.c 828-870. *)
Definition r_enter_evidence (m : model) (v : nat) (evidence : option (list Qc))
  : res (model * code) :=
  match evidence with
  | None => Ok (m, EFAULT)
  | Some evidence =>
      let* (m, c) := find_family m v in
      match c with
      | None => Ok (m, EINVAL)
      | Some _ =>
          let* x := rd (m_vars m) v in
          let* retraction :=
            for_up 0 (v_card x)
              (fun i r =>
                 let* l := rd (v_lik x) i in
                 let* e := rd evidence i in
                 Ok (if (qzero l && negb (qzero e))%bool then true else r))
              false in
          let* m :=
            if (retraction : bool) then Ok m
            else r_multiply_vector m c v evidence (Some (v_lik x)) in
          let* m := update_likelihood m v evidence in
          if (retraction : bool) then r_global_retraction m else Ok (m, NO_ERROR)
      end
  end.

(** nip_enter_index_observation, nipjointree.c 801-825. *)
Definition r_enter_index_observation (m : model) (v : nat) (index : Z)
  : res (model * code) :=
  if (index <? 0)%Z then Ok (m, NO_ERROR)
  else
    let* x := rd (m_vars m) v in
    let* evidence :=
      for_up 0 (v_card x)
        (fun i e => wr e i (if (Z.of_nat i =? index)%Z then 1%Qc else 0%Qc))
        (repeat 0%Qc (v_card x)) in
    r_enter_evidence m v (Some evidence).

(** nip_enter_prior, nipjointree.c 873-912. *)
Definition r_enter_prior (m : model) (v : nat) (prior : list Qc) : res (model * code) :=
  let* (m, c) := find_family m v in
  let* x := rd (m_vars m) v in
  let* e :=
    for_up 0 (v_card x)
      (fun i e => let* y := rd prior i in
                  Ok (if Qclt_le_dec 0%Qc y then false else e))
      true in
  match c with
  | None => Ok (m, EINVAL)
  | Some _ =>
      if (e : bool) then Ok (m, EINVAL)
      else
        let* m := r_multiply_vector m c v prior None in
        Ok (m, NO_ERROR)
  end.

(** reset_model, nip.c 60-72. *)
Definition r_reset_model (m : model) : res model :=
  let* m :=
    for_up 0 (length (m_vars m))
      (fun i m =>
         let* m := reset_likelihood m i in
         let* x := rd (m_vars m) i in
         put_var m i (set_entered x false))
      m in
  let* (m, _) := r_global_retraction m in
  Ok m.

(** use_priors, nip.c 87-115. *)
Definition r_use_priors (m : model) (has_history : bool) : res model :=
  for_up 0 (length (m_indep m))
    (fun i m =>
       let* v := rd (m_indep m) i in
       let* x := rd (m_vars m) v in
       match v_prior x with
       | None => UB
       | Some prior =>
           if v_entered x then Ok m
           else if (negb has_history || negb (v_old x))%bool then
             let* (m, _) := r_enter_prior m v prior in
             let* x := rd (m_vars m) v in
             put_var m v (set_entered x true)
           else Ok m
       end)
    m.

(** make_consistent, nip.c 1618-1635, on a model. *)
Definition r_make_consistent_model (m : model) : res model :=
  let* (jt, _) := r_make_consistent (m_jt m) in
  Ok (set_jt m jt).

(** nip_enter_observation, nipjointree.c 789-798. *)
Definition r_enter_observation (names : list named_variable) (m : model) (v : nat)
    (state : string) : res (model * code) :=
  let* nv := rd names v in
  let* index := variable_state_index nv state in
  if (index <? 0)%Z then Ok (m, NO_ERROR)
  else r_enter_index_observation m v index.

(** insert_hard_evidence, nip.c 978-991. *)
Definition r_insert_hard_evidence (names : list named_variable) (m : model)
    (varname observation : string) : res (model * code) :=
  let* v := model_variable names varname in
  match v with
  | None => Ok (m, EINVAL)
  | Some v =>
      let* (m, ret) := r_enter_observation names m v observation in
      let* m := r_make_consistent_model m in
      Ok (m, ret)
  end.

(** insert_soft_evidence, nip.c 994-1005. *)
Definition r_insert_soft_evidence (names : list named_variable) (m : model)
    (varname : string) (distribution : option (list Qc)) : res (model * code) :=
  let* v := model_variable names varname in
  match v with
  | None => Ok (m, EINVAL)
  | Some v =>
      let* (m, ret) := r_enter_evidence m v distribution in
      let* m := r_make_consistent_model m in
      Ok (m, ret)
  end.

(** insert_ts_step, nip.c 1009-1028. *)
Definition r_insert_ts_step (ts : time_series) (t : Z) (m : model) (mark_mask : nat)
  : res (model * code) :=
  if ((t <? 0) || (Z.of_nat (length (ts_data ts)) <=? t))%Z%bool then Ok (m, EINVAL)
  else
    let* m :=
      for_up 0 (length (ts_observed ts))
        (fun i m =>
           let* v := rd (ts_observed ts) i in
           let* x := rd (m_vars m) v in
           if Nat.eqb (Nat.land (v_mark x) mark_mask) 0 then Ok m
           else
             let* row := rd (ts_data ts) (Z.to_nat t) in
             let* d := rd row i in
             if (0 <=? d)%Z then
               let* (m, _) := r_enter_index_observation m v d in Ok m
             else Ok m)
        m in
    Ok (m, NO_ERROR).

(** get_probability, nip.c 2283-2320. *)
Definition r_get_probability (m : model) (v : nat) : res (model * option (list Qc)) :=
  let* x := rd (m_vars m) v in
  let cardinality := v_card x in
  let result := repeat 0%Qc cardinality in
  let* (m, c) := find_family m v in
  match c with
  | None => Ok (m, None)
  | Some c =>
      let* (result, _) := r_marginalise_clique (m_jt m) c v result in
      let* result := r_normalise_array result cardinality in
      Ok (m, Some result)
  end.

(** start_timeslice_message_pass, nip.c 1058-1092. *)
Definition r_start_message (m : model) (dir : direction) (alpha_or_gamma : potential)
  : res potential :=
  let nvars := length (m_out m) in
  if Nat.eqb nvars 0 then uniform_potential alpha_or_gamma 1%Qc
  else
    let vars := match dir with FORWARD => m_out m | BACKWARD => m_prev m end in
    let c := match dir with FORWARD => m_out_clique m | BACKWARD => m_in_clique m end in
    let* k := rd (cls (m_jt m)) c in
    let* mapping := mapper (arr (c_vars k)) (arr vars) (dimensionality (c_p k)) nvars in
    let* (p, _) := r_general_marginalise (c_p k) alpha_or_gamma (unarr mapping) in
    let* (p, _) := r_normalise_potential (Some p) in
    match p with Some p => Ok p | None => UB end.

(** finish_timeslice_message_pass, nip.c 1096-1125. *)
Definition r_finish_message (m : model) (dir : direction) (num : potential)
    (den : option potential) : res model :=
  let nvars := length (m_out m) in
  if Nat.eqb nvars 0 then Ok m
  else
    let vars := match dir with FORWARD => m_prev m | BACKWARD => m_out m end in
    let c := match dir with FORWARD => m_in_clique m | BACKWARD => m_out_clique m end in
    let* k := rd (cls (m_jt m)) c in
    let* mapping := mapper (arr (c_vars k)) (arr vars) (dimensionality (c_p k)) nvars in
    let* (p, _) := r_update_potential (Some num) den (c_p k) (unarr mapping) in
    let* jt := put_clique (m_jt m) c (set_p k p) in
    Ok (set_jt m jt).

(** The results of one time step, nip.c 1296-1312 and 1553-1570. *)
Definition r_write_results (m : model) (vars : list nat) (row : list (list Qc))
  : res (model * list (list Qc)) :=
  for_up 0 (length vars)
    (fun i '(m, row) =>
       let* temp := rd vars i in
       let* (m, clique_of_interest) := find_family m temp in
       match clique_of_interest with
       | None => UB
       | Some c =>
           let* d := rd row i in
           let* (d, _) := r_marginalise_clique (m_jt m) c temp d in
           let* x := rd (m_vars m) temp in
           let* d := r_normalise_array d (v_card x) in
           let* row := wr row i d in
           Ok (m, row)
       end)
    (m, row).

(** forward_inference, nip.c 1130-1337.  Simplified: only for loglikelihood == NULL. *)
Definition r_forward_inference (m : model) (ts : time_series) (vars : list nat)
  : res (model * list (list (list Qc))) :=
  let T := length (ts_data ts) in
  let* results := new_results m vars T in
  let* alpha := interface_potential m in
  let* m := r_reset_model m in
  let* m := r_use_priors m false in
  let* (m, _, results) :=
    for_up 0 T
      (fun t '(m, alpha, results) =>
         let* m := if Nat.ltb 0 t then r_finish_message m FORWARD alpha None else Ok m in
         let* (m, _) := r_insert_ts_step ts (Z.of_nat t) m MARK_ON in
         let* m := r_make_consistent_model m in
         let* row := rd results t in
         let* (m, row) := r_write_results m vars row in
         let* results := wr results t row in
         let* alpha := r_start_message m FORWARD alpha in
         let* m := r_reset_model m in
         let* m := r_use_priors m true in
         Ok (m, alpha, results))
      (m, alpha, results) in
  Ok (m, results).

(** The forward phase of forward_backward_inference, nip.c 1441-1513, for
    loglikelihood == NULL. *)
Definition r_forward_phase (m : model) (ts : time_series)
  : res (model * list potential) :=
  let T := length (ts_data ts) in
  let* alpha := interface_potential m in
  let alpha_gamma := repeat alpha (T + 1) in
  let* m := r_reset_model m in
  let* m := r_use_priors m false in
  for_up 0 T
    (fun t '(m, alpha_gamma) =>
       let* m :=
         if Nat.ltb 0 t then
           let* a := rd alpha_gamma (t - 1) in r_finish_message m FORWARD a None
         else Ok m in
       let* (m, _) := r_insert_ts_step ts (Z.of_nat t) m MARK_ON in
       let* m := r_make_consistent_model m in
       let* a := rd alpha_gamma t in
       let* a := r_start_message m FORWARD a in
       let* alpha_gamma := wr alpha_gamma t a in
       let* m := r_reset_model m in
       let* m := r_use_priors m (Nat.ltb 1 T) in
       Ok (m, alpha_gamma))
    (m, alpha_gamma).

(** The backward phase, nip.c 1518-1591. *)
Definition r_backward_phase (m : model) (ts : time_series) (vars : list nat)
    (alpha_gamma : list potential) (results : list (list (list Qc)))
  : res (model * list potential * list (list (list Qc))) :=
  let T := length (ts_data ts) in
  for_down T 0
    (fun t '(m, alpha_gamma, results) =>
       let* m :=
         if Nat.ltb 0 t then
           let* a := rd alpha_gamma (t - 1) in r_finish_message m FORWARD a None
         else Ok m in
       let* (m, _) := r_insert_ts_step ts (Z.of_nat t) m MARK_ON in
       let* m :=
         if Nat.ltb t (T - 1) then
           let* g := rd alpha_gamma (t + 1) in
           let* a := rd alpha_gamma t in
           r_finish_message m BACKWARD g (Some a)
         else Ok m in
       let* m := r_make_consistent_model m in
       let* row := rd results t in
       let* (m, row) := r_write_results m vars row in
       let* results := wr results t row in
       let* alpha_gamma :=
         if Nat.ltb 0 t then
           let* g := rd alpha_gamma t in
           let* g := r_start_message m BACKWARD g in
           wr alpha_gamma t g
         else Ok alpha_gamma in
       let* m := r_reset_model m in
       let* m := r_use_priors m (Nat.ltb 1 t) in
       Ok (m, alpha_gamma, results))
    (m, alpha_gamma, results).

(** forward_backward_inference, nip.c 1342-1599, for loglikelihood == NULL. *)
Definition r_forward_backward_inference (m : model) (ts : time_series) (vars : list nat)
  : res (model * list (list (list Qc))) :=
  let* results := new_results m vars (length (ts_data ts)) in
  let* (m, alpha_gamma) := r_forward_phase m ts in
  let* (m, _, results) := r_backward_phase m ts vars alpha_gamma results in
  Ok (m, results).

End Rounded.
