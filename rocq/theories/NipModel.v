(** * Model of the evidence handling: src/nipjointree.c 682-1007, src/nip.c

    A variable is its position in the array model->variables; this position
    also serves as its identifier (identifiers are unique, C18).  A clique is
    its position in model->cliques.  Errors reported with
    nip_report_error(..., 1) do not stop the code and are not recorded here
    (C53); the returned code is. *)
From Coq Require Import String.
From Verif Require Import Base PotentialModel VariableModel JoinTreeModel.
Import ListNotations.
Open Scope nat_scope.
Local Open Scope res_scope.

(** nip_variable_struct, nipvariable.h 53-81, without names (see
    [named_variable] of VariableModel.v) and positions.  [v_family = None] and
    [v_fmap = None] are NULL.  [v_old] is the bit
    NIP_INTERFACE_OLD_OUTGOING of interface_status. *)
Record vrec := mkVar {
  v_card : nat;
  v_lik : list Qc;
  v_prior : option (list Qc);
  v_entered : bool;
  v_parents : list nat;
  v_family : option nat;
  v_fmap : option (list nat);
  v_old : bool;
  v_mark : nat
}.

(** nip_model_struct, nip.h 80-113, without next/previous, incoming interface
    and drawing.  num_of_vars is the length of [m_vars]; the length of
    [m_indep] is num_of_vars - num_of_children.  [m_out] and [m_prev] are
    outgoing_interface and previous_outgoing_interface. *)
Record model := mkModel {
  m_vars : list vrec;
  m_jt : jtree;
  m_indep : list nat;
  m_children : list nat;
  m_out : list nat;
  m_prev : list nat;
  m_in_clique : nat;
  m_out_clique : nat
}.

(** Field assignments. *)
Definition set_lik (v : vrec) (l : list Qc) : vrec :=
  mkVar (v_card v) l (v_prior v) (v_entered v) (v_parents v) (v_family v) (v_fmap v)
    (v_old v) (v_mark v).
Definition set_prior (v : vrec) (l : option (list Qc)) : vrec :=
  mkVar (v_card v) (v_lik v) l (v_entered v) (v_parents v) (v_family v) (v_fmap v)
    (v_old v) (v_mark v).
Definition set_entered (v : vrec) (b : bool) : vrec :=
  mkVar (v_card v) (v_lik v) (v_prior v) b (v_parents v) (v_family v) (v_fmap v)
    (v_old v) (v_mark v).
Definition set_family (v : vrec) (f : option nat) : vrec :=
  mkVar (v_card v) (v_lik v) (v_prior v) (v_entered v) (v_parents v) f (v_fmap v)
    (v_old v) (v_mark v).
Definition set_fmap (v : vrec) (f : option (list nat)) : vrec :=
  mkVar (v_card v) (v_lik v) (v_prior v) (v_entered v) (v_parents v) (v_family v) f
    (v_old v) (v_mark v).
Definition set_vmark (v : vrec) (k : nat) : vrec :=
  mkVar (v_card v) (v_lik v) (v_prior v) (v_entered v) (v_parents v) (v_family v) (v_fmap v)
    (v_old v) k.
Definition set_jt (m : model) (jt : jtree) : model :=
  mkModel (m_vars m) jt (m_indep m) (m_children m) (m_out m) (m_prev m)
    (m_in_clique m) (m_out_clique m).
Definition put_var (m : model) (v : nat) (x : vrec) : res model :=
  let* l := wr (m_vars m) v x in
  Ok (mkModel l (m_jt m) (m_indep m) (m_children m) (m_out m) (m_prev m)
        (m_in_clique m) (m_out_clique m)).

(** The cardinality field of a variable (identifiers outside of the model
    have one state, a value never used). *)
Definition cardm (m : model) (v : nat) : nat :=
  match nth_error (m_vars m) v with Some x => v_card x | None => 1 end.

(** nip_find_family, nipjointree.c 936-960. *)
Definition find_family (m : model) (v : nat) : res (model * option nat) :=
  let* x := rd (m_vars m) v in
  match v_family x with
  | Some k => Ok (m, Some k)
  | None =>
      let n := length (v_parents x) in
      let* family :=
        for_up 0 n
          (fun i l => let* p := rd (v_parents x) i in wr l i p)
          (repeat 0 (n + 1)) in
      let* family := wr family n v in
      let* found := find_clique (m_jt m) family (n + 1) in
      let* m := put_var m v (set_family x found) in
      Ok (m, found)
  end.

(** nip_find_family_mapping, nipjointree.c 963-1007, for a non-NULL clique. *)
Definition find_family_mapping (m : model) (c v : nat)
  : res (model * list nat) :=
  let* x := rd (m_vars m) v in
  match v_fmap x with
  | Some r => Ok (m, r)
  | None =>
      let* k := rd (cls (m_jt m)) c in
      let n := length (v_parents x) + 1 in
      let* f := find_up 0 (dimensionality (c_p k))
                  (fun i => let* y := rd (c_vars k) i in Ok (equal_variables y v)) in
      let* result :=
        match f with Some i => wr (repeat 0 n) 0 i | None => Ok (repeat 0 n) end in
      let* result :=
        if Nat.ltb 1 n then
          let n := n - 1 in
          let* (r, _) :=
            for_up 0 (dimensionality (c_p k))
              (fun i '(r, p) =>
                 if Nat.eqb p n then Ok (r, p) (* break *)
                 else
                   let* y := rd (c_vars k) i in
                   let* f := find_up 0 n
                     (fun j => let* pj := rd (v_parents x) j in Ok (equal_variables y pj)) in
                   match f with
                   | Some j => let* r := wr r (j + 1) i in Ok (r, p + 1)
                   | None => Ok (r, p)
                   end)
              (result, 0) in
          Ok r
        else Ok result in
      let* m := put_var m v (set_fmap x (Some result)) in
      Ok (m, result)
  end.

(** nip_init_clique, nipjointree.c 682-741, for the clique [c], the variable
    [child] and the potential [p]. *)
Definition init_clique (m : model) (c child : nat) (p : potential)
    (transient : bool) : res (model * code) :=
  let* x := rd (m_vars m) child in
  let* k := rd (cls (m_jt m)) c in
  let* mapping :=
    if Nat.ltb (dimensionality p) (dimensionality (c_p k)) then
      let* (mp, _) :=
        for_up 0 (dimensionality (c_p k))
          (fun i '(mp, kk) =>
             if Nat.eqb kk (dimensionality p) then Ok (mp, kk) (* break *)
             else
               let* var := rd (c_vars k) i in
               let* (mp, kk) :=
                 for_up 0 (dimensionality p - 1)
                   (fun j '(mp, kk) =>
                      let* pj := rd (v_parents x) j in
                      if equal_variables var pj
                      then let* mp := wr mp kk i in Ok (mp, kk + 1)
                      else Ok (mp, kk))
                   (mp, kk) in
               if equal_variables var child
               then let* mp := wr mp kk i in Ok (mp, kk + 1)
               else Ok (mp, kk))
          (repeat 0 (dimensionality p), 0) in
      Ok (Some mp)
    else Ok None in
  let* (t, err) := init_potential p (c_p k) mapping in
  let* jt := put_clique (m_jt m) c (set_p k t) in
  let m := set_jt m jt in
  if is_err err then Ok (m, err)
  else if (transient : bool) then Ok (m, NO_ERROR)
  else
    let* k := rd (cls (m_jt m)) c in
    let* (t, err) := init_potential p (c_orig k) mapping in
    let* jt := put_clique (m_jt m) c (set_orig k t) in
    Ok (set_jt m jt, err).

(** The multiplication [nip_update_evidence(num, den, c->p, index)] with
    [index = nip_clique_var_index(c, v)], as in nipjointree.c 776-779, 841-854
    and 894-901.  A NULL clique is dereferenced in line 779; index -1 is used
    as a subscript. *)
Definition multiply_vector (m : model) (c : option nat) (v : nat)
    (num : list Qc) (den : option (list Qc)) : res model :=
  match c with
  | None => UB
  | Some c =>
      let* k := rd (cls (m_jt m)) c in
      let* ix := clique_var_index k v in
      match ix with
      | None => UB
      | Some index =>
          let* p := update_evidence num den (c_p k) index in
          let* jt := put_clique (m_jt m) c (set_p k p) in
          Ok (set_jt m jt)
      end
  end.

(** nip_global_retraction, nipjointree.c 760-786, for all variables and
    cliques of the model.  The code of the search (line 771) is not looked at;
    nip_update_evidence never fails. *)
Definition global_retraction (m : model) : res (model * code) :=
  let* jt := unmark_all (m_jt m) in
  let* (jt, _, _) := join_tree_dfs (length (cls jt)) retract_clique retract_sepset 0 jt tt in
  let* m :=
    for_up 0 (length (m_vars m))
      (fun i m =>
         let* (m, c) := find_family m i in
         let* x := rd (m_vars m) i in
         multiply_vector m c i (v_lik x) None)
      (set_jt m jt) in
  Ok (m, NO_ERROR).

(** nip_update_likelihood, nipvariable.c 273-283, for non-NULL arguments. *)
Definition update_likelihood (m : model) (v : nat) (likelihood : list Qc) : res model :=
  let* x := rd (m_vars m) v in
  let* l :=
    for_up 0 (v_card x)
      (fun i l => let* y := rd likelihood i in wr l i y) (v_lik x) in
  put_var m v (set_lik x l).

(** nip_reset_likelihood, nipvariable.c 286-295. *)
Definition reset_likelihood (m : model) (v : nat) : res model :=
  let* x := rd (m_vars m) v in
  let* l := for_up 0 (v_card x) (fun i l => wr l i 1%Qc) (v_lik x) in
  put_var m v (set_lik x l).

(** nip_enter_evidence, nipjointree.c 828-870; [None] is a NULL array. *)
Definition enter_evidence (m : model) (v : nat) (evidence : option (list Qc))
  : res (model * code) :=
  match evidence with
  | None => Ok (m, EFAULT)
  | Some evidence =>
      let* (m, c) := find_family m v in
      match c with
      | None => Ok (m, EINVAL)
      | Some _ =>
          let* x := rd (m_vars m) v in
          let* retraction :=
            for_up 0 (v_card x)
              (fun i r =>
                 let* l := rd (v_lik x) i in
                 let* e := rd evidence i in
                 Ok (if (qzero l && negb (qzero e))%bool then true else r))
              false in
          let* m :=
            if (retraction : bool) then Ok m
            else multiply_vector m c v evidence (Some (v_lik x)) in
          let* m := update_likelihood m v evidence in
          if (retraction : bool) then global_retraction m else Ok (m, NO_ERROR)
      end
  end.

(** nip_enter_index_observation, nipjointree.c 801-825. *)
Definition enter_index_observation (m : model) (v : nat) (index : Z)
  : res (model * code) :=
  if (index <? 0)%Z then Ok (m, NO_ERROR)
  else
    let* x := rd (m_vars m) v in
    let* evidence :=
      for_up 0 (v_card x)
        (fun i e => wr e i (if (Z.of_nat i =? index)%Z then 1%Qc else 0%Qc))
        (repeat 0%Qc (v_card x)) in
    enter_evidence m v (Some evidence).

(** nip_enter_observation, nipjointree.c 789-798.  [names] are the names of
    the variables of the model. *)
Definition enter_observation (names : list named_variable) (m : model) (v : nat)
    (state : string) : res (model * code) :=
  let* nv := rd names v in
  let* index := variable_state_index nv state in
  if (index <? 0)%Z then Ok (m, NO_ERROR)
  else enter_index_observation m v index.

(** nip_enter_prior, nipjointree.c 873-912, for non-NULL arguments. *)
Definition enter_prior (m : model) (v : nat) (prior : list Qc) : res (model * code) :=
  let* (m, c) := find_family m v in
  let* x := rd (m_vars m) v in
  let* e :=
    for_up 0 (v_card x)
      (fun i e => let* y := rd prior i in
                  Ok (if Qclt_le_dec 0%Qc y then false else e))
      true in
  match c with
  | None => Ok (m, EINVAL)
  | Some _ =>
      if (e : bool) then Ok (m, EINVAL)
      else
        let* m := multiply_vector m c v prior None in
        Ok (m, NO_ERROR)
  end.

(** reset_model, nip.c 60-72. *)
Definition reset_model (m : model) : res model :=
  let* m :=
    for_up 0 (length (m_vars m))
      (fun i m =>
         let* m := reset_likelihood m i in
         let* x := rd (m_vars m) i in
         put_var m i (set_entered x false))
      m in
  let* (m, _) := global_retraction m in
  Ok m.

(** total_reset, nip.c 75-84. *)
Definition total_reset (m : model) : res model :=
  let* jt :=
    for_up 0 (length (cls (m_jt m)))
      (fun i jt =>
         let* c := rd (cls jt) i in
         let* o := uniform_potential (c_orig c) 1%Qc in
         put_clique jt i (set_orig c o))
      (m_jt m) in
  reset_model (set_jt m jt).

(** use_priors, nip.c 87-115.  A violated assertion (line 93) is undefined
    behaviour here. *)
Definition use_priors (m : model) (has_history : bool) : res model :=
  for_up 0 (length (m_indep m))
    (fun i m =>
       let* v := rd (m_indep m) i in
       let* x := rd (m_vars m) v in
       match v_prior x with
       | None => UB
       | Some prior =>
           if v_entered x then Ok m
           else if (negb has_history || negb (v_old x))%bool then
             let* (m, _) := enter_prior m v prior in
             let* x := rd (m_vars m) v in
             put_var m v (set_entered x true)
           else Ok m
       end)
    m.

(** make_consistent, nip.c 1618-1635, on a model. *)
Definition make_consistent_model (m : model) : res model :=
  let* (jt, _) := make_consistent (m_jt m) in
  Ok (set_jt m jt).

(** model_variable, nip.c 1602-1615. *)
Definition model_variable (names : list named_variable) (symbol : string)
  : res (option nat) :=
  find_up 0 (length names)
    (fun i => let* nv := rd names i in
              match nv_symbol nv with
              | None => UB
              | Some s => Ok (String.eqb symbol s)
              end).

(** insert_hard_evidence, nip.c 978-991. *)
Definition insert_hard_evidence (names : list named_variable) (m : model)
    (varname observation : string) : res (model * code) :=
  let* v := model_variable names varname in
  match v with
  | None => Ok (m, EINVAL)
  | Some v =>
      let* (m, ret) := enter_observation names m v observation in
      let* m := make_consistent_model m in
      Ok (m, ret)
  end.

(** insert_soft_evidence, nip.c 994-1005. *)
Definition insert_soft_evidence (names : list named_variable) (m : model)
    (varname : string) (distribution : option (list Qc)) : res (model * code) :=
  let* v := model_variable names varname in
  match v with
  | None => Ok (m, EINVAL)
  | Some v =>
      let* (m, ret) := enter_evidence m v distribution in
      let* m := make_consistent_model m in
      Ok (m, ret)
  end.

(** time_series_struct, nip.h 121-131: observed variables and data; a missing
    value is negative. *)
Record time_series := mkTS {
  ts_observed : list nat;
  ts_data : list (list Z)
}.

(** insert_ts_step, nip.c 1009-1028. *)
Definition insert_ts_step (ts : time_series) (t : Z) (m : model) (mark_mask : nat)
  : res (model * code) :=
  if ((t <? 0) || (Z.of_nat (length (ts_data ts)) <=? t))%Z%bool then Ok (m, EINVAL)
  else
    let* m :=
      for_up 0 (length (ts_observed ts))
        (fun i m =>
           let* v := rd (ts_observed ts) i in
           let* x := rd (m_vars m) v in
           if Nat.eqb (Nat.land (v_mark x) mark_mask) 0 then Ok m
           else
             let* row := rd (ts_data ts) (Z.to_nat t) in
             let* d := rd row i in
             if (0 <=? d)%Z then
               let* (m, _) := enter_index_observation m v d in Ok m
             else Ok m)
        m in
    Ok (m, NO_ERROR).

(** uncertain_series_struct, nip.h 140-145. *)
Record uncertain_series := mkUCS {
  ucs_variables : list nat;
  ucs_data : list (list (list Qc))
}.

(** insert_ucs_step, nip.c 1032-1054.  The loop returns at the first error. *)
Fixpoint ucs_loop (vars : list nat) (row : list (list Qc)) (i : nat) (m : model)
    (mark_mask : nat) : res (model * code) :=
  match vars with
  | [] => Ok (m, NO_ERROR)
  | v :: vs =>
      let* x := rd (m_vars m) v in
      if Nat.eqb (Nat.land (v_mark x) mark_mask) 0 then ucs_loop vs row (i + 1) m mark_mask
      else
        let* d := rd row i in
        let* (m, e) := enter_evidence m v (Some d) in
        if is_err e then Ok (m, e) else ucs_loop vs row (i + 1) m mark_mask
  end.
Definition insert_ucs_step (ucs : uncertain_series) (t : Z) (m : model) (mark_mask : nat)
  : res (model * code) :=
  if ((t <? 0) || (Z.of_nat (length (ucs_data ucs)) <=? t))%Z%bool then Ok (m, EINVAL)
  else
    let* row := rd (ucs_data ucs) (Z.to_nat t) in
    ucs_loop (ucs_variables ucs) row 0 m mark_mask.

(** model_prob_mass, nip.c 2276-2280. *)
Definition model_prob_mass (m : model) : res (model * Qc) :=
  let* (jt, r) := probability_mass (m_jt m) in
  Ok (set_jt m jt, r).

(** get_probability, nip.c 2283-2320. *)
Definition get_probability (m : model) (v : nat) : res (model * option (list Qc)) :=
  let* x := rd (m_vars m) v in
  let cardinality := v_card x in
  let result := repeat 0%Qc cardinality in
  let* (m, c) := find_family m v in
  match c with
  | None => Ok (m, None)
  | Some c =>
      let* (result, _) := marginalise_clique (m_jt m) c v result in
      let* result := normalise_array result cardinality in
      Ok (m, Some result)
  end.

(** The loop of nip.c 931-933, 947-949, 964-966: position of the last equal
    variable, [None] is -1. *)
Definition column_of (vars : list nat) (v : nat) : res (option nat) :=
  for_up 0 (length vars)
    (fun i j => let* x := rd vars i in
                Ok (if equal_variables v x then Some i else j))
    None.

(** get_observation, nip.c 929-942. *)
Definition get_observation (names : list named_variable) (ts : time_series) (v : nat)
    (time : Z) : res (option string) :=
  let* j := column_of (ts_observed ts) v in
  match j with
  | None => Ok None
  | Some j =>
      if ((time <? 0) || (Z.of_nat (length (ts_data ts)) <=? time))%Z%bool then Ok None
      else
        let* nv := rd names v in
        let* row := rd (ts_data ts) (Z.to_nat time) in
        let* d := rd row j in
        match nv_states nv with
        | Names l =>
            if (d <? 0)%Z then UB
            else let* s := rd l (Z.to_nat d) in Ok (Some s)
        | _ => UB
        end
  end.

(** get_posterior, nip.c 945-958. *)
Definition get_posterior (ucs : uncertain_series) (v : nat) (time : Z)
  : res (option (list Qc)) :=
  let* j := column_of (ucs_variables ucs) v in
  match j with
  | None => Ok None
  | Some j =>
      if ((time <? 0) || (Z.of_nat (length (ucs_data ucs)) <=? time))%Z%bool then Ok None
      else
        let* row := rd (ucs_data ucs) (Z.to_nat time) in
        let* d := rd row j in
        Ok (Some d)
  end.

(** set_observation, nip.c 961-975: the time is not checked. *)
Definition set_observation (names : list named_variable) (ts : time_series) (v : nat)
    (time : Z) (observation : string) : res (time_series * code) :=
  let* j := column_of (ts_observed ts) v in
  let* nv := rd names v in
  let* i := variable_state_index nv observation in
  match j with
  | None => Ok (ts, EINVAL)
  | Some j =>
      if (i <? 0)%Z then Ok (ts, EINVAL)
      else if (time <? 0)%Z then UB
      else
        let* row := rd (ts_data ts) (Z.to_nat time) in
        let* row := wr row j i in
        let* d := wr (ts_data ts) (Z.to_nat time) row in
        Ok (mkTS (ts_observed ts) d, NO_ERROR)
  end.
