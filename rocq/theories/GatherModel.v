(** * Model of the joint probability of several variables

    src/nipjointree.c 1157-1366 and src/nip.c 2323-2344. *)
From Verif Require Import Base PotentialModel VariableModel JoinTreeModel NipModel.
Import ListNotations.
Open Scope nat_scope.
Local Open Scope res_scope.

(** nip_gather_joint_probability, nipjointree.c 1164-1366, for a non-NULL
    clique [start].  [vars] with [n_vars] and [isect] with [n_isect] are lists.
    Every [return NULL] after an error is [None].  Allocations are assumed to
    succeed; the fuel bounds the depth of the recursion. *)
Fixpoint gather_joint_probability (fuel : nat) (card : nat -> nat) (jt : jtree) (start : nat)
    (vars isect : list nat) : res (jtree * option potential) :=
  match fuel with
  | O => NoFuel
  | S f =>
      let n_vars := length vars in
      let n_isect := length isect in
      if Nat.eqb n_vars 0 then
        let* p := new_potential [] 0 None in Ok (jt, p)
      else
        let* k := rd (cls jt) start in
        let* jt := mark_clique jt start in
        let* (prod_vars, nprod) :=
          variable_union (arr vars) (arr (c_vars k)) n_vars (dimensionality (c_p k)) in
        match prod_vars with
        | None => Ok (jt, None)
        | Some pv =>
            let np := Z.to_nat nprod in
            let* cardinality :=
              for_up 0 np (fun i l => let* v := rd pv i in wr l i (card v)) (repeat 0 np) in
            let* prod := new_potential cardinality nprod None in
            match prod with
            | None => UB (* dereferenced in nip_update_potential *)
            | Some prod =>
                let* mapping := mapper (Some pv) (arr (c_vars k)) np (dimensionality (c_p k)) in
                match mapping with
                | None => Ok (jt, None)
                | Some mapping =>
                    let* (prod, err) := update_potential (Some (c_p k)) None prod mapping in
                    if is_err err then Ok (jt, None)
                    else
                      let* (st, err) :=
                        each (c_sepsets k)
                          (fun s st =>
                             let* sp := rd (sps jt) s in
                             each [s_first sp; s_second sp]
                               (fun c '(jt, prod) =>
                                  let* marked := clique_marked jt c in
                                  if (marked : bool) then Ok ((jt, prod), NO_ERROR)
                                  else
                                    let* mp := mapper (Some pv) (arr (s_vars sp)) np
                                                 (dimensionality (s_new sp)) in
                                    let* (prod, err) :=
                                      update_potential None (Some (s_new sp)) prod (unarr mp) in
                                    if is_err err then Ok ((jt, prod), err)
                                    else
                                      let* (mi, nmi) :=
                                        variable_isect (arr (s_vars sp)) (arr vars)
                                          (dimensionality (s_new sp)) n_vars in
                                      match mi with
                                      | None => Ok ((jt, prod), ENOMEM)
                                      | Some mi =>
                                          let* (jt, msg) :=
                                            gather_joint_probability f card jt c vars mi in
                                          let* (mv, nm) :=
                                            variable_union (arr vars) (arr mi) n_vars (Z.to_nat nmi) in
                                          let* mp := mapper (Some pv) mv np (Z.to_nat nm) in
                                          let* (prod, err) :=
                                            update_potential msg None prod (unarr mp) in
                                          Ok ((jt, prod), err)
                                      end)
                               st)
                          (jt, prod) in
                      let (jt, prod) := (st : jtree * potential) in
                      if is_err err then Ok (jt, None)
                      else if Nat.eqb np (n_vars + n_isect) then Ok (jt, Some prod)
                      else
                        let* cardinality :=
                          for_up 0 n_vars
                            (fun i l => let* v := rd vars i in wr l i (card v)) cardinality in
                        let* cardinality :=
                          for_up 0 n_isect
                            (fun i l => let* v := rd isect i in wr l (n_vars + i) (card v))
                            cardinality in
                        let* sum := new_potential cardinality (Z.of_nat (n_vars + n_isect)) None in
                        match sum with
                        | None => UB
                        | Some sum =>
                            let* (sum, err) :=
                              general_marginalise prod sum (seq 0 (n_vars + n_isect)) in
                            if is_err err then Ok (jt, None) else Ok (jt, Some sum)
                        end
                end
            end
        end
  end.

(** get_joint_probability, nip.c 2323-2344. *)
Definition get_joint_probability (m : model) (vars : list nat)
  : res (model * option potential) :=
  let* jt := unmark_all (m_jt m) in
  let* (jt, p) :=
    gather_joint_probability (length (cls jt)) (cardm m) jt 0 vars [] in
  match p with
  | None => Ok (set_jt m jt, None)
  | Some p =>
      let* (q, _) := normalise_potential (Some p) in
      Ok (set_jt m jt, q)
  end.
