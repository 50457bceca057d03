(** * Model of the inference over time: src/nip.c 1058-1599

    Messages between time slices, forward_inference and
    forward_backward_inference.  Allocations are assumed to succeed. *)
From Verif Require Import Base PotentialModel VariableModel JoinTreeModel NipModel.
Import ListNotations.
Open Scope nat_scope.
Local Open Scope res_scope.

(** nip_direction, nip.h 37. *)
Inductive direction := FORWARD | BACKWARD.

(** NIP_MARK_ON, nipvariable.h 38. *)
Definition MARK_ON : nat := 2.

(** start_timeslice_message_pass, nip.c 1058-1092.  The returned code is always
    NIP_NO_ERROR, the codes of the calls are not looked at. *)
Definition start_message (m : model) (dir : direction) (alpha_or_gamma : potential)
  : res potential :=
  let nvars := length (m_out m) in
  if Nat.eqb nvars 0 then uniform_potential alpha_or_gamma 1%Qc
  else
    let vars := match dir with FORWARD => m_out m | BACKWARD => m_prev m end in
    let c := match dir with FORWARD => m_out_clique m | BACKWARD => m_in_clique m end in
    let* k := rd (cls (m_jt m)) c in
    let* mapping := mapper (arr (c_vars k)) (arr vars) (dimensionality (c_p k)) nvars in
    let* (p, _) := general_marginalise (c_p k) alpha_or_gamma (unarr mapping) in
    let* (p, _) := normalise_potential (Some p) in
    match p with Some p => Ok p | None => UB end.

(** finish_timeslice_message_pass, nip.c 1096-1125; [den = None] is NULL. *)
Definition finish_message (m : model) (dir : direction) (num : potential)
    (den : option potential) : res model :=
  let nvars := length (m_out m) in
  if Nat.eqb nvars 0 then Ok m
  else
    let vars := match dir with FORWARD => m_prev m | BACKWARD => m_out m end in
    let c := match dir with FORWARD => m_in_clique m | BACKWARD => m_out_clique m end in
    let* k := rd (cls (m_jt m)) c in
    let* mapping := mapper (arr (c_vars k)) (arr vars) (dimensionality (c_p k)) nvars in
    let* (p, _) := update_potential (Some num) den (c_p k) (unarr mapping) in
    let* jt := put_clique (m_jt m) c (set_p k p) in
    Ok (set_jt m jt).

(** The cardinalities of the outgoing interface and a new potential over it,
    nip.c 1142-1152, 1225 and 1355-1365, 1442-1444. *)
Definition interface_potential (m : model) : res potential :=
  let n := length (m_out m) in
  let* cardinalities :=
    for_up 0 n
      (fun i l => let* v := rd (m_out m) i in
                  let* x := rd (m_vars m) v in wr l i (v_card x))
      (repeat 0 n) in
  let* p := new_potential cardinalities (Z.of_nat n) None in
  match p with Some p => Ok p | None => UB end.

(** The loop that writes the results of one time step, nip.c 1296-1312 and
    1553-1570; [row] is results->data[t].  A violated assertion is UB. *)
Definition write_results (m : model) (vars : list nat) (row : list (list Qc))
  : res (model * list (list Qc)) :=
  for_up 0 (length vars)
    (fun i '(m, row) =>
       let* temp := rd vars i in
       let* (m, clique_of_interest) := find_family m temp in
       match clique_of_interest with
       | None => UB
       | Some c =>
           let* d := rd row i in
           let* (d, _) := marginalise_clique (m_jt m) c temp d in
           let* x := rd (m_vars m) temp in
           let* d := normalise_array d (v_card x) in
           let* row := wr row i d in
           Ok (m, row)
       end)
    (m, row).

(** The memory of the results, nip.c 1175-1222 and 1388-1435. *)
Definition new_results (m : model) (vars : list nat) (length_ : nat)
  : res (list (list (list Qc))) :=
  let* row :=
    for_up 0 (length vars)
      (fun i row => let* v := rd vars i in
                    let* x := rd (m_vars m) v in wr row i (repeat 0%Qc (v_card x)))
      (repeat [] (length vars)) in
  Ok (repeat row length_).

(** The reference mass m1 of one time step, nip.c 1257-1260 and 1469-1472, when
    the likelihood is asked for. *)
Definition reference_mass (m : model) (loglikelihood : bool) : res (model * Qc) :=
  if loglikelihood then
    let* m := make_consistent_model m in model_prob_mass m
  else Ok (m, 0%Qc).

(** The mass m2, nip.c 1269-1281 and 1481-1494.  Simplified: instead of the sum
    of logarithms the list of pairs (m1, m2) is kept; the code adds
    log(m2) - log(m1) when both are positive and sets -DBL_MAX when m2 is
    zero.  A violated assertion is UB. *)
Definition evidence_mass (m : model) (loglikelihood : bool) (m1 : Qc) (ll : list (Qc * Qc))
  : res (model * list (Qc * Qc)) :=
  if loglikelihood then
    let* (m, m2) := model_prob_mass m in
    if Qclt_le_dec m2 0%Qc then UB else Ok (m, ll ++ [(m1, m2)])
  else Ok (m, ll).

(** forward_inference, nip.c 1130-1337. *)
Definition forward_inference (m : model) (ts : time_series) (vars : list nat)
    (loglikelihood : bool)
  : res (model * list (list (list Qc)) * list (Qc * Qc)) :=
  let T := length (ts_data ts) in
  let* results := new_results m vars T in
  let* alpha := interface_potential m in
  let* m := reset_model m in
  let* m := use_priors m false in
  let* (m, _, results, ll) :=
    for_up 0 T
      (fun t '(m, alpha, results, ll) =>
         let* m := if Nat.ltb 0 t then finish_message m FORWARD alpha None else Ok m in
         let* (m, m1) := reference_mass m loglikelihood in
         let* (m, _) := insert_ts_step ts (Z.of_nat t) m MARK_ON in
         let* m := make_consistent_model m in
         let* (m, ll) := evidence_mass m loglikelihood m1 ll in
         let* row := rd results t in
         let* (m, row) := write_results m vars row in
         let* results := wr results t row in
         let* alpha := start_message m FORWARD alpha in
         let* m := reset_model m in
         let* m := use_priors m true in
         Ok (m, alpha, results, ll))
      (m, alpha, results, []) in
  Ok (m, results, ll).

(** The forward phase of forward_backward_inference, nip.c 1441-1513. *)
Definition forward_phase (m : model) (ts : time_series) (loglikelihood : bool)
  : res (model * list potential * list (Qc * Qc)) :=
  let T := length (ts_data ts) in
  let* alpha := interface_potential m in
  let alpha_gamma := repeat alpha (T + 1) in
  let* m := reset_model m in
  let* m := use_priors m false in
  for_up 0 T
    (fun t '(m, alpha_gamma, ll) =>
       let* m :=
         if Nat.ltb 0 t then
           let* a := rd alpha_gamma (t - 1) in finish_message m FORWARD a None
         else Ok m in
       let* (m, m1) := reference_mass m loglikelihood in
       let* (m, _) := insert_ts_step ts (Z.of_nat t) m MARK_ON in
       let* m := make_consistent_model m in
       let* (m, ll) := evidence_mass m loglikelihood m1 ll in
       let* a := rd alpha_gamma t in
       let* a := start_message m FORWARD a in
       let* alpha_gamma := wr alpha_gamma t a in
       let* m := reset_model m in
       let* m := use_priors m (Nat.ltb 1 T) in
       Ok (m, alpha_gamma, ll))
    (m, alpha_gamma, []).

(** The backward phase, nip.c 1518-1591. *)
Definition backward_phase (m : model) (ts : time_series) (vars : list nat)
    (alpha_gamma : list potential) (results : list (list (list Qc)))
  : res (model * list potential * list (list (list Qc))) :=
  let T := length (ts_data ts) in
  for_down T 0
    (fun t '(m, alpha_gamma, results) =>
       let* m :=
         if Nat.ltb 0 t then
           let* a := rd alpha_gamma (t - 1) in finish_message m FORWARD a None
         else Ok m in
       let* (m, _) := insert_ts_step ts (Z.of_nat t) m MARK_ON in
       let* m :=
         if Nat.ltb t (T - 1) then
           let* g := rd alpha_gamma (t + 1) in
           let* a := rd alpha_gamma t in
           finish_message m BACKWARD g (Some a)
         else Ok m in
       let* m := make_consistent_model m in
       let* row := rd results t in
       let* (m, row) := write_results m vars row in
       let* results := wr results t row in
       let* alpha_gamma :=
         if Nat.ltb 0 t then
           let* g := rd alpha_gamma t in
           let* g := start_message m BACKWARD g in
           wr alpha_gamma t g
         else Ok alpha_gamma in
       let* m := reset_model m in
       let* m := use_priors m (Nat.ltb 1 t) in
       Ok (m, alpha_gamma, results))
    (m, alpha_gamma, results).

(** forward_backward_inference, nip.c 1342-1599. *)
Definition forward_backward_inference (m : model) (ts : time_series) (vars : list nat)
    (loglikelihood : bool)
  : res (model * list (list (list Qc)) * list (Qc * Qc)) :=
  let* results := new_results m vars (length (ts_data ts)) in
  let* (m, alpha_gamma, ll) := forward_phase m ts loglikelihood in
  let* (m, _, results) := backward_phase m ts vars alpha_gamma results in
  Ok (m, results, ll).
