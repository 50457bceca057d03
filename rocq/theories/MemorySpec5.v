(** * Specification for Property C94: the memory of inference, learning and sampling

    Programs as in MemorySpec.v that also infer, learn and draw series. *)
From Verif Require Import Base MemoryModel MemoryModel5 MemorySpec.
Import ListNotations.
Open Scope nat_scope.
Local Open Scope res_scope.

Inductive deed :=
| Act (a : action)
| Filter (y : nat) (vars out : list nat) (w : nat -> nat -> list nat)
    (** forward_inference of the series [y] for the variables [vars]; [out]: the
        variables of the interface *)
| Smooth (y : nat) (vars out : list nat) (w : nat -> nat -> list nat)
    (** forward_backward_inference *)
| Learn (ys : list (nat * nat)) (vars out : list nat) (families : nat -> list nat) (random : bool)
    (w : nat -> list nat) (first : iteration) (others : list iteration)
    (** em_learn from the series [ys], each with its number of observed variables:
        the first iteration and possibly others *)
| Sample (vars out : list nat) (length : nat) (w : nat -> nat -> list nat)
    (** generate_data *).

(** What it needs and what it leaves: results, nothing, or a series. *)
Definition deed_effect (t : things) (d : deed) : option things :=
  let variables := forallb (exists_var (t_world t)) in
  match d with
  | Act a => effect t a
  | Filter y vars out _ | Smooth y vars out _ =>
      if (nth y (t_series t) false && variables vars && variables out)%bool
      then Some (mkThings (t_world t) (t_series t) (t_results t ++ [true])) else None
  | Learn ys vars out _ _ _ _ _ =>
      if (forallb (fun y => nth (fst y) (t_series t) false) ys && variables vars && variables out)%bool
      then Some t else None
  | Sample vars out _ _ =>
      if (variables vars && variables out)%bool
      then Some (mkThings (t_world t) (t_series t ++ [true]) (t_results t)) else None
  end.
Fixpoint deed_effects (t : things) (l : list deed) : option things :=
  match l with
  | [] => Some t
  | d :: l => match deed_effect t d with Some t => deed_effects t l | None => None end
  end.

Definition run_deed (st : state * list nat * list nat) (d : deed) : res (state * list nat * list nat) :=
  let '((m, vs, cs), ys, us) := st in
  let addresses := map (nth_error vs) in
  match d with
  | Act a => run_action st a
  | Filter y vars out w =>
      let* y := rd ys y in
      let* (m, u) := forward_inference m (Some y) (addresses vars) (addresses out) w in
      let* u := address u in Ok ((m, vs, cs), ys, us ++ [u])
  | Smooth y vars out w =>
      let* y := rd ys y in
      let* (m, u) := forward_backward_inference m (Some y) (addresses vars) (addresses out) w in
      let* u := address u in Ok ((m, vs, cs), ys, us ++ [u])
  | Learn l vars out families random w first others =>
      let* (m, _) := em_learn m (map (fun y => (nth_error ys (fst y), snd y)) l) (addresses vars) (addresses out)
                       families random w (first :: others) in
      Ok ((m, vs, cs), ys, us)
  | Sample vars out n w =>
      let* (m, y) := generate_data m (addresses vars) (addresses out) n w in
      let* y := address y in Ok ((m, vs, cs), ys ++ [y], us)
  end.
Fixpoint run_deeds (st : state * list nat * list nat) (l : list deed) : res (state * list nat * list nat) :=
  match l with
  | [] => Ok st
  | d :: l => let* st := run_deed st d in run_deeds st l
  end.

(** Memory [m'] is memory [m], except that some of the variables at [vs] have got
    the family mapping (an array) which they did not have. *)
Definition only_mappings (m m' : memory) (vs : list nat) : Prop :=
  (forall a b, nth_error m a = Some (Some b) ->
     exists b', nth_error m' a = Some (Some b') /\
       (b' = b \/ (In a vs /\ nth_error b V_mapping = Some (P None) /\ exists c, b' = set_nth b V_mapping (P (Some c))))) /\
  (forall a b', nth_error m' a = Some (Some b') ->
     (exists b, nth_error m a = Some (Some b)) \/
     (exists v bv, In v vs /\ nth_error m' v = Some (Some bv) /\ nth_error bv V_mapping = Some (P (Some a)))).
