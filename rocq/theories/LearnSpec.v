(** * Specification of learning and sampling *)
From Coq Require Import Permutation.
From Verif Require Import Base PotentialModel PotentialSpec JoinTreeModel AssignSpec JoinTreeSpec
  NipModel NipSpec SliceModel SliceSpec.
Import ListNotations.
Open Scope nat_scope.

(** A variable and its parents. *)
Definition family (m : model) (v : nat) : list nat := v :: v_parents (var m v).

(** A list of variables in which parents stand before their children. *)
Definition parents_first (m : model) (l : list nat) : Prop :=
  forall l1 v l2, l = l1 ++ v :: l2 -> incl (v_parents (var m v)) l1.

(** A model for time slices whose graph is acyclic; no variable is twice in a
    family; the parentless variables are those with priors; the variables that
    come from the previous slice are parentless. *)
Record learnable (card : nat -> nat) (m : model) : Prop := {
  le_slices : slices_ok card m;
  le_family : forall v, v < length (m_vars m) -> NoDup (family m v);
  le_roots : forall v, v < length (m_vars m) -> (v_parents (var m v) = [] <-> In v (m_indep m));
  le_prev : incl (m_prev m) (m_indep m);
  le_acyclic : exists l, Permutation l (seq 0 (length (m_vars m))) /\ parents_first m l
}.

(** One table per variable: its dimensions are the variable and its parents. *)
Definition param (ps : list potential) (v : nat) : potential := nth v ps (mkPot [] []).
Definition params_ok (card : nat -> nat) (m : model) (ps : list potential) : Prop :=
  length ps = length (m_vars m) /\
  forall v, v < length (m_vars m) -> wf (param ps v) /\ dims (param ps v) = map card (family m v) /\
    nonneg (param ps v).

(** Probability, given the whole series, that the family of [v] is in the
    states [ix] at time [t]. *)
Definition family_at (card : nat -> nat) (m : model) (ts : time_series) (t v : nat) (ix : list nat) : Qc :=
  let T := length (ts_data ts) in
  (sum_steps card m T (fun a => given (ix_eqb (map (moment (length (m_vars m)) a t) (family m v)) ix)
                                  (unrolled m ts T T a)) /
   sum_steps card m T (unrolled m ts T T))%Qc.

(** The expected count of the states [ix] of the family of [v] in a series:
    the sum over the time steps; variables that come from the previous slice
    count at the first step only. *)
Definition expected (card : nat -> nat) (m : model) (ts : time_series) (v : nat) (ix : list nat) : Qc :=
  qsum (map (fun t => given (Nat.eqb t 0 || negb (v_old (var m v))) (family_at card m ts t v ix))
          (seq 0 (length (ts_data ts)))).

(** Probability of a series. *)
Definition likelihood (card : nat -> nat) (m : model) (ts : time_series) : Qc :=
  let T := length (ts_data ts) in sum_steps card m T (unrolled m ts T T).

(** ** The stopping rule of learning

    Successive values of the likelihood; [old] comes before the first.  As
    everywhere a log-likelihood is represented by its exponential, [growth] is the
    exponential of the threshold times the number of steps. *)

(** The likelihood dropped by more than the threshold, or is no probability. *)
Definition drops (growth old new : Qc) : Prop := (new * growth < old \/ 1 < new)%Qc.
(** The likelihood improved by more than the threshold. *)
Definition improves (growth old new : Qc) : Prop := (old * growth < new)%Qc.

(** Successful iterations from one state to another, with their likelihoods. *)
Inductive runs {A : Type} (iteration : A -> res (A * Qc * code)) : A -> list Qc -> A -> Prop :=
| runs_nil : forall s, runs iteration s [] s
| runs_cons : forall s l s1 ls s2,
    iteration s = Ok (s1, l, NO_ERROR) -> runs iteration s1 ls s2 -> runs iteration s (l :: ls) s2.

(** ** Sampling *)

(** The probability of the states before [i]. *)
Definition below (d : list Qc) (i : nat) : Qc := qsum (firstn i d).

(** ** Parameters as conditional distributions *)

(** Sum of the table of [v] over the states of [v], the parents being as in [a]. *)
Definition column (card : nat -> nat) (m : model) (ps : list potential) (v : nat) (a : nat -> nat) : Qc :=
  sumv card [v] (den (family m v) (param ps v)) a.
(** The table of [v] as a conditional distribution: each column divided by its
    sum. *)
Definition cond (card : nat -> nat) (m : model) (ps : list potential) (v : nat) (a : nat -> nat) : Qc :=
  (den (family m v) (param ps v) a / column card m ps v a)%Qc.

(** Variables with parents, and without. *)
Definition has_parents (m : model) (v : nat) : bool :=
  match v_parents (var m v) with [] => false | _ => true end.

(** The same variables, parents and cliques; tables, priors and evidence may
    differ. *)
Definition same_structure (m m' : model) : Prop :=
  length (cls (m_jt m')) = length (cls (m_jt m)) /\
  (forall i, c_vars (clq (m_jt m') i) = c_vars (clq (m_jt m) i)) /\
  length (m_vars m') = length (m_vars m) /\
  (forall v, v_card (var m' v) = v_card (var m v) /\ v_parents (var m' v) = v_parents (var m v) /\
     v_old (var m' v) = v_old (var m v) /\ v_mark (var m' v) = v_mark (var m v)) /\
  m_indep m' = m_indep m /\ m_children m' = m_children m /\ m_out m' = m_out m /\
  m_prev m' = m_prev m /\ m_in_clique m' = m_in_clique m /\ m_out_clique m' = m_out_clique m.

Definition product_cond (card : nat -> nat) (m : model) (ps : list potential) (vs : list nat) (a : nat -> nat) : Qc :=
  qprod (map (fun v => cond card m ps v a) vs).

(** The first clique that contains a variable and its parents. *)
Definition home (m : model) (v : nat) : nat :=
  hd 0 (filter (fun k => forallb (fun u => existsb (Nat.eqb u) (c_vars (clq (m_jt m) k))) (family m v))
          (seq 0 (length (cls (m_jt m))))).
(** The variables with parents, of some list, whose first clique is [k]. *)
Definition housed (m : model) (k : nat) (vs : list nat) : list nat :=
  filter (fun v => has_parents m v && Nat.eqb (home m v) k)%bool vs.
(** The original table of every clique is the product of the factors [f] of the
    variables that live there. *)
Definition factored (card : nat -> nat) (m : model) (f : nat -> (nat -> nat) -> Qc) : Prop :=
  forall k a, k < length (cls (m_jt m)) -> valid card a ->
    den (c_vars (clq (m_jt m) k)) (c_orig (clq (m_jt m) k)) a =
    qprod (map (fun v => f v a) (housed m k (seq 0 (length (m_vars m))))).

(** The parameters are installed in [m']: the original joint is the product of
    the conditional distributions of the variables with parents, each of them
    in the first clique that contains the family; the priors are those of the
    others. *)
Definition installed (card : nat -> nat) (m : model) (ps : list potential) (m' : model) : Prop :=
  let n := length (m_vars m) in
  (forall a, valid card a -> original m' a = product_cond card m ps (filter (has_parents m) (seq 0 n)) a) /\
  factored card m' (cond card m ps) /\
  (forall v, v < n -> v_parents (var m v) = [] -> exists l, v_prior (var m' v) = Some l /\
        forall a, valid card a -> at_state l v a = cond card m ps v a).

(** No column of a table is all zero. *)
Definition columns_positive (card : nat -> nat) (m : model) (ps : list potential) : Prop :=
  forall v a, v < length (m_vars m) -> valid card a -> column card m ps v a <> 0%Qc.

(** Several series. *)
Definition total_likelihood (card : nat -> nat) (m : model) (ts : list time_series) : Qc :=
  qprod (map (likelihood card m) ts).
Definition total_expected (card : nat -> nat) (m : model) (ts : list time_series) (v : nat) (ix : list nat) : Qc :=
  qsum (map (fun s => expected card m s v ix) ts).

(** ** Learning as it should be

    One round: install the normalised parameters; the likelihood of the data
    under the installed model is [l]; the next parameters are one plus the
    expected counts under the installed model.  The model and the parameters stay
    well-formed, and every series is possible. *)
Definition em_round (card : nat -> nat) (ts : list time_series) (m : model) (ps : list potential)
    (l : Qc) (m' : model) (ps' : list potential) : Prop :=
  same_structure m m' /\ installed card m ps m' /\ l = total_likelihood card m' ts /\
  (forall v ix, v < length (m_vars m) -> valid_ix (map card (family m v)) ix ->
    cell (param ps' v) ix = (1 + total_expected card m' ts v ix)%Qc) /\
  learnable card m' /\ params_ok card m' ps' /\ forall s, In s ts -> likelihood card m' s <> 0%Qc.
Inductive em_rounds (card : nat -> nat) (ts : list time_series)
  : model -> list potential -> list Qc -> model -> list potential -> Prop :=
| em_none : forall m ps, em_rounds card ts m ps [] m ps
| em_more : forall m ps l m1 ps1 ls m2 ps2, em_round card ts m ps l m1 ps1 ->
    em_rounds card ts m1 ps1 ls m2 ps2 -> em_rounds card ts m ps (l :: ls) m2 ps2.

(** The first parameters are usable.  Random ones: no number is negative and no
    column all zero.  Those of the model: no original clique table is zero for a
    state of the parents of a variable whose family is in the clique. *)
Definition initial_ok (card : nat -> nat) (m : model) (random : option (nat -> nat -> Qc)) : Prop :=
  match random with
  | Some rnd => (forall v i, (0 <= rnd v i)%Qc) /\
      forall v c, v < length (m_vars m) -> exists j, j < card v /\ (0 < rnd v (j + card v * c)%nat)%Qc
  | None => forall k v a, k < length (cls (m_jt m)) -> v < length (m_vars m) ->
      incl (family m v) (c_vars (clq (m_jt m) k)) -> valid card a ->
      sumv card (minus (c_vars (clq (m_jt m) k)) (v_parents (var m v)))
        (den (c_vars (clq (m_jt m) k)) (c_orig (clq (m_jt m) k))) a <> 0%Qc
  end.

(** The first parameters: random numbers, or the sums of the original table of
    the first clique that contains the family. *)
Definition starts_from (card : nat -> nat) (m : model) (random : option (nat -> nat -> Qc)) (ps : list potential) : Prop :=
  forall v, v < length (m_vars m) ->
  match random with
  | Some rnd => data (param ps v) = map (rnd v) (seq 0 (prod (map card (family m v))))
  | None => let k := clq (m_jt m) (home m v) in
      forall a, valid card a ->
      den (family m v) (param ps v) a = sumv card (minus (c_vars k) (family m v)) (den (c_vars k) (c_orig k)) a
  end.

(** The factors of the variables with parents are conditional distributions. *)
Definition conditional_factors (card : nat -> nat) (m : model) (f : nat -> (nat -> nat) -> Qc) : Prop :=
  forall v, v < length (m_vars m) -> v_parents (var m v) <> [] ->
    (forall a b, (forall w, In w (family m v) -> a w = b w) -> f v a = f v b) /\
    forall a, valid card a -> sumv card [v] (f v) a = 1%Qc.

(** The model with uniform priors. *)
Definition uniform_roots (card : nat -> nat) (m m' : model) : Prop :=
  same_structure m m' /\ (forall a, valid card a -> original m' a = original m a) /\
  forall v, v < length (m_vars m) -> v_parents (var m v) = [] ->
    exists l, v_prior (var m' v) = Some l /\
      sumv card [v] (at_state l v) (fun _ => 0) = 1%Qc /\
      forall x y, x < card v -> y < card v -> nth x l 0%Qc = nth y l 0%Qc.

(** ** Generating data *)

(** The model with every variable marked. *)
Definition all_marked (m : model) : model :=
  mkModel (map (fun x => set_vmark x MARK_ON) (m_vars m)) (m_jt m) (m_indep m) (m_children m)
    (m_out m) (m_prev m) (m_in_clique m) (m_out_clique m).

(** The parents of the variables are variables of the model. *)
Definition closed_parents (m : model) : Prop :=
  forall v p, v < length (m_vars m) -> In p (v_parents (var m v)) -> p < length (m_vars m).

(** The variables in an order with parents before children, each once. *)
Definition topological (m : model) (l : list nat) : Prop :=
  Permutation l (seq 0 (length (m_vars m))) /\ parents_first m l.

(** The series as it is known when the [i]-th entry of step [t] is drawn: the
    steps before [t] and the first [i] entries of step [t]. *)
Definition known (ts : time_series) (t i : nat) : time_series :=
  mkTS (ts_observed ts)
    (firstn t (ts_data ts) ++
     [firstn i (nth t (ts_data ts) []) ++ repeat (-1)%Z (length (ts_observed ts) - i)]).

(** Index [k] is the first one whose cumulative sum reaches [r], or the last
    index if no sum does. *)
Definition picks (d : list Qc) (r : Qc) (k : nat) : Prop :=
  k < length d /\ (forall j, 0 < j <= k -> (below d j < r)%Qc) /\
  ((r <= below d (S k))%Qc \/ (k = length d - 1 /\ (below d (length d) < r)%Qc)).

(** Entry [i] of step [t] of the series is drawn, with random number [r], from
    the exact distribution of its variable given the part of the series that
    was drawn before. *)
Definition drawn_from (card : nat -> nat) (m : model) (ts : time_series) (t i : nat) (r : Qc) : Prop :=
  let v := nth i (ts_observed ts) 0 in
  exists d, length d = card v /\
    (forall x, x < card v -> nth x d 0%Qc = posterior_at card m (known ts t i) (S t) (S t) t v x) /\
    exists k, entry ts t i = Z.of_nat k /\ picks d r k.

(** Every entry is a state of its variable. *)
Definition states_ok (card : nat -> nat) (ts : time_series) : Prop :=
  forall t i, t < length (ts_data ts) -> i < length (ts_observed ts) ->
    exists k, entry ts t i = Z.of_nat k /\ k < card (nth i (ts_observed ts) 0).

(** Random numbers as the code draws them when rand() is not zero. *)
Definition positive_random (rnd : nat -> nat -> Qc) : Prop :=
  forall t i, (0 < rnd t i)%Qc /\ (rnd t i <= 1)%Qc.
