(** * Specification of models unrolled over time *)
From Verif Require Import Base PotentialModel PotentialSpec JoinTreeModel AssignSpec JoinTreeSpec
  NipModel NipSpec SliceModel.
Import ListNotations.
Open Scope nat_scope.

(** The interfaces of a model for one time slice: the outgoing variables of a
    slice are, in the same order, the previous variables of the next one; the
    two cliques contain them; the flag of a parentless variable says whether
    it is a previous variable. *)
Record slices_ok (card : nat -> nat) (m : model) : Prop := {
  so_model : model_ok card m;
  so_out : NoDup (m_out m);
  so_prev : NoDup (m_prev m);
  so_cards : map card (m_out m) = map card (m_prev m);
  so_out_clique : m_out_clique m < length (cls (m_jt m)) /\
    incl (m_out m) (c_vars (clq (m_jt m) (m_out_clique m)));
  so_in_clique : m_in_clique m < length (cls (m_jt m)) /\
    incl (m_prev m) (c_vars (clq (m_jt m) (m_in_clique m)));
  so_old : forall v, In v (m_indep m) -> v_old (var m v) = existsb (Nat.eqb v) (m_prev m)
}.

(** A time series over variables of the model, each at most once. *)
Definition series_ok (m : model) (ts : time_series) : Prop :=
  NoDup (ts_observed ts) /\
  (forall v, In v (ts_observed ts) -> v < length (m_vars m)) /\
  Forall (fun row => length row = length (ts_observed ts)) (ts_data ts).

(** What the data of step [t] say about the variables in state [a]: a marked
    variable with a datum has to be in the observed state. *)
Definition agrees (m : model) (ts : time_series) (t : nat) (a : nat -> nat) : bool :=
  forallb
    (fun j => let v := nth j (ts_observed ts) 0 in
       (Nat.eqb (Nat.land (v_mark (var m v)) MARK_ON) 0 || (entry ts t j <? 0)%Z ||
        (entry ts t j =? Z.of_nat (a v))%Z)%bool)
    (seq 0 (length (ts_observed ts))).

(** A number if a condition holds, else zero. *)
Definition given (b : bool) (x : Qc) : Qc := if b then x else 0%Qc.

(** ** The unrolled model

    A model of [n] variables unrolled over time has the variables
    [t * n + v]; [moment n a t] is the part of assignment [a] that belongs to
    time [t], as an assignment of the variables of one slice. *)
Definition moment (n : nat) (a : nat -> nat) (t : nat) : nat -> nat :=
  fun v => if Nat.ltb v n then a (t * n + v) else 0.

(** The outgoing variables of [a] are in the same states as the previous
    variables of [b]. *)
Definition linked (m : model) (a b : nat -> nat) : bool :=
  ix_eqb (map a (m_out m)) (map b (m_prev m)).

(** The factor of time [t]: in the first slice the original joint and all
    priors, later the original joint and the priors of those variables that do
    not come from the slice before. *)
Definition slice_factor (m : model) (a : nat -> nat) (t : nat) : Qc :=
  let n := length (m_vars m) in
  match t with
  | 0 => original m (moment n a 0) * priors m (m_indep m) (moment n a 0)
  | S t' =>
      given (linked m (moment n a t') (moment n a t))
        (original m (moment n a t) *
         priors m (filter (fun v => negb (existsb (Nat.eqb v) (m_prev m))) (m_indep m))
           (moment n a t))
  end%Qc.

(** The unrolled joint over the first [T] time steps with the data of the first
    [E] of them. *)
Definition unrolled (m : model) (ts : time_series) (T E : nat) (a : nat -> nat) : Qc :=
  qprod (map (fun t => given (negb (Nat.ltb t E) || agrees m ts t (moment (length (m_vars m)) a t))
                         (slice_factor m a t))
           (seq 0 T)).

(** Sum of a function over all assignments of the variables of the first [T]
    time steps. *)
Definition sum_steps (card : nat -> nat) (m : model) (T : nat) (f : (nat -> nat) -> Qc) : Qc :=
  let n := length (m_vars m) in
  sumv (fun i => card (i mod n)) (seq 0 (T * n)) f (fun _ => 0).

(** Probability, in the unrolled model over [T] steps with the data of the first
    [E], that variable [v] is in state [x] at time [t] (zero if the data are
    impossible). *)
Definition posterior_at (card : nat -> nat) (m : model) (ts : time_series) (T E t v x : nat) : Qc :=
  (sum_steps card m T (fun a => given (Nat.eqb (moment (length (m_vars m)) a t v) x) (unrolled m ts T E a)) /
   sum_steps card m T (unrolled m ts T E))%Qc.

(** Each slice is a conditional distribution: the factor of the first slice
    sums to one, the factor of a later slice sums to one for all states of the
    previous variables. *)
Definition conditional_slices (card : nat -> nat) (m : model) : Prop :=
  sum_all card m (fun a => original m a * priors m (m_indep m) a)%Qc = 1%Qc /\
  forall a, valid card a ->
    sumv card (minus (seq 0 (length (m_vars m))) (m_prev m))
      (fun b => original m b *
         priors m (filter (fun v => negb (existsb (Nat.eqb v) (m_prev m))) (m_indep m)) b)%Qc a = 1%Qc.

(** Two series say the same about the marked variables of a model. *)
Definition same_marked (m : model) (ts ts' : time_series) : Prop :=
  ts_observed ts' = ts_observed ts /\ length (ts_data ts') = length (ts_data ts) /\
  forall t j, t < length (ts_data ts) -> j < length (ts_observed ts) ->
    Nat.land (v_mark (var m (nth j (ts_observed ts) 0))) MARK_ON <> 0 ->
    entry ts' t j = entry ts t j.

(** The data are possible, or there is a link between the slices. *)
Definition defined (card : nat -> nat) (m : model) (ts : time_series) : Prop :=
  let T := length (ts_data ts) in
  m_out m <> [] \/ sum_steps card m T (unrolled m ts T T) <> 0%Qc.

(** The product of the quotients m2 / m1: the exponential of the sum that the code
    computes as log-likelihood. *)
Definition ratios (l : list (Qc * Qc)) : Qc := qprod (map (fun '(m1, m2) => m2 / m1)%Qc l).
