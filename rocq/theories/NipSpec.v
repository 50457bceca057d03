(** * Specification of models, evidence and priors *)
From Coq Require Import String.
From Verif Require Import Base PotentialModel PotentialSpec VariableModel JoinTreeModel
  AssignSpec JoinTreeSpec NipModel.
Import ListNotations.
Open Scope nat_scope.

(** The variable at an index (only used in range). *)
Definition var (m : model) (v : nat) : vrec :=
  nth v (m_vars m) (mkVar 1 [] None false [] None None false 0).

(** A vector with one non-negative number per state of [v]. *)
Definition vector_ok (card : nat -> nat) (v : nat) (l : list Qc) : Prop :=
  length l = card v /\ Forall (fun x => (0 <= x)%Qc) l.

(** The number that a vector over the states of [v] gives to an assignment. *)
Definition at_state (l : list Qc) (v : nat) (a : nat -> nat) : Qc := nth (a v) l 0%Qc.

(** The first clique that contains some variables. *)
Definition first_clique (jt : jtree) (vs : list nat) (k : nat) : Prop :=
  k < length (cls jt) /\ incl vs (c_vars (clq jt k)) /\
  forall j, j < k -> ~ incl vs (c_vars (clq jt j)).

(** The fields of a variable fit to the join tree: [card] is the cardinality,
    the likelihood has one entry per state, some clique contains the variable
    and its parents; the remembered clique, if any, is the first such clique, and
    the remembered positions, if any, are those in the remembered clique. *)
Definition var_ok (card : nat -> nat) (jt : jtree) (v : nat) (x : vrec) : Prop :=
  v_card x = card v /\
  vector_ok card v (v_lik x) /\
  (exists k, k < length (cls jt) /\ incl (v :: v_parents x) (c_vars (clq jt k))) /\
  (forall k, v_family x = Some k -> first_clique jt (v :: v_parents x) k) /\
  (forall r, v_fmap x = Some r -> exists k, v_family x = Some k /\
     Forall (fun i => i < length (c_vars (clq jt k))) r /\
     map (fun i => nth i (c_vars (clq jt k)) 0) r = v :: v_parents x).

(** A prior that use_priors can multiply in: a vector that is not all zero. *)
Definition prior_ok (card : nat -> nat) (v : nat) (x : vrec) : Prop :=
  exists l, v_prior x = Some l /\ vector_ok card v l /\ exists y, In y l /\ (0 < y)%Qc.

(** A model as parse_model builds it, in any later state. *)
Record model_ok (card : nat -> nat) (m : model) : Prop := {
  mo_shape : shape_ok card (m_jt m);
  mo_tree : is_tree (m_jt m);
  mo_rip : running_intersection (m_jt m);
  mo_nonneg : tables_nonneg (m_jt m);
  mo_orig : forall i, i < length (cls (m_jt m)) -> nonneg (c_orig (clq (m_jt m) i));
  mo_scope : forall i v, i < length (cls (m_jt m)) -> In v (c_vars (clq (m_jt m) i)) ->
    v < length (m_vars m);
  mo_var : forall v, v < length (m_vars m) -> var_ok card (m_jt m) v (var m v);
  mo_indep : NoDup (m_indep m) /\
    forall v, In v (m_indep m) -> v < length (m_vars m) /\ prior_ok card v (var m v)
}.

(** Two states of the same model: only the tables, the evidence, the
    remembered families and the flags of the priors may differ. *)
Definition same_model (m m' : model) : Prop :=
  same_shape (m_jt m) (m_jt m') /\
  length (m_vars m') = length (m_vars m) /\
  (forall v, v_card (var m' v) = v_card (var m v) /\ v_prior (var m' v) = v_prior (var m v) /\
     v_parents (var m' v) = v_parents (var m v) /\ v_old (var m' v) = v_old (var m v) /\
     v_mark (var m' v) = v_mark (var m v)) /\
  m_indep m' = m_indep m /\ m_children m' = m_children m /\ m_out m' = m_out m /\
  m_prev m' = m_prev m /\ m_in_clique m' = m_in_clique m /\ m_out_clique m' = m_out_clique m.

(** The original joint: product of the original clique tables. *)
Definition original (m : model) (a : nat -> nat) : Qc :=
  qprod (map (fun i => den (c_vars (clq (m_jt m) i)) (c_orig (clq (m_jt m) i)) a)
           (seq 0 (length (cls (m_jt m))))).

(** Product over all variables of the likelihood of their state. *)
Definition weight (n : nat) (lik : nat -> list Qc) (a : nat -> nat) : Qc :=
  qprod (map (fun v => at_state (lik v) v a) (seq 0 n)).
Definition evidence (m : model) : (nat -> nat) -> Qc :=
  weight (length (m_vars m)) (fun v => v_lik (var m v)).

(** Product of the priors of the listed variables. *)
Definition priors (m : model) (vs : list nat) (a : nat -> nat) : Qc :=
  qprod (map (fun v => at_state (match v_prior (var m v) with Some l => l | None => [] end) v a) vs).

(** The join tree represents the original joint times the present evidence
    times a factor [F]. *)
Definition represents (card : nat -> nat) (m : model) (F : (nat -> nat) -> Qc) : Prop :=
  forall a, valid card a -> joint (m_jt m) a = (original m a * evidence m a * F a)%Qc.

(** New evidence [e] gives a positive weight to a state that the old evidence
    [l] excluded, so that the table entries are lost and the tree has to be
    built again from the original tables. *)
Definition revives (l e : list Qc) : Prop :=
  exists i, i < length l /\ nth i l 0%Qc = 0%Qc /\ nth i e 0%Qc <> 0%Qc.

(** ** Names *)
(** First position of a string in a list of names. *)
Fixpoint position (s : string) (l : list string) : option nat :=
  match l with
  | [] => None
  | x :: t => if String.eqb s x then Some 0 else option_map S (position s t)
  end.
Definition symbol_of (nv : named_variable) : string :=
  match nv_symbol nv with Some s => s | None => EmptyString end.
Definition states_of (nv : named_variable) : list string :=
  match nv_states nv with Names l => l | _ => [] end.
(** The named variables of a model: one per variable, each with a symbol and
    one name per state. *)
Definition names_ok (card : nat -> nat) (m : model) (names : list named_variable) : Prop :=
  length names = length (m_vars m) /\
  forall v nv, nth_error names v = Some nv ->
    nv_symbol nv <> None /\ nv_card nv = card v /\
    exists l, nv_states nv = Names l /\ length l = card v.

(** ** Sequences of insertions *)
Inductive insertion :=
| Hard (varname state : string)
| Soft (varname : string) (distribution : list Qc).

(** One for state [i] of [n], zero for the others. *)
Definition one_hot (n i : nat) : list Qc :=
  map (fun j => if Nat.eqb j i then 1%Qc else 0%Qc) (seq 0 n).

(** The variable and the vector that an insertion is about; unknown names are
    about nothing. *)
Definition says (card : nat -> nat) (names : list named_variable) (x : insertion)
  : option (nat * list Qc) :=
  match x with
  | Hard varname state =>
      match position varname (map symbol_of names) with
      | None => None
      | Some v =>
          match position state (states_of (nth v names (mkNamed 0 None 0 NamesNull []))) with
          | None => None
          | Some i => Some (v, one_hot (card v) i)
          end
      end
  | Soft varname l =>
      match position varname (map symbol_of names) with
      | None => None
      | Some v => Some (v, l)
      end
  end.

(** The likelihood of every variable after a sequence of insertions: what was
    said about it last. *)
Fixpoint latest (card : nat -> nat) (names : list named_variable) (xs : list insertion)
    (lik : nat -> list Qc) : nat -> list Qc :=
  match xs with
  | [] => lik
  | x :: xs' =>
      latest card names xs'
        (match says card names x with
         | Some (v, l) => fun w => if Nat.eqb w v then l else lik w
         | None => lik
         end)
  end.

(** No insertion of the sequence gives weight to a state that was excluded
    when it was made. *)
Fixpoint never_revives (card : nat -> nat) (names : list named_variable) (xs : list insertion)
    (lik : nat -> list Qc) : Prop :=
  match xs with
  | [] => True
  | x :: xs' =>
      match says card names x with
      | Some (v, l) => ~ revives (lik v) l /\
          never_revives card names xs' (fun w => if Nat.eqb w v then l else lik w)
      | None => never_revives card names xs' lik
      end
  end.

(** A soft insertion has one non-negative number per state. *)
Definition insertion_ok (card : nat -> nat) (names : list named_variable) (x : insertion) : Prop :=
  forall v l, says card names x = Some (v, l) -> vector_ok card v l.

(** Running the sequence with the functions of nip.c. *)
Definition insert1 (names : list named_variable) (m : model) (x : insertion)
  : res (model * code) :=
  match x with
  | Hard varname state => insert_hard_evidence names m varname state
  | Soft varname l => insert_soft_evidence names m varname (Some l)
  end.
Fixpoint insert_all (names : list named_variable) (m : model) (xs : list insertion)
  : res model :=
  match xs with
  | [] => Ok m
  | x :: xs' => bind (insert1 names m x) (fun '(m', _) => insert_all names m' xs')
  end.

(** The parentless variables whose prior a call of use_priors should add. *)
Definition pending (m : model) (has_history : bool) : list nat :=
  filter (fun v => negb (v_entered (var m v)) && (negb has_history || negb (v_old (var m v))))
    (m_indep m).

(** Sum of [f] over all assignments of the variables of the model. *)
Definition sum_all (card : nat -> nat) (m : model) (f : (nat -> nat) -> Qc) : Qc :=
  sumv card (seq 0 (length (m_vars m))) f (fun _ => 0).
(** Sum of [f] over all assignments in which [v] has state [x]. *)
Definition sum_where (card : nat -> nat) (m : model) (f : (nat -> nat) -> Qc) (v x : nat) : Qc :=
  sumv card (minus (seq 0 (length (m_vars m))) [v]) f (upd (fun _ => 0) v x).

(** ** Histories of calls *)
Inductive op :=
| Insert (x : insertion)      (* insert_hard_evidence, insert_soft_evidence *)
| Priors (has_history : bool) (* use_priors *)
| Reset                       (* reset_model *)
| Consistent                  (* make_consistent *)
| Ask (v : nat)               (* get_probability *)
| Mass.                       (* model_prob_mass *)
Definition run1 (names : list named_variable) (m : model) (o : op) : res model :=
  match o with
  | Insert x => bind (insert1 names m x) (fun '(m', _) => Ok m')
  | Priors h => use_priors m h
  | Reset => reset_model m
  | Consistent => make_consistent_model m
  | Ask v => bind (get_probability m v) (fun '(m', _) => Ok m')
  | Mass => bind (model_prob_mass m) (fun '(m', _) => Ok m')
  end.
Fixpoint run (names : list named_variable) (m : model) (os : list op) : res model :=
  match os with
  | [] => Ok m
  | o :: os' => bind (run1 names m o) (fun m' => run names m' os')
  end.
Definition op_ok (card : nat -> nat) (names : list named_variable) (m : model) (o : op) : Prop :=
  match o with
  | Insert x => insertion_ok card names x
  | Ask v => v < length (m_vars m)
  | _ => True
  end.

(** What the model should believe after a history: the likelihood of every
    variable, the variables whose prior is in the joint, and those that
    use_priors has marked as done. *)
Record belief := mkBelief {
  b_lik : nat -> list Qc;
  b_active : list nat;
  b_done : nat -> bool
}.
Definition no_belief (card : nat -> nat) : belief :=
  mkBelief (fun v => repeat 1%Qc (card v)) [] (fun _ => false).
Definition revivesb (l e : list Qc) : bool :=
  existsb (fun i => qzero (nth i l 0%Qc) && negb (qzero (nth i e 0%Qc))) (seq 0 (length l)).
Definition learn1 (card : nat -> nat) (names : list named_variable) (m : model)
    (b : belief) (o : op) : belief :=
  match o with
  | Insert x =>
      match says card names x with
      | Some (v, l) =>
          mkBelief (fun w => if Nat.eqb w v then l else b_lik b w)
            (if revivesb (b_lik b v) l then [] else b_active b) (b_done b)
      | None => b
      end
  | Priors h =>
      let new := filter (fun v => negb (b_done b v) && (negb h || negb (v_old (var m v)))) (m_indep m) in
      mkBelief (b_lik b) (b_active b ++ new)
        (fun w => b_done b w || existsb (Nat.eqb w) new)
  | Reset => no_belief card
  | _ => b
  end.
Definition learn (card : nat -> nat) (names : list named_variable) (m : model)
    (b : belief) (os : list op) : belief := fold_left (learn1 card names m) os b.

(** Several calls of use_priors. *)
Fixpoint priors_all (m : model) (hs : list bool) : res model :=
  match hs with
  | [] => Ok m
  | h :: hs' => bind (use_priors m h) (fun m' => priors_all m' hs')
  end.

(** The remembered clique of a variable, if any, contains its family. *)
Definition family_known (m : model) (v : nat) : Prop :=
  forall k, v_family (var m v) = Some k ->
    k < length (cls (m_jt m)) /\ incl (v :: v_parents (var m v)) (c_vars (clq (m_jt m) k)).

(** The datum of column [j] at time [t]. *)
Definition entry (ts : time_series) (t j : nat) : Z := nth j (nth t (ts_data ts) []) 0%Z.
