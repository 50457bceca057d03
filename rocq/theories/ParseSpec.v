(** * Specification of parsed networks *)
From Coq Require Import String Permutation.
From Verif Require Import Base PotentialModel PotentialSpec VariableModel JoinTreeModel
  AssignSpec JoinTreeSpec NipModel NipSpec SliceModel SliceSpec LearnModel LearnSpec GraphModel GraphSpec
  ParseModel.
Import ListNotations.
Open Scope nat_scope.

(** ** What a file says

    The variables are numbered in the order of their declarations. *)
Definition symbols (t : net) : list string := map nd_symbol (n_nodes t).
Definition size (t : net) : nat := length (n_nodes t).
Definition number (t : net) (s : string) : nat :=
  match position s (symbols t) with Some v => v | None => 0 end.
Definition states (d : node_decl) : list string :=
  match nd_states d with Some l => l | None => [] end.
Definition node (t : net) (v : nat) : node_decl :=
  nth v (n_nodes t) (mkNode EmptyString None (Some [EmptyString]) None).
(** Number of states of a variable (one for numbers that are no variable). *)
Definition card_in (t : net) (v : nat) : nat := length (states (node t v)).
(** The variable of the next time slice that NIP_next names. *)
Definition next_in (t : net) (v : nat) : option nat := option_map (number t) (nd_next (node t v)).

(** The symbols after the bar; the parents in the order of the table: the last
    one named runs fastest after the child. *)
Definition given_symbols (d : pot_decl) : list string :=
  match pd_parents d with Some l => l | None => [] end.
Definition parents_of (t : net) (d : pot_decl) : list nat := map (number t) (rev (given_symbols d)).
Definition child_of (t : net) (d : pot_decl) : nat := number t (pd_child d).
Definition family_of (t : net) (d : pot_decl) : list nat := child_of t d :: parents_of t d.
(** [u] is a parent of [v]. *)
Definition parent (t : net) (u v : nat) : Prop :=
  exists d, In d (n_potentials t) /\ child_of t d = v /\ In u (parents_of t d).

(** The table of a declaration over its family, the child running fastest; all
    ones if there are no data. *)
Definition cells_of (t : net) (d : pot_decl) : nat := prod (map (card_in t) (family_of t d)).
Definition table_of (t : net) (d : pot_decl) : potential :=
  mkPot (map (card_in t) (family_of t d))
    (match pd_data d with
     | Some l => firstn (cells_of t d) l
     | None => repeat 1%Qc (cells_of t d)
     end).
(** The declaration of the distribution of [v] (the first one). *)
Definition decl_of (t : net) (v : nat) : pot_decl :=
  match find (fun d => Nat.eqb (child_of t d) v) (n_potentials t) with
  | Some d => d
  | None => mkDecl EmptyString None None
  end.
(** The tables of all variables. *)
Definition tables (t : net) : list potential := map (fun v => table_of t (decl_of t v)) (seq 0 (size t)).

(** A table over [fam], divided by its sum over the states of [w]. *)
Definition scaled (card : nat -> nat) (fam : list nat) (p : potential) (w : nat) (a : nat -> nat) : Qc :=
  (den fam p a / sumv card [w] (den fam p) a)%Qc.
(** The member of a family that was declared first. *)
Definition first_declared (fam : list nat) : nat :=
  match fam with [] => 0 | v :: l => fold_left Nat.min l v end.

(** ** Proper files *)

(** A declaration of a distribution: known symbols, none of them twice, parents
    after a bar if there is a bar, enough numbers, none negative, a table that
    can be addressed with an int. *)
Definition decl_ok (t : net) (d : pot_decl) : Prop :=
  incl (pd_child d :: given_symbols d) (symbols t) /\
  NoDup (pd_child d :: given_symbols d) /\
  pd_parents d <> Some [] /\
  (forall l, pd_data d = Some l -> cells_of t d <= length l /\ Forall (fun x => (0 <= x)%Qc) l) /\
  (Z.of_nat (cells_of t d) <= INT_MAX)%Z.

(** A proper file: some nodes, all with different symbols of at most 40
    characters and at least one state; no node without label after one with
    label; one distribution for every variable; NIP_next names a variable with
    as many states, and no variable twice; a prior is not all zero. *)
Record net_ok (t : net) : Prop := {
  no_nodes : n_nodes t <> [];
  no_symbols : NoDup (symbols t) /\ Forall (fun s => String.length s <= 40) (symbols t);
  no_states : forall d, In d (n_nodes t) -> nd_states d <> None /\ states d <> [];
  no_labels : forall l1 d1 l2 d2 l3, n_nodes t = l1 ++ d1 :: l2 ++ d2 :: l3 ->
    nd_label d1 <> None -> nd_label d2 <> None;
  no_decls : Permutation (map pd_child (n_potentials t)) (symbols t);
  no_decl : forall d, In d (n_potentials t) -> decl_ok t d;
  no_next : forall d s, In d (n_nodes t) -> nd_next d = Some s ->
    In s (symbols t) /\ card_in t (number t s) = length (states d);
  no_next_once : forall d1 d2 s, In d1 (n_nodes t) -> In d2 (n_nodes t) ->
    nd_next d1 = Some s -> nd_next d2 = Some s -> d1 = d2;
  no_priors : forall d, In d (n_potentials t) -> pd_parents d = None ->
    exists x, In x (data (table_of t d)) /\ (0 < x)%Qc;
  no_size : (Z.of_nat (size t * (size t - 1)) <= INT_MAX)%Z
}.

(** The graph of a file. *)
Definition arcs_of (t : net) : list (nat * nat) :=
  flat_map (fun d => map (fun u => (u, child_of t d)) (parents_of t d)) (n_potentials t).

(** ** Time slices *)

(** In the previous slice and a parent of something. *)
Definition old_outgoing (t : net) (v : nat) : Prop :=
  next_in t v <> None /\ exists w, parent t v w.
(** The same variable in the present slice. *)
Definition outgoing (t : net) (v : nat) : Prop :=
  exists u, next_in t u = Some v /\ old_outgoing t u.
(** A child of something in the previous slice, or a parent in the present
    slice of such a child. *)
Definition incoming (t : net) (v : nat) : Prop :=
  (exists u, parent t u v /\ next_in t u <> None) \/
  (next_in t v = None /\ exists w u, parent t v w /\ parent t u w /\ next_in t u <> None).

(** The variables can be ordered with parents before children, and those of the
    previous slice have no parents. *)
Definition acyclic (t : net) : Prop :=
  exists l, Permutation l (seq 0 (size t)) /\
    forall l1 v l2, l = l1 ++ v :: l2 -> forall u, parent t u v -> In u l1.
Definition two_slices (t : net) : Prop := forall u v, old_outgoing t v -> ~ parent t u v.
(** Every node is declared before its parents. *)
Definition children_first (t : net) : Prop := forall u v, parent t u v -> v < u.
(** Every distribution adds up to something positive for all states of the
    parents. *)
Definition columns_ok (t : net) : Prop :=
  forall d a, In d (n_potentials t) -> valid (card_in t) a ->
    sumv (card_in t) [child_of t d] (den (family_of t d) (table_of t d)) a <> 0%Qc.

(** The factor that a declaration contributes to the joint distribution of the
    parsed model: its table, normalised over the member of the family that was
    declared first; all ones for a variable without parents and data. *)
Definition factor_of (t : net) (d : pot_decl) (a : nat -> nat) : Qc :=
  match pd_parents d, pd_data d with
  | None, None => 1%Qc
  | _, _ => scaled (card_in t) (family_of t d) (table_of t d) (first_declared (family_of t d)) a
  end.

(** In the same family, or both in the interface of one time slice. *)
Definition connected (t : net) (u v : nat) : Prop :=
  (exists d, In d (n_potentials t) /\ In u (family_of t d) /\ In v (family_of t d)) \/
  (old_outgoing t u /\ old_outgoing t v) \/ (outgoing t u /\ outgoing t v).

(** What the model built from a file is: the variables of the file with their
    names, parents and no evidence; the product of the factors of the
    declarations with parents as original joint, each of them in the first clique
    that contains the family, those of the others as priors; the interfaces
    between time slices; connected variables together in a clique, no clique
    inside of another one. *)
Record parsed (t : net) (names : list named_variable) (m : model) : Prop := {
  pa_slices : slices_ok (card_in t) m;
  pa_size : length (m_vars m) = size t;
  pa_names : names_ok (card_in t) m names;
  pa_symbols : map symbol_of names = symbols t;
  pa_states : forall v nv, nth_error names v = Some nv ->
    Forall (fun s => String.length s <= 40) (states (node t v)) -> states_of nv = states (node t v);
  pa_parents : forall v, v < size t -> v_parents (var m v) = parents_of t (decl_of t v);
  pa_fresh : forall v, v < size t ->
    v_lik (var m v) = repeat 1%Qc (card_in t v) /\ v_entered (var m v) = false;
  pa_joint : forall a, valid (card_in t) a ->
    original m a = qprod (map (fun v => factor_of t (decl_of t v) a)
      (filter (fun v => match parents_of t (decl_of t v) with [] => false | _ => true end) (seq 0 (size t)))) /\
    joint (m_jt m) a = original m a;
  pa_factored : factored (card_in t) m (fun v => factor_of t (decl_of t v));
  pa_priors : forall v, v < size t -> parents_of t (decl_of t v) = [] ->
    exists l, v_prior (var m v) = Some l /\
      forall a, valid (card_in t) a -> at_state l v a = factor_of t (decl_of t v) a;
  pa_indep : m_indep m = filter (fun v => match parents_of t (decl_of t v) with [] => true | _ => false end) (seq 0 (size t));
  pa_children : m_children m = filter (fun v => match parents_of t (decl_of t v) with [] => false | _ => true end) (seq 0 (size t));
  pa_prev : forall v, In v (m_prev m) <-> v < size t /\ old_outgoing t v;
  pa_out : map Some (m_out m) = map (next_in t) (m_prev m);
  pa_old : forall v, v < size t -> (v_old (var m v) = true <-> old_outgoing t v);
  pa_cliques : forall l, incl l (seq 0 (size t)) -> (forall u v, In u l -> In v l -> u <> v -> connected t u v) ->
    exists i, i < length (cls (m_jt m)) /\ incl l (c_vars (clq (m_jt m) i));
  pa_maximal : forall i j, i < length (cls (m_jt m)) -> j < length (cls (m_jt m)) -> i <> j ->
    ~ incl (c_vars (clq (m_jt m) i)) (c_vars (clq (m_jt m) j));
  pa_mark : forall v, v < size t -> v_mark (var m v) = MARK_OFF \/ v_mark (var m v) = MARK_ON
}.

(** The sets of variables that the triangulation makes into cliques have tables
    that can be addressed with an int. *)
Definition cliques_fit (k1 k2 : list pvar -> list nat -> Z) (t : net) : Prop :=
  forall vl iface g gt c, graph_from (seq 0 (size t)) (arcs_of t) = Ok (g, NO_ERROR) ->
    (forall v, v < size t -> (flag_old_outgoing (iface v) = true <-> old_outgoing t v) /\
                             (flag_outgoing (iface v) = true <-> outgoing t v)) ->
    triangulated (k1 vl) (k2 vl) iface g = Ok gt ->
    NoDup c -> incl c (seq 0 (size t)) -> complete gt c -> fits (card_in t) c.

(** ** The distribution that a file describes *)

(** The product of the tables of a file, and that of the factors the parser
    makes of them. *)
Definition file_joint (t : net) (a : nat -> nat) : Qc :=
  qprod (map (fun d => den (family_of t d) (table_of t d) a) (n_potentials t)).
Definition parsed_joint (t : net) (a : nat -> nat) : Qc :=
  qprod (map (fun d => factor_of t d a) (n_potentials t)).
(** Every table is a conditional distribution of its child. *)
Definition proper (t : net) : Prop :=
  forall d a, In d (n_potentials t) -> valid (card_in t) a ->
    sumv (card_in t) [child_of t d] (den (family_of t d) (table_of t d)) a = 1%Qc.
(** Every variable without parents has data. *)
Definition roots_given (t : net) : Prop :=
  forall d, In d (n_potentials t) -> pd_parents d = None -> pd_data d <> None.

(** Observations: pairs of a symbol and a state, no symbol twice. *)
Definition observations_ok (t : net) (obs : list (string * string)) : Prop :=
  NoDup (map fst obs) /\
  (forall v, Forall (fun s => String.length s <= 40) (states (node t v))) /\
  forall s x, In (s, x) obs -> In s (symbols t) /\ In x (states (node t (number t s))).
Definition observed (t : net) (obs : list (string * string)) (a : nat -> nat) : bool :=
  forallb (fun o => match position (snd o) (states (node t (number t (fst o)))) with
                    | Some i => Nat.eqb (a (number t (fst o))) i
                    | None => false
                    end) obs.
(** Total of [f] over the assignments that agree with the observations; the
    same with [v] in state [x]. *)
Definition mass (t : net) (f : (nat -> nat) -> Qc) (obs : list (string * string)) : Qc :=
  sumv (card_in t) (seq 0 (size t)) (fun a => given (observed t obs a) (f a)) (fun _ => 0).
Definition mass_where (t : net) (f : (nat -> nat) -> Qc) (obs : list (string * string)) (v x : nat) : Qc :=
  sumv (card_in t) (minus (seq 0 (size t)) [v]) (fun a => given (observed t obs a) (f a)) (upd (fun _ => 0) v x).
