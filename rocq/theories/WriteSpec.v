(** * Specification of written NET files (for Properties C72 and C73) *)
From Coq Require Import String Ascii.
From Verif Require Import Base StringSpec PotentialModel PotentialSpec VariableModel JoinTreeModel
  AssignSpec JoinTreeSpec NipModel NipSpec SliceModel SliceSpec LearnSpec GraphModel ParseModel ParseSpec
  NetLexModel NetGrammarModel NetSpec WriteModel.
Import ListNotations.
Open Scope nat_scope.
Local Notation chars := list_ascii_of_string.

(** ** Numbers

    [y] is [x] rounded to six decimals. *)
Definition million : Qc := Q2Qc (QArith_base.inject_Z 1000000).
Definition six_decimals (y : Qc) : Prop := exists k : Z, (y * million)%Qc = Q2Qc (QArith_base.inject_Z k).
Definition rounded (x y : Qc) : Prop :=
  six_decimals y /\ ((y - x) * (million + million) <= 1)%Qc /\ ((x - y) * (million + million) <= 1)%Qc.

(** ** Models that can be written

    Texts that can be quoted (see C66 for separators), and symbols. *)
Definition quotable (s : string) : Prop :=
  String.length s <= 40 /\
  Forall (fun c => c <> quote /\ member c net_separators = false /\ c <> end_of_line /\ c <> zero) (chars s).
Definition symbol_writable (s : string) : Prop :=
  String.length s <= 40 /\ symbol_ok (chars s) /\ ~ In zero (chars s) /\ hd percent (chars s) <> percent.

(** The variables have different symbols, all texts can be written, no number
    is out of range, the lines with the parents of a variable do not get too long
    to be read, the variables are divided into those with and those without
    parents, whose priors are distributions. *)
Record writable (card : nat -> nat) (m : model) (names : list named_variable) (pages : list page) (size : Z * Z) : Prop := {
  wb_names : names_ok card m names;
  wb_symbols : NoDup (map symbol_of names) /\ Forall symbol_writable (map symbol_of names);
  wb_states : forall nv, In nv names -> Forall quotable (states_of nv);
  wb_pages : length pages = length (m_vars m) /\
    forall p, In p pages -> (exists s, pg_name p = Some s /\ quotable s) /\
      (0 <= pg_x p <= INT_MAX)%Z /\ (0 <= pg_y p <= INT_MAX)%Z /\
      (forall v, pg_next p = Some v -> v < length (m_vars m));
  wb_size : (0 <= fst size <= INT_MAX)%Z /\ (0 <= snd size <= INT_MAX)%Z;
  wb_parents : forall v, v < length (m_vars m) -> length (v_parents (var m v)) <= 100;
  wb_kinds : m_indep m = filter (fun v => negb (has_parents m v)) (seq 0 (length (m_vars m))) /\
    m_children m = filter (has_parents m) (seq 0 (length (m_vars m)));
  wb_priors : forall v l, In v (m_indep m) -> v_prior (var m v) = Some l -> qsum l = 1%Qc
}.

(** ** What is written

    The distribution of a variable: its prior, or the table that results from
    summing the original table of the first clique with the family, divided by
    its sum over the states of the child. *)
Definition family_sum (card : nat -> nat) (m : model) (v : nat) (a : nat -> nat) : Qc :=
  let k := clq (m_jt m) (home m v) in
  sumv card (minus (c_vars k) (family m v)) (den (c_vars k) (c_orig k)) a.
Definition distribution (card : nat -> nat) (m : model) (v : nat) (a : nat -> nat) : Qc :=
  if has_parents m v then (family_sum card m v a / sumv card [v] (family_sum card m v) a)%Qc
  else at_state (match v_prior (var m v) with Some l => l | None => [] end) v a.

Definition looks_on (p : page) : looks := mkLooks (pg_name p) (pg_x p) (pg_y p).

(** The declarations [t] describe the model: symbols, labels, states, the
    variables of the next slice, the parents in the same order, the rounded
    distributions; the variables without parents come first. *)
Record describes (card : nat -> nat) (m : model) (names : list named_variable) (pages : list page) (t : net) : Prop := {
  ds_symbols : symbols t = map symbol_of names;
  ds_node : forall v nv p, nth_error names v = Some nv -> nth_error pages v = Some p ->
    nd_label (node t v) = pg_name p /\ nd_states (node t v) = Some (states_of nv) /\ next_in t v = pg_next p;
  ds_order : map (child_of t) (n_potentials t) = m_indep m ++ m_children m;
  ds_known : forall d, In d (n_nodes t) -> forall s, nd_next d = Some s -> In s (symbols t);
  ds_parents : forall d, In d (n_potentials t) -> incl (pd_child d :: given_symbols d) (symbols t) /\
    parents_of t d = v_parents (var m (child_of t d)) /\ (pd_parents d = None <-> v_parents (var m (child_of t d)) = []);
  ds_table : forall d, In d (n_potentials t) -> (exists l, pd_data d = Some l /\ length l = cells_of t d) /\
    forall a, valid card a -> rounded (distribution card m (child_of t d) a) (den (family_of t d) (table_of t d) a)
}.

(** ** Reading back

    The variables that are each other's next slice have equally many states, and
    no variable is the next slice of two; there are not too many variables, nor
    states. *)
Record readable (card : nat -> nat) (m : model) (pages : list page) : Prop := {
  rb_next : forall v p w, nth_error pages v = Some p -> pg_next p = Some w -> card w = card v;
  rb_once : forall v p v' p' w, nth_error pages v = Some p -> nth_error pages v' = Some p' ->
    pg_next p = Some w -> pg_next p' = Some w -> v = v';
  rb_some : m_vars m <> [];
  rb_size : (Z.of_nat (length (m_vars m) * (length (m_vars m) - 1)) <= INT_MAX)%Z;
  rb_cards : forall v, v < length (m_vars m) -> (Z.of_nat (card v) <= 1000000)%Z
}.

(** The original table of the first clique with the family allows the states
    that [a] gives to the parents of [v]. *)
Definition possible (card : nat -> nat) (m : model) (v : nat) (a : nat -> nat) : Prop :=
  sumv card [v] (family_sum card m v) a <> 0%Qc.

(** Texts of a file that can be written again. *)
Record printable (t : net) : Prop := {
  pr_symbols : Forall symbol_writable (symbols t);
  pr_states : forall d, In d (n_nodes t) -> Forall quotable (states d);
  pr_labels : forall d s, In d (n_nodes t) -> nd_label d = Some s -> quotable s;
  pr_parents : forall d, In d (n_potentials t) -> length (given_symbols d) <= 100;
  pr_cards : forall d, In d (n_nodes t) -> (Z.of_nat (length (states d)) <= 1000000)%Z
}.

(** A missing label is replaced by a blank. *)
Definition label_or_blank (l : option string) : option string :=
  Some (match l with Some s => s | None => " "%string end).
Definition labelled (k : looks) : looks := mkLooks (label_or_blank (k_label k)) (k_x k) (k_y k).

(** The same variables and arcs. *)
Record same_declarations (t t' : net) : Prop := {
  sd_symbols : symbols t' = symbols t;
  sd_node : forall v, v < ParseSpec.size t -> states (node t' v) = states (node t v) /\ next_in t' v = next_in t v /\
    nd_label (node t' v) = label_or_blank (nd_label (node t v));
  sd_parents : forall v, v < ParseSpec.size t -> parents_of t' (decl_of t' v) = parents_of t (decl_of t v)
}.

(** The entry of the table of [v]. *)
Definition entry (t : net) (v : nat) (a : nat -> nat) : Qc :=
  den (family_of t (decl_of t v)) (table_of t (decl_of t v)) a.

(** The states that [a] gives to the parents of [v] are not impossible according
    to the file. *)
Definition happens (t : net) (v : nat) (a : nat -> nat) : Prop :=
  exists b, valid (card_in t) b /\ (forall u, In u (parents_of t (decl_of t v)) -> b u = a u) /\
    parsed_joint t b <> 0%Qc.
