(** * Specification of the programs in util (Properties C74 to C78)

    Stated with the declarations of the NET file and the lines of the data file
    only; nothing here refers to models or to inference. *)
From Coq Require Import String Ascii.
From Verif Require Import Base StringSpec PotentialModel PotentialSpec VariableModel AssignSpec JoinTreeSpec NipSpec SliceSpec SeriesFileModel
  SeriesFileSpec GraphModel ParseModel ParseSpec NetLexModel NetGrammarModel NetSpec WriteSpec.
Import ListNotations.
Open Scope nat_scope.
Local Notation len := List.length.
Local Notation chars := list_ascii_of_string.

(** ** Written files

    A header line, then for each group its lines and an empty line. *)
Fixpoint commas (fs : list (list ascii)) : list ascii :=
  match fs with
  | [] => []
  | [f] => f
  | f :: r => f ++ comma :: commas r
  end.
Definition csv_line (fs : list (list ascii)) : list ascii := commas fs ++ [end_of_line].
Definition csv_group (g : list (list (list ascii))) : list ascii := concat (map csv_line g) ++ [end_of_line].
Definition csv (header : list (list ascii)) (groups : list (list (list (list ascii)))) : list ascii :=
  csv_line header ++ concat (map csv_group groups).

(** A text for the number [x] rounded to six decimals. *)
Definition prints (x : Qc) (f : list ascii) : Prop := exists y, numeral f y /\ rounded x y.

(** ** The process that a NET file describes

    A variable with NIP_next that is a parent is the value of another variable one
    step before. *)
Definition from_before (t : net) (u : nat) : bool :=
  match next_in t u with
  | None => false
  | Some _ => existsb (fun d => existsb (Nat.eqb u) (parents_of t d)) (n_potentials t)
  end.
(** Step [b] follows step [a]. *)
Definition follows (t : net) (a b : nat -> nat) : bool :=
  forallb (fun u => match next_in t u with
                    | Some v => (negb (from_before t u) || Nat.eqb (a v) (b u))%bool
                    | None => true
                    end) (seq 0 (ParseSpec.size t)).
(** The product of the tables of the file; after the first step without those of
    the variables that come from the step before. *)
Definition slice (t : net) (first : bool) (a : nat -> nat) : Qc :=
  qprod (map (fun d => den (family_of t d) (table_of t d) a)
    (filter (fun d => (first || negb (from_before t (child_of t d)))%bool) (n_potentials t))).

(** The states at step [s] are not in contradiction to the data of the series. *)
Definition record_fits (t : net) (ts : series) (s : nat) (a : nat -> nat) : bool :=
  forallb (fun v => match said ts v s with None => true | Some x => Nat.eqb (a v) x end)
    (seq 0 (ParseSpec.size t)).

(** Weight of the course [a] over [T] steps (variable [v] at step [s] is number
    [s * size + v]), zero if it contradicts the first [E] records. *)
Definition at_step (t : net) (a : nat -> nat) (s : nat) : nat -> nat := moment (ParseSpec.size t) a s.
Definition course (t : net) (ts : series) (T E : nat) (a : nat -> nat) : Qc :=
  qprod (map (fun s =>
      given (negb (Nat.ltb s E) || record_fits t ts s (at_step t a s))
        (given (match s with 0 => true | S s' => follows t (at_step t a s') (at_step t a s) end)
           (slice t (Nat.eqb s 0) (at_step t a s))))
    (seq 0 T)).
(** Total of [f] over all courses of [T] steps. *)
Definition total (t : net) (T : nat) (f : (nat -> nat) -> Qc) : Qc :=
  sumv (fun i => card_in t (i mod ParseSpec.size t)) (seq 0 (T * ParseSpec.size t)) f (fun _ => 0).
(** Probability of the first [E] records in a process of [T] steps; probability
    that [v] is in state [x] at step [s], given these records (zero if they are
    impossible). *)
Definition evidence (t : net) (ts : series) (T E : nat) : Qc := total t T (course t ts T E).
Definition chance (t : net) (ts : series) (T E s v x : nat) : Qc :=
  (total t T (fun a => given (Nat.eqb (at_step t a s v) x) (course t ts T E a)) / evidence t ts T E)%Qc.

(** ** The input files *)

(** The text of a proper NET file of conditional distributions, children before
    their parents, for which the tables fit into memory. *)
Record net_file (k1 k2 : list pvar -> list nat -> Z) (c : Z) (contents : list ascii) (t : net) : Prop := {
  nf_text : exists toks ts ks size, text_tokens contents toks /\ Forall2 reads_as toks ts /\ document t ks size ts;
  nf_ok : net_ok t;
  nf_order : children_first t;
  nf_proper : proper t;
  nf_slices : two_slices t;
  nf_states : forall v, Forall (fun s => String.length s <= 40) (states (node t v));
  nf_fit : cliques_fit k1 k2 t;
  nf_count : (c + Z.of_nat (ParseSpec.size t) <= LONG_MAX)%Z
}.

(** The variables of a file with the names of their states. *)
Definition named_in (t : net) : list named_variable :=
  map (fun d => mkNamed 0 (Some (nd_symbol d)) (len (states d)) (Names (states d)) []) (n_nodes t).

(** The contents of a data file with the series [ss] for the columns [cols]. *)
Definition data_file (t : net) (contents : list ascii) (cols : list (nat * nat)) (ss : list series) : Prop :=
  exists header data, SeriesFileSpec.readable contents /\ headed (SeriesFileSpec.table comma contents) header data /\
    cols = known_columns (named_in t) header /\ NoDup (map snd cols) /\
    ss = map (series_of_block (named_in t) cols) (SeriesFileSpec.blocks data).

(** The records are possible, or something comes from the step before. *)
Definition possible_series (t : net) (ts : series) : Prop :=
  (exists u, from_before t u = true) \/ evidence t ts (s_length ts) (s_length ts) <> 0%Qc.

(** The first of the most probable states. *)
Definition most_probable (n : nat) (f : nat -> Qc) (x : nat) : Prop :=
  x < n /\ (forall y, y < n -> (f y <= f x)%Qc) /\ (forall y, y < x -> (f y < f x)%Qc).

(** ** Series of distributions *)

(** [j] is the first position of [v]. *)
Definition first_at (v : nat) (l : list nat) (j : nat) : Prop :=
  nth_error l j = Some v /\ forall i, i < j -> nth_error l i <> Some v.
(** The distributions of [v]: one for every step, each of [n] probabilities. *)
Definition distributions (vars : list nat) (data : list (list (list Qc))) (v n : nat) (ds : list (list Qc)) : Prop :=
  exists j, first_at v vars j /\
    Forall2 (fun row d => nth_error row j = Some d /\ len d = n /\ Forall (fun q => (0 <= q)%Qc /\ (q <= 1)%Qc) d) data ds.

(** ** What the programs report

    For each step the probabilities of the states of [v], given all records. *)
Definition reports (t : net) (ts : series) (v : nat) (g : list (list (list ascii))) : Prop :=
  len g = s_length ts /\
  forall s, s < s_length ts -> len (nth s g []) = card_in t v /\
    forall x, x < card_in t v ->
      prints (chance t ts (s_length ts) (s_length ts) s v x) (nth x (nth s g []) []).
(** For each step the most probable states of the variables [vars]. *)
Definition explains (t : net) (ts : series) (vars : list nat) (g : list (list (list ascii))) : Prop :=
  len g = s_length ts /\
  forall s, s < s_length ts ->
    Forall2 (fun v f => exists x,
        most_probable (card_in t v) (chance t ts (s_length ts) (s_length ts) s v) x /\
        f = chars (nth x (states (node t v)) EmptyString))
      vars (nth s g []).
(** For each step a one for the state of [v] in the data, zeros for the others. *)
Definition indicates (t : net) (ts : series) (v : nat) (g : list (list (list ascii))) : Prop :=
  len g = s_length ts /\
  forall s, s < s_length ts ->
    nth s g [] = map (fun x => match said ts v s with
                               | Some y => chars (if Nat.eqb x y then "1" else "0")
                               | None => chars "0"
                               end) (seq 0 (card_in t v)).
(** The variables without a column. *)
Definition without_column (t : net) (cols : list (nat * nat)) : list nat :=
  filter (fun v => negb (existsb (Nat.eqb v) (map snd cols))) (seq 0 (ParseSpec.size t)).
(** The quotients of [l] multiply to the probability of the records. *)
Definition likelihood_of (t : net) (ts : series) (l : list (Qc * Qc)) : Prop :=
  evidence t ts (s_length ts) (s_length ts) <> 0%Qc ->
  len l = s_length ts /\ ratios l = evidence t ts (s_length ts) (s_length ts).
