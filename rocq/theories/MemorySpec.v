(** * Specification for Properties C82 and C83: who owns memory

    A program creates variables and cliques, connects cliques by sepsets and
    frees them again.  Variables and cliques are numbered in the order of
    creation. *)
From Verif Require Import Base MemoryModel.
Import ListNotations.
Open Scope nat_scope.

Inductive call :=
| NewVariable (symbol : nat) (name : option nat) (states : list nat)
    (** lengths of the symbol, the name (if any) and the names of the states *)
| SetParents (v : nat) (parents : list nat)
| SetPrior (v : nat)
| FindMapping (v : nat)
| NewClique (members : list nat)
| Connect (a b : nat)
| FreeClique (a : nat)
| FreeVariable (v : nat).

(** What a program means: for each variable whether it exists; for each clique
    that exists its members and its neighbours, those connected last first. *)
Record world := mkWorld { w_vars : list bool; w_cliques : list (option (list nat * list nat)) }.
Definition nothing : world := mkWorld [] [].

Definition exists_var (w : world) (v : nat) : bool := nth v (w_vars w) false.
Definition clique_of (w : world) (a : nat) : option (list nat * list nat) :=
  match nth_error (w_cliques w) a with Some c => c | None => None end.

(** Changing one clique. *)
Definition change (f : nat -> list nat * list nat -> option (list nat * list nat)) (w : world) : world :=
  mkWorld (w_vars w)
    (map (fun x => match snd x with Some c => f (fst x) c | None => None end)
       (combine (seq 0 (length (w_cliques w))) (w_cliques w))).

(** A new neighbour [b] of [a]; and the end of the clique [a]. *)
Definition with_neighbour (a b : nat) : world -> world :=
  change (fun k c => Some (if Nat.eqb k a then (fst c, b :: snd c) else c)).
Definition without (a : nat) : world -> world :=
  change (fun k c => if Nat.eqb k a then None
                     else Some (fst c, filter (fun b => negb (Nat.eqb b a)) (snd c))).

(** The meaning of a call, if it is a proper one: of things that exist, and a
    clique is not connected to itself.  Connecting cliques looks at their
    variables, which must exist. *)
Definition meaning (w : world) (c : call) : option world :=
  match c with
  | NewVariable _ _ _ => Some (mkWorld (w_vars w ++ [true]) (w_cliques w))
  | SetParents v _ | SetPrior v | FindMapping v => if exists_var w v then Some w else None
  | NewClique members =>
      if forallb (exists_var w) members
      then Some (mkWorld (w_vars w) (w_cliques w ++ [Some (members, [])])) else None
  | Connect a b =>
      match clique_of w a, clique_of w b with
      | Some (ma, _), Some (mb, _) =>
          if (negb (Nat.eqb a b) && forallb (exists_var w) ma && forallb (exists_var w) mb)%bool
          then Some (with_neighbour b a (with_neighbour a b w)) else None
      | _, _ => None
      end
  | FreeClique a => match clique_of w a with Some _ => Some (without a w) | None => None end
  | FreeVariable v =>
      if exists_var w v
      then Some (mkWorld (map (fun x => (snd x && negb (Nat.eqb (fst x) v))%bool)
                            (combine (seq 0 (length (w_vars w))) (w_vars w))) (w_cliques w))
      else None
  end.
Fixpoint meanings (w : world) (cs : list call) : option world :=
  match cs with
  | [] => Some w
  | c :: cs => match meaning w c with Some w => meanings w cs | None => None end
  end.

(** Memory without any allocated block. *)
Definition all_free (m : memory) : Prop := Forall (fun b => b = None) m.

(** The list of sepsets that starts at a link: links followed forwards, with the
    way back. *)
Inductive chain (m : memory) : option nat -> option nat -> list nat -> Prop :=
| chain_end : forall back, chain m back None []
| chain_link : forall back l s next ss,
    nth_error m l = Some (Some [P (Some s); P next; P back]) ->
    chain m (Some l) next ss -> chain m back (Some l) (s :: ss).

(** The sepset at [s] is between the cliques at [c] and [d]. *)
Definition between (m : memory) (s c d : nat) : Prop :=
  exists old new vars x y, nth_error m s = Some (Some [old; new; vars; P (Some x); P (Some y)]) /\
    ((x = c /\ y = d) \/ (x = d /\ y = c)).

(** The clique at [c] has the neighbours at [ds], in this order. *)
Definition has_neighbours (m : memory) (c : nat) (ds : list nat) : Prop :=
  exists b first ss, nth_error m c = Some (Some b) /\ nth_error b C_sepsets = Some (P first) /\
    chain m None first ss /\ Forall2 (fun s d => between m s c d) ss ds.

(** Running a program: the memory and the addresses of variables and cliques. *)
Definition state : Type := memory * list nat * list nat.
Definition address (x : option nat) : res nat := match x with Some a => Ok a | None => UB end.
Local Open Scope res_scope.
Definition run_call (st : state) (c : call) : res state :=
  let '(m, vs, cs) := st in
  match c with
  | NewVariable symbol name states =>
      let* (m, v) := new_variable m (length vs) symbol name (Some states) (length states) in
      let* v := address v in Ok (m, vs ++ [v], cs)
  | SetParents v ps =>
      let* v := rd vs v in
      let* m := set_parents m (Some v) (map (nth_error vs) ps) in Ok (m, vs, cs)
  | SetPrior v => let* v := rd vs v in let* m := set_prior m (Some v) in Ok (m, vs, cs)
  | FindMapping v => let* v := rd vs v in let* m := find_family_mapping m (Some v) in Ok (m, vs, cs)
  | NewClique members =>
      let* (m, c) := new_clique m (map (nth_error vs) members) in
      let* c := address c in Ok (m, vs, cs ++ [c])
  | Connect a b =>
      let* a := rd cs a in let* b := rd cs b in
      let* (m, s) := new_sepset m (Some a) (Some b) in
      let* m := confirm_sepset m s in Ok (m, vs, cs)
  | FreeClique a => let* a := rd cs a in let* m := free_clique m (Some a) in Ok (m, vs, cs)
  | FreeVariable v => let* v := rd vs v in let* m := free_variable m (Some v) in Ok (m, vs, cs)
  end.
Fixpoint run_calls (st : state) (cs : list call) : res state :=
  match cs with
  | [] => Ok st
  | c :: cs => let* st := run_call st c in run_calls st cs
  end.
Definition start : state := ([], [], []).

(** The cliques and the variables that exist, in some order. *)
Definition lists_cliques (w : world) (ks : list nat) : Prop :=
  NoDup ks /\ forall k, In k ks <-> clique_of w k <> None.
Definition lists_variables (w : world) (vs : list nat) : Prop :=
  NoDup vs /\ forall v, In v vs <-> exists_var w v = true.

(** Programs that use series of data and series of results as well. *)
Inductive action :=
| Tree (c : call)
| NewSeries (hidden : option nat) (observed length : nat)
    (** numbers of hidden variables (if there is such an array) and of observed
        variables *)
| FreeSeries (y : nat)
| NewResults (cards : list nat) (length : nat)
| FreeResults (u : nat).

Record things := mkThings { t_world : world; t_series : list bool; t_results : list bool }.
Definition no_things : things := mkThings nothing [] [].
Definition effect (t : things) (a : action) : option things :=
  match a with
  | Tree c => match meaning (t_world t) c with
              | Some w => Some (mkThings w (t_series t) (t_results t))
              | None => None
              end
  | NewSeries _ _ _ => Some (mkThings (t_world t) (t_series t ++ [true]) (t_results t))
  | FreeSeries y => if nth y (t_series t) false
                    then Some (mkThings (t_world t) (set_nth (t_series t) y false) (t_results t)) else None
  | NewResults _ _ => Some (mkThings (t_world t) (t_series t) (t_results t ++ [true]))
  | FreeResults u => if nth u (t_results t) false
                     then Some (mkThings (t_world t) (t_series t) (set_nth (t_results t) u false)) else None
  end.
Fixpoint effects (t : things) (l : list action) : option things :=
  match l with
  | [] => Some t
  | a :: l => match effect t a with Some t => effects t l | None => None end
  end.

(** The addresses of series and results are kept as well. *)
Definition run_action (st : state * list nat * list nat) (a : action) : res (state * list nat * list nat) :=
  let '((m, vs, cs), ys, us) := st in
  match a with
  | Tree c => let* st := run_call (m, vs, cs) c in Ok (st, ys, us)
  | NewSeries h o n =>
      let* (m, y) := new_timeseries m h o n in
      let* y := address y in Ok ((m, vs, cs), ys ++ [y], us)
  | FreeSeries y =>
      let* y := rd ys y in let* m := free_timeseries m (Some y) in Ok ((m, vs, cs), ys, us)
  | NewResults cards n =>
      let* (m, u) := new_uncertainseries m cards n in
      let* u := address u in Ok ((m, vs, cs), ys, us ++ [u])
  | FreeResults u =>
      let* u := rd us u in let* m := free_uncertainseries m (Some u) in Ok ((m, vs, cs), ys, us)
  end.
Fixpoint run_actions (st : state * list nat * list nat) (l : list action) : res (state * list nat * list nat) :=
  match l with
  | [] => Ok st
  | a :: l => let* st := run_action st a in run_actions st l
  end.
