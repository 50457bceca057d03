(** * Specification of files with a wrong potential, and of their corrections (for Property C106) *)
From Coq Require Import String.
From Verif Require Import Base ParseModel ParseSpec.
Import ListNotations.
Open Scope nat_scope.
Local Open Scope list_scope.

(** [first_given ps d]: [d] is the first potential with a bar. *)
Definition first_given (ps : list pot_decl) (d : pot_decl) : Prop :=
  exists a b, ps = a ++ d :: b /\ Forall (fun x => pd_parents x = None) a /\ pd_parents d <> None.

(** [spoilt ds wrong parents]: [wrong] are the potentials of a proper file with the nodes
    [ds], but the first one with a bar has too few numbers, or it has an unknown symbol
    behind the bar.  What comes behind it does not matter.  [parents]: the variables that
    it names behind the bar, up to the unknown symbol, the last one first. *)
Inductive spoilt (ds : list node_decl) : list pot_decl -> list nat -> Prop :=
| few_numbers : forall a d b l c, net_ok (mkNet ds (a ++ d :: b)) ->
    Forall (fun x => pd_parents x = None) a -> pd_parents d <> None ->
    l <> [] -> length l < cells_of (mkNet ds (a ++ d :: b)) d ->
    spoilt ds (a ++ mkDecl (pd_child d) (pd_parents d) (Some l) :: c) (parents_of (mkNet ds (a ++ d :: b)) d)
| unknown_parent : forall a d b known s unread numbers c, net_ok (mkNet ds (a ++ d :: b)) ->
    Forall (fun x => pd_parents x = None) a -> pd_parents d <> None ->
    incl known (map nd_symbol ds) -> ~ In s (map nd_symbol ds) ->
    spoilt ds (a ++ mkDecl (pd_child d) (Some (known ++ s :: unread)) numbers :: c)
      (map (number (mkNet ds (a ++ d :: b))) (rev known)).

(** A proper file with the nodes [ds] whose first potential with a bar has exactly the
    numbers that it needs. *)
Definition corrected (ds : list node_decl) (t : net) : Prop :=
  net_ok t /\ n_nodes t = ds /\
  exists d l, first_given (n_potentials t) d /\ pd_data d = Some l /\ length l = cells_of t d.

(** No node has a label, or each has one. *)
Definition same_labels (ds : list node_decl) : Prop := (forall d, In d ds -> nd_label d = None) \/ (forall d, In d ds -> nd_label d <> None).
