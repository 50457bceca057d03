(** * Properties C13-C18: variables and variable sets (src/nipvariable.c)

    A variable reference is its identifier.  [variable_union] and the others
    are the models in VariableModel.v; [None] as an array is NULL; [Ok] means
    that no cell outside an array was touched.  [create_all counter calls]
    (VariableSpec.v) performs a history of nip_new_variable calls, some of
    which may fail. *)
From Coq Require Import String Ascii Permutation Sorted.
From Verif Require Import Base BaseProofs VariableModel VariableSpec VariableProofs.
Import ListNotations.
Open Scope nat_scope.
Local Open Scope string_scope.

(** C13.  The union of two arrays without internal repetition: [a] followed by
    those of [b] that are not in [a]; every variable once; right count. *)
Theorem C13_variable_union : forall a b,
  NoDup a -> NoDup b -> 0 < length a + length b ->
  exists c,
    variable_union (Some a) (Some b) (length a) (length b)
      = Ok (Some c, Z.of_nat (length c)) /\
    NoDup c /\
    (forall x, In x c <-> In x a \/ In x b) /\
    (exists rest, c = (a ++ rest)%list /\
       rest = filter (fun x => negb (existsb (Nat.eqb x) a)) b).
Proof. exact C13_lemma. Qed.
Print Assumptions C13_variable_union.

Theorem C13_variable_union_empty :
  variable_union (Some []) (Some []) 0 0 = Ok (None, 0%Z) /\
  variable_union None None 0 0 = Ok (None, 0%Z).
Proof. exact (conj eq_refl eq_refl). Qed.
Print Assumptions C13_variable_union_empty.

(** The hypothesis is needed: a repetition in [a] of a variable of [b] makes
    the function write outside the array it allocated. *)
Theorem C13_variable_union_repetition_overflows :
  variable_union (Some [1; 1]) (Some [1]) 2 1 = UB.
Proof. exact eq_refl. Qed.
Print Assumptions C13_variable_union_repetition_overflows.

Example C13_case : NoDup [3; 1] /\ NoDup [2; 1; 7] /\
  variable_union (Some [3; 1]) (Some [2; 1; 7]) 2 3 = Ok (Some [3; 1; 2; 7], 4%Z).
Proof. split; [|split]; [repeat constructor; simpl; lia..|reflexivity]. Qed.

(** C14.  The intersection, in the order of [a]; NULL when empty. *)
Theorem C14_variable_isect : forall a b,
  exists c,
    variable_isect (Some a) (Some b) (length a) (length b)
      = Ok (match c with [] => None | _ => Some c end, Z.of_nat (length c)) /\
    (forall x, In x c <-> In x a /\ In x b) /\
    c = filter (fun x => existsb (Nat.eqb x) b) a.
Proof. exact C14_lemma. Qed.
Print Assumptions C14_variable_isect.

Example C14_case :
  variable_isect (Some [5; 3; 1]) (Some [1; 2; 5]) 3 3 = Ok (Some [5; 1], 2%Z) /\
  variable_isect (Some [5; 3]) (Some [1; 2]) 2 2 = Ok (None, 0%Z).
Proof. split; reflexivity. Qed.

(** C15.  The mapping gives positions in the set, one for each variable of the
    subset, all different. *)
Theorem C15_mapper : forall set subset,
  subset <> [] -> NoDup subset -> (forall x, In x subset -> In x set) ->
  exists m,
    mapper (Some set) (Some subset) (length set) (length subset) = Ok (Some m) /\
    length m = length subset /\
    (forall i, i < length subset ->
       nth i m 0 < length set /\ nth (nth i m 0) set 0 = nth i subset 0) /\
    NoDup m.
Proof. exact C15_lemma. Qed.
Print Assumptions C15_mapper.

Example C15_case : (forall x, In x [4; 9] -> In x [9; 2; 4]) /\
  mapper (Some [9; 2; 4]) (Some [4; 9]) 3 2 = Ok (Some [2; 0]).
Proof. split; [simpl; intuition|reflexivity]. Qed.

(** C16.  nip_sort_variables does not sort: for every array of four or more
    different variables the result is a rearrangement that is not ascending. *)
Theorem C16_sort_variables_refuted : forall vars,
  NoDup vars -> 4 <= length vars ->
  exists s, sort_variables vars (Z.of_nat (length vars)) = Ok (Some s) /\
    Permutation s vars /\ ~ StronglySorted lt s.
Proof. exact C16_refuted_lemma. Qed.
Print Assumptions C16_sort_variables_refuted.

(** What remains true: up to three variables are sorted. *)
Theorem C16_sort_variables_partial : forall vars,
  1 <= length vars <= 3 ->
  exists s, sort_variables vars (Z.of_nat (length vars)) = Ok (Some s) /\
    Permutation s vars /\ StronglySorted le s.
Proof. exact C16_partial_lemma. Qed.
Print Assumptions C16_sort_variables_partial.

Example C16_case :
  sort_variables [1; 2; 3; 4] 4 = Ok (Some [1; 3; 2; 4]) /\
  sort_variables [3; 1; 2] 3 = Ok (Some [1; 2; 3]).
Proof. split; reflexivity. Qed.

(** C17.  A variable created with state names of at most 40 characters: names
    are found at their first index, others give -1, and with distinct names
    the two lookups are inverse. *)
Theorem C17_state_names : forall counter symbol states,
  (counter < LONG_MAX)%Z ->
  (forall s, In s states -> String.length s <= 40) ->
  exists v counter',
    new_variable counter true true true symbol (Some (map Some states)) (length states)
      = Ok (Some v, counter') /\
    (forall i, i < length states ->
       variable_state_name v (Z.of_nat i) = Ok (Some (nth i states ""))) /\
    (forall s, ~ In s states -> variable_state_index v s = Ok (-1)%Z) /\
    (forall s, In s states -> exists i, variable_state_index v s = Ok (Z.of_nat i) /\
       i < length states /\ nth i states "" = s /\
       forall k, k < i -> nth k states "" <> s) /\
    (NoDup states -> forall i, i < length states ->
       variable_state_index v (nth i states "") = Ok (Z.of_nat i)).
Proof. exact C17_lemma. Qed.
Print Assumptions C17_state_names.

(** A name longer than 40 characters is never found, not even one the variable
    was created with: the names are cut on creation, the lookup is not. *)
Theorem C17_state_names_long_unknown : forall counter symbol states,
  (counter < LONG_MAX)%Z ->
  exists v counter',
    new_variable counter true true true symbol (Some (map Some states)) (length states)
      = Ok (Some v, counter') /\
    (forall s, 40 < String.length s -> variable_state_index v s = Ok (-1)%Z).
Proof. exact C17_refuted_lemma. Qed.
Print Assumptions C17_state_names_long_unknown.

Example C17_case : exists v c,
  new_variable 1 true true true (Some "A") (Some (map Some ["yes"; "no"])) 2 = Ok (Some v, c) /\
  variable_state_index v "no" = Ok 1%Z /\ variable_state_index v "maybe" = Ok (-1)%Z /\
  variable_state_name v 0 = Ok (Some "yes").
Proof. do 2 eexists. repeat split. Qed.

(** C18.  Identifiers increase in the order of creation over every history of
    calls (some may run out of memory), so no two variables compare equal. *)
Theorem C18_identity : forall calls counter vs counter',
  create_all counter calls = Ok (vs, counter') ->
  forall i j, i < j -> j < length vs ->
    exists vi vj, nth_error vs i = Some vi /\ nth_error vs j = Some vj /\
      (nv_id vi < nv_id vj)%Z.
Proof. exact C18_lemma. Qed.
Print Assumptions C18_identity.

Example C18_case : exists v1 v2,
  create_all 1 [mkCreation true true true (Some "A") (Some [Some "y"; Some "n"]) 2;
                mkCreation true false true (Some "B") (Some [Some "y"; Some "n"]) 2;
                mkCreation true true true (Some "C") (Some [Some "y"]) 1]
  = Ok ([v1; v2], 4%Z) /\ nv_id v1 = 1%Z /\ nv_id v2 = 3%Z.
Proof. do 2 eexists. repeat split. Qed.
