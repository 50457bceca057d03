(** * Model of src/nipvariable.c

    A variable reference is modelled by the identifier of the variable, a
    natural number; nip_equal_variables (nipvariable.c 201-205) compares
    identifiers, so nothing else of a variable matters to the set operations.
    References in arrays are assumed to be non-NULL. *)
From Coq Require Import String Ascii.
From Verif Require Import Base.
Import ListNotations.
Open Scope nat_scope.
Local Open Scope res_scope.

(** nip_equal_variables, nipvariable.c 201-205. *)
Definition equal_variables (v1 v2 : nat) : bool := Nat.eqb v1 v2.

(** nip_sort_variables, nipvariable.c 410-443.  [None] is the NULL return. *)
Definition sort_variables (vars : list nat) (nvars : Z) : res (option (list nat)) :=
  if (nvars <? 1)%Z then Ok None
  else
    let n := Z.to_nat nvars in
    let* sorted :=
      for_up 0 n (fun i s => let* v := rd vars i in wr s i v) (repeat 0 n) in
    let* sorted :=
      for_up 0 (n - 1)
        (fun i s =>
           for_up 1 n
             (fun j s =>
                let* sj := rd s j in
                let* si := rd s i in
                if Nat.ltb sj si then
                  let* s1 := wr s j si in
                  wr s1 i sj
                else Ok s)
             s)
        sorted in
    Ok (Some sorted).

(** nip_variable_union, nipvariable.c 446-503.  [None] is a NULL array.  The
    second component is [*nc].  ([nc] itself is assumed non-NULL, lengths
    non-negative.) *)
Definition variable_union (a b : option (list nat)) (na nb : nat)
  : res (option (list nat) * Z) :=
  if ((Nat.ltb 0 na && match a with None => true | _ => false end)
      || (Nat.ltb 0 nb && match b with None => true | _ => false end))%bool
  then Ok (None, (-1)%Z)
  else if (Nat.eqb na 0 && Nat.eqb nb 0)%bool then Ok (None, 0%Z)
  else
    let a := match a with Some l => l | None => [] end in
    let b := match b with Some l => l | None => [] end in
    (* size of the union *)
    let* n :=
      for_up 0 na
        (fun i n =>
           let* f := find_up 0 nb
                       (fun j => let* x := rd a i in let* y := rd b j in
                                 Ok (equal_variables x y)) in
           match f with Some _ => Ok (n - 1)%Z | None => Ok n end)
        (Z.of_nat na + Z.of_nat nb)%Z in
    if (n =? 0)%Z then Ok (None, 0%Z)
    else
      let* c := for_up 0 na (fun i c => let* x := rd a i in wr c i x)
                  (repeat 0 (Z.to_nat n)) in
      let* (c, _) :=
        for_up 0 nb
          (fun i '(c, k) =>
             let* f := find_up 0 k
                         (fun j => let* x := rd b i in let* y := rd c j in
                                   Ok (equal_variables x y)) in
             match f with
             | Some _ => Ok (c, k)
             | None =>
                 let* x := rd b i in
                 let* c' := wr c k x in
                 Ok (c', S k)
             end)
          (c, na) in
      Ok (Some c, n).

(** nip_variable_isect, nipvariable.c 506-557. *)
Definition variable_isect (a b : option (list nat)) (na nb : nat)
  : res (option (list nat) * Z) :=
  if (Nat.eqb na 0 || Nat.eqb nb 0)%bool then Ok (None, 0%Z)
  else
    match a, b with
    | Some a, Some b =>
        let* n :=
          for_up 0 na
            (fun i n =>
               let* f := find_up 0 nb
                           (fun j => let* x := rd a i in let* y := rd b j in
                                     Ok (equal_variables x y)) in
               match f with Some _ => Ok (S n) | None => Ok n end)
            0 in
        if Nat.eqb n 0 then Ok (None, 0%Z)
        else
          let* (c, _) :=
            for_up 0 na
              (fun i '(c, k) =>
                 let* f := find_up 0 nb
                             (fun j => let* x := rd a i in let* y := rd b j in
                                       Ok (equal_variables x y)) in
                 match f with
                 | Some _ =>
                     let* x := rd a i in
                     let* c' := wr c k x in
                     Ok (c', S k)
                 | None => Ok (c, k)
                 end)
              (repeat 0 n, 0) in
          Ok (Some c, Z.of_nat n)
    | _, _ => Ok (None, (-1)%Z)
    end.

(** nip_mapper, nipvariable.c 560-589.  [None] is the NULL return. *)
Definition mapper (set subset : option (list nat)) (nset nsubset : nat)
  : res (option (list nat)) :=
  if Nat.ltb nsubset 1 then Ok None
  else
    match set, subset with
    | Some set, Some subset =>
        if Nat.ltb nset nsubset then Ok None
        else
          let* mapping :=
            for_up 0 nsubset
              (fun i m =>
                 let* f := find_up 0 nset
                             (fun j => let* x := rd subset i in
                                       let* y := rd set j in
                                       Ok (equal_variables x y)) in
                 match f with
                 | Some j => wr m i j
                 | None => Ok m
                 end)
              (repeat 0 nsubset) in
          Ok (Some mapping)
    | _, _ => Ok None
    end.

(** NIP_VAR_TEXT_LENGTH, nipvariable.h 26. *)
Definition VAR_TEXT_LENGTH : nat := 40.

(** nip_set_variable_text, nipvariable.c 33-53: the text stored for a given
    string (strings are modelled without their terminating NUL). *)
Definition variable_text (s : string) : string :=
  substring 0 (Nat.min (String.length s) VAR_TEXT_LENGTH) s.

(** The pointer field [state_names]: never assigned, NULL, or an array. *)
Inductive names_field := NamesUninit | NamesNull | Names (l : list string).

(** The part of nip_variable_struct (nipvariable.h 53-81) that identifies a
    variable and its states. *)
Record named_variable := mkNamed {
  nv_id : Z;
  nv_symbol : option string;
  nv_card : nat;
  nv_states : names_field;
  nv_likelihood : list Qc
}.

(** LONG_MAX, the largest value of the [static long id] counter. *)
Definition LONG_MAX : Z := 9223372036854775807.

(** nip_new_variable, nipvariable.c 56-128.  The argument and second result
    [counter] is the static [id].  [ok1], [ok2], [ok3] tell whether the
    allocations of lines 65, 96 and 115 succeed; texts are assumed to be
    allocated.  A NULL state name or a failing allocation of the likelihood
    frees the variable and goes on using it (lines 103-109, 116-125): UB.
    Without [states] the field state_names is left unassigned (line 112). *)
Definition new_variable (counter : Z) (ok1 ok2 ok3 : bool)
    (symbol : option string) (states : option (list (option string)))
    (cardinality : nat) : res (option named_variable * Z) :=
  if negb ok1 then Ok (None, counter)
  else
    let* counter' :=
      if (counter <? LONG_MAX)%Z then Ok (counter + 1)%Z else UB in
    let symbol' := option_map variable_text symbol in
    match states with
    | None =>
        if negb ok3 then UB
        else Ok (Some (mkNamed counter symbol' cardinality NamesUninit
                         (repeat 1%Qc cardinality)), counter')
    | Some states =>
        if negb ok2 then Ok (None, counter')
        else
          let* names :=
            for_up 0 cardinality
              (fun i names =>
                 let* s := rd states i in
                 match s with
                 | None => UB
                 | Some s => wr names i (variable_text s)
                 end)
              (repeat EmptyString cardinality) in
          if negb ok3 then UB
          else Ok (Some (mkNamed counter symbol' cardinality (Names names)
                           (repeat 1%Qc cardinality)), counter')
    end.

(** nip_variable_state_index, nipvariable.c 239-247. *)
Definition variable_state_index (v : named_variable) (state : string) : res Z :=
  match nv_states v with
  | NamesUninit => UB
  | NamesNull => Ok (-1)%Z
  | Names names =>
      let* f := find_up 0 (nv_card v)
                  (fun i => let* s := rd names i in Ok (String.eqb state s)) in
      match f with
      | Some i => Ok (Z.of_nat i)
      | None => Ok (-1)%Z
      end
  end.

(** nip_variable_state_name, nipvariable.c 250-254; [None] is NULL. *)
Definition variable_state_name (v : named_variable) (index : Z)
  : res (option string) :=
  match nv_states v with
  | NamesUninit => UB
  | NamesNull => Ok None
  | Names names =>
      if (index <? 0)%Z then UB
      else let* s := rd names (Z.to_nat index) in Ok (Some s)
  end.

(** nip_search_variable_array, nipvariable.c 257-270, over the symbols of the
    variables: the position found, or [None]. *)
Definition search_variable_array (symbols : list (option string)) (nvars : nat)
    (symbol : string) : res (option nat) :=
  find_up 0 nvars
    (fun i => let* s := rd symbols i in
              match s with
              | None => UB
              | Some s => Ok (String.eqb symbol s)
              end).
