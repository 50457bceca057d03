(** * Model of the memory of join trees, variables and models
    (src/nipjointree.c 75-335, src/nipvariable.c 33-198 and 338-398,
    src/nippotential.c 84-209, src/nip.c 118-291, 492-516, 803-814 and 907-918)

    Here only what matters for malloc and free is modelled: which blocks of
    memory there are and which pointers they contain.  The numbers in the tables
    are in PotentialModel.v, JoinTreeModel.v and NipModel.v. *)
From Verif Require Import Base.
Import ListNotations.
Open Scope nat_scope.
Local Open Scope res_scope.

(** What a field of a struct or an element of an array contains: a pointer (an
    address or NULL), a number, or nothing yet (malloc does not initialise). *)
Inductive val := P (p : option nat) | N (n : nat) | Junk.

(** Memory: the blocks ever allocated, in order of allocation; [None] is a block
    that was freed.  Addresses are not used again, so that every use of freed
    memory is visible. *)
Definition block := list val.
Definition memory := list (option block).

(** malloc and calloc, which succeed: a struct of [k] fields, and an array. *)
Definition allocate (m : memory) (b : block) : memory * nat := (m ++ [Some b], length m).
Definition malloc (m : memory) (k : nat) : memory * nat := allocate m (repeat Junk k).
Definition calloc (m : memory) (x : val) (n : nat) : memory * nat := allocate m (repeat x n).

(** free: nothing for NULL; anything that is not allocated is undefined. *)
Definition free (m : memory) (p : option nat) : res memory :=
  match p with
  | None => Ok m
  | Some a => match nth_error m a with
              | Some (Some _) => Ok (set_nth m a None)
              | _ => UB
              end
  end.

(** [p->field] and [p[k]]: a pointer or a number; NULL, freed memory, indices
    outside and fields without value are undefined. *)
Definition fetch (m : memory) (p : option nat) (k : nat) : res val :=
  match p with
  | None => UB
  | Some a => match nth_error m a with
              | Some (Some b) => rd b k
              | _ => UB
              end
  end.
Definition ptr (m : memory) (p : option nat) (k : nat) : res (option nat) :=
  let* x := fetch m p k in
  match x with P q => Ok q | _ => UB end.
Definition num (m : memory) (p : option nat) (k : nat) : res nat :=
  let* x := fetch m p k in
  match x with N n => Ok n | _ => UB end.

(** Assignments. *)
Definition store (m : memory) (p : option nat) (k : nat) (x : val) : res memory :=
  match p with
  | None => UB
  | Some a => match nth_error m a with
              | Some (Some b) => let* b := wr b k x in Ok (set_nth m a (Some b))
              | _ => UB
              end
  end.

(** ** Potentials *)

(** nip_string_pair_list_struct, niplists.h: length, first, last; a link has key,
    value, fwd, bwd. *)
Definition S_length := 0. Definition S_first := 1. Definition S_last := 2.
Definition K_key := 0. Definition K_value := 1. Definition K_fwd := 2. Definition K_bwd := 3.

(** nip_new_string_pair_list, niplists.c 104-115. *)
Definition new_string_pair_list (m : memory) : res (memory * option nat) :=
  let '(m, l) := malloc m 3 in
  let* m := store m (Some l) S_length (N 0) in
  let* m := store m (Some l) S_first (P None) in
  let* m := store m (Some l) S_last (P None) in
  Ok (m, Some l).

(** nip_free_string_pair_list, niplists.c 567-592. *)
Definition free_pair (m : memory) (l : option nat) : res memory :=
  let* k := ptr m l K_key in let* m := free m k in
  let* v := ptr m l K_value in let* m := free m v in
  free m l.
Fixpoint free_pairs (fuel : nat) (m : memory) (ln : option nat) : res memory :=
  match fuel with
  | O => NoFuel
  | S fuel' =>
      match ln with
      | None => Ok m
      | Some _ =>
          let* f := ptr m ln K_fwd in
          let* m := match f with Some _ => free_pair m f | None => Ok m end in
          let* b := ptr m ln K_bwd in
          free_pairs fuel' m b
      end
  end.
Definition free_string_pair_list (m : memory) (l : option nat) : res memory :=
  match l with
  | None => Ok m
  | Some _ =>
      let* ln := ptr m l S_last in
      let* m := store m l S_last (P None) in
      let* m := free_pairs (S (length m)) m ln in
      let* f := ptr m l S_first in
      let* m := match f with
                | Some _ => let* m := free_pair m f in store m l S_first (P None)
                | None => Ok m
                end in
      free m l
  end.

(** nip_potential_struct, nippotential.h: dimensionality, cardinality,
    temp_index, size_of_data, data, application_specific_properties. *)
Definition T_dim := 0. Definition T_card := 1. Definition T_temp := 2.
Definition T_size := 3. Definition T_data := 4. Definition T_prop := 5.

(** nip_new_potential, nippotential.c 84-150; [cards] is the array cardinality,
    whose numbers are copied.  (The numbers in the arrays are all 0 here.) *)
Definition new_potential (m : memory) (cards : list nat) : res (memory * option nat) :=
  let dim := length cards in
  let '(m, p) := malloc m 6 in
  let '(m, c) := calloc m (N 0) (if Nat.ltb 0 dim then dim else 1) in
  let* m := store m (Some p) T_card (P (Some c)) in
  let '(m, t) := calloc m (N 0) (if Nat.ltb 0 dim then dim else 1) in
  let* m := store m (Some p) T_temp (P (Some t)) in
  let* m := store m (Some p) T_dim (N dim) in
  let* m := store m (Some p) T_size (N (prod cards)) in
  let '(m, d) := calloc m (N 0) (prod cards) in
  let* m := store m (Some p) T_data (P (Some d)) in
  let* (m, l) := new_string_pair_list m in
  let* m := store m (Some p) T_prop (P l) in
  Ok (m, Some p).

(** nip_free_potential, nippotential.c 200-209. *)
Definition free_potential (m : memory) (p : option nat) : res memory :=
  match p with
  | None => Ok m
  | Some _ =>
      let* l := ptr m p T_prop in let* m := free_string_pair_list m l in
      let* c := ptr m p T_card in let* m := free m c in
      let* t := ptr m p T_temp in let* m := free m t in
      let* d := ptr m p T_data in let* m := free m d in
      free m p
  end.

(** ** Variables *)

(** nip_variable_struct, nipvariable.h 51-78, without the fields that hold no
    memory of the variable. *)
Definition V_id := 0. Definition V_symbol := 1. Definition V_name := 2. Definition V_card := 3.
Definition V_states := 4. Definition V_likelihood := 5. Definition V_prior := 6.
Definition V_nparents := 7. Definition V_parents := 8. Definition V_mapping := 9.

(** nip_set_variable_text, nipvariable.c 33-53: the record is field [k] of [p],
    the text has [len] characters and is not NULL. *)
Definition set_variable_text (m : memory) (p : option nat) (k : nat) (len : nat) : res memory :=
  let len := Nat.min len 40 in
  let* old := ptr m p k in
  let* m := free m old in
  let '(m, s) := calloc m (N 0) (len + 1) in
  store m p k (P (Some s)).

(** nip_new_variable, nipvariable.c 56-128; symbol, name and states are given by
    their lengths.  If there are no states, the field state_names gets no
    value. *)
Definition new_variable (m : memory) (id symbol : nat) (name : option nat) (states : option (list nat))
    (cardinality : nat) : res (memory * option nat) :=
  let '(m, v) := malloc m 10 in
  let v := Some v in
  let* m := store m v V_card (N cardinality) in
  let* m := store m v V_id (N id) in
  let* m := store m v V_parents (P None) in
  let* m := store m v V_prior (P None) in
  let* m := store m v V_nparents (N 0) in
  let* m := store m v V_mapping (P None) in
  let* m := store m v V_symbol (P None) in
  let* m := set_variable_text m v V_symbol symbol in
  let* m := store m v V_name (P None) in
  let* m := match name with Some n => set_variable_text m v V_name n | None => Ok m end in
  let* m :=
    match states with
    | Some l =>
        let '(m, a) := calloc m (P None) cardinality in
        let* m := store m v V_states (P (Some a)) in
        for_up 0 cardinality (fun i m =>
          let* len := rd l i in
          let* a := ptr m v V_states in
          set_variable_text m a i len) m
    | None => Ok m
    end in
  let '(m, l) := calloc m (N 1) cardinality in
  let* m := store m v V_likelihood (P (Some l)) in
  Ok (m, v).

(** nip_set_parents, nipvariable.c 338-360. *)
Definition set_parents (m : memory) (v : option nat) (parents : list (option nat)) : res memory :=
  let* old := ptr m v V_parents in
  let* m := free m old in
  let* m := match parents with
            | [] => store m v V_parents (P None)
            | _ => let '(m, a) := allocate m (map P parents) in store m v V_parents (P (Some a))
            end in
  store m v V_nparents (N (length parents)).

(** nip_set_prior, nipvariable.c 385-398, with an array of numbers. *)
Definition set_prior (m : memory) (v : option nat) : res memory :=
  let* old := ptr m v V_prior in
  let* m := free m old in
  let* n := num m v V_card in
  let '(m, a) := calloc m (N 0) n in
  store m v V_prior (P (Some a)).

(** nip_find_family_mapping, nipjointree.c 963-1008: only the memory. *)
Definition find_family_mapping (m : memory) (v : option nat) : res memory :=
  let* old := ptr m v V_mapping in
  match old with
  | Some _ => Ok m
  | None =>
      let* n := num m v V_nparents in
      let '(m, a) := calloc m (N 0) (n + 1) in
      store m v V_mapping (P (Some a))
  end.

(** nip_copy_variable, nipvariable.c 131-180; [len] is the length of the name of
    the variable, if it has one.  family_clique holds no memory. *)
Definition copy_variable (m : memory) (v : option nat) (len : nat) : res (memory * option nat) :=
  match v with
  | None => Ok (m, None)
  | Some _ =>
      let '(m, c) := malloc m 10 in
      let c := Some c in
      let* n := num m v V_card in
      let* m := store m c V_card (N n) in
      let* id := num m v V_id in
      let* m := store m c V_id (N id) in
      let* name := ptr m v V_name in
      let* m := match name with Some _ => set_variable_text m c V_name len | None => Ok m end in
      let* k := num m v V_nparents in
      let* m := store m c V_nparents (N k) in
      let* ps := ptr m v V_parents in
      let* m := match ps with
                | Some _ =>
                    let '(m, a) := calloc m (P None) k in
                    let* m := store m c V_parents (P (Some a)) in
                    for_up 0 k (fun i m =>
                      let* p := ptr m ps i in
                      let* a := ptr m c V_parents in
                      store m a i (P p)) m
                | None => store m c V_parents (P None)
                end in
      let '(m, l) := calloc m (N 0) n in
      let* m := store m c V_likelihood (P (Some l)) in
      let* m := for_up 0 n (fun i m =>
                  let* l := ptr m v V_likelihood in
                  let* x := num m l i in
                  let* l := ptr m c V_likelihood in
                  store m l i (N x)) m in
      Ok (m, c)
  end.

(** nip_free_variable, nipvariable.c 183-198. *)
Definition free_variable (m : memory) (v : option nat) : res memory :=
  match v with
  | None => Ok m
  | Some _ =>
      let* x := ptr m v V_symbol in let* m := free m x in
      let* x := ptr m v V_name in let* m := free m x in
      let* a := ptr m v V_states in
      let* m := match a with
                | Some _ =>
                    let* n := num m v V_card in
                    for_up 0 n (fun i m => let* s := ptr m a i in free m s) m
                | None => Ok m
                end in
      let* m := free m a in
      let* x := ptr m v V_parents in let* m := free m x in
      let* x := ptr m v V_mapping in let* m := free m x in
      let* x := ptr m v V_likelihood in let* m := free m x in
      let* x := ptr m v V_prior in let* m := free m x in
      free m v
  end.

(** ** Cliques and sepsets *)

(** nip_clique_struct, nipjointree.h 43-50. *)
Definition C_p := 0. Definition C_original := 1. Definition C_variables := 2.
Definition C_sepsets := 3. Definition C_number := 4. Definition C_mark := 5.
(** nip_sepset_struct, nipjointree.h 56-62. *)
Definition X_old := 0. Definition X_new := 1. Definition X_variables := 2.
Definition X_first := 3. Definition X_second := 4.
(** nip_sepsetlink_struct, nipjointree.h 33-37. *)
Definition L_data := 0. Definition L_fwd := 1. Definition L_bwd := 2.

(** The cardinalities of variables (nipjointree.c 141-144 and 309-311). *)
Fixpoint cardinalities (m : memory) (vars : list (option nat)) : res (list nat) :=
  match vars with
  | [] => Ok []
  | v :: vars => let* n := num m v V_card in let* l := cardinalities m vars in Ok (n :: l)
  end.

(** nip_new_clique, nipjointree.c 75-173; the variables are given in the order
    of the clique (the order is computed in JoinTreeModel.v). *)
Definition new_clique (m : memory) (vars : list (option nat)) : res (memory * option nat) :=
  let n := length vars in
  let '(m, c) := malloc m 6 in
  let c := Some c in
  let '(m, cardinality) := calloc m (N 0) n in
  let '(m, reorder) := calloc m (N 0) n in
  let '(m, indices) := calloc m (N 0) n in
  let '(m, a) := allocate m (map P vars) in
  let* m := store m c C_variables (P (Some a)) in
  let* cards := cardinalities m vars in
  let* (m, p) := new_potential m cards in
  let* m := store m c C_p (P p) in
  let* (m, o) := new_potential m cards in
  let* m := store m c C_original (P o) in
  let* m := free m (Some cardinality) in
  let* m := free m (Some indices) in
  let* m := free m (Some reorder) in
  let* m := store m c C_sepsets (P None) in
  let* m := store m c C_mark (N 0) in
  Ok (m, c).

(** An array of [n] pointers. *)
Fixpoint pointers (m : memory) (a : option nat) (k n : nat) : res (list (option nat)) :=
  match n with
  | O => Ok []
  | S n => let* p := ptr m a k in let* l := pointers m a (S k) n in Ok (p :: l)
  end.

(** nip_equal_variables, nipvariable.c 201-205. *)
Definition equal_variables (m : memory) (v w : option nat) : res bool :=
  match v, w with
  | Some _, Some _ => let* i := num m v V_id in let* j := num m w V_id in Ok (Nat.eqb i j)
  | _, _ => Ok false
  end.

(** nip_variable_isect, nipvariable.c 506-557: the members of [va] that are in
    [vb].  (The code counts them first, with the same loops.) *)
Fixpoint is_among (m : memory) (v : option nat) (vb : list (option nat)) : res bool :=
  match vb with
  | [] => Ok false
  | w :: vb => let* e := equal_variables m v w in if (e : bool) then Ok true else is_among m v vb
  end.
Fixpoint isect (m : memory) (va vb : list (option nat)) : res (list (option nat)) :=
  match va with
  | [] => Ok []
  | v :: va =>
      let* e := is_among m v vb in
      let* l := isect m va vb in
      Ok (if (e : bool) then v :: l else l)
  end.

(** nip_free_sepset, nipjointree.c 327-335. *)
Definition free_sepset (m : memory) (s : option nat) : res memory :=
  match s with
  | None => Ok m
  | Some _ =>
      let* x := ptr m s X_old in let* m := free_potential m x in
      let* x := ptr m s X_new in let* m := free_potential m x in
      let* x := ptr m s X_variables in let* m := free m x in
      free m s
  end.

(** nip_new_sepset, nipjointree.c 264-324. *)
Definition new_sepset (m : memory) (a b : option nat) : res (memory * option nat) :=
  let '(m, s) := malloc m 5 in
  let s := Some s in
  let* m := store m s X_first (P a) in
  let* m := store m s X_second (P b) in
  let* va := ptr m a C_variables in let* pa := ptr m a C_p in let* na := num m pa T_dim in
  let* vb := ptr m b C_variables in let* pb := ptr m b C_p in let* nb := num m pb T_dim in
  let* va := pointers m va 0 na in
  let* vb := pointers m vb 0 nb in
  let* vars := isect m va vb in
  let* (m, temp) :=
    match vars with
    | [] => let* m := store m s X_variables (P None) in Ok (m, None)
    | _ =>
        let '(m, x) := allocate m (map P vars) in
        let* m := store m s X_variables (P (Some x)) in
        let '(m, t) := calloc m (N 0) (length vars) in
        Ok (m, Some t)
    end in
  let* cards := cardinalities m vars in
  let* (m, p) := new_potential m cards in
  let* m := store m s X_old (P p) in
  let* (m, p) := new_potential m cards in
  let* m := store m s X_new (P p) in
  let* m := free m temp in
  Ok (m, s).

(** nip_confirm_sepset, nipjointree.c 209-233. *)
Definition confirm_loop (m : memory) (s new c : option nat) : res memory :=
  let* m := store m new L_data (P s) in
  let* h := ptr m c C_sepsets in
  let* m := store m new L_fwd (P h) in
  let* m := store m new L_bwd (P None) in
  let* m := match h with Some _ => store m h L_bwd (P new) | None => Ok m end in
  store m c C_sepsets (P new).
Definition confirm_sepset (m : memory) (s : option nat) : res memory :=
  let '(m, new) := malloc m 3 in
  let '(m, new2) := malloc m 3 in
  let* c := ptr m s X_first in
  let* m := confirm_loop m s (Some new) c in
  let* c := ptr m s X_second in
  confirm_loop m s (Some new2) c.

(** nip_remove_sepset, nipjointree.c 236-261. *)
Definition same (p q : option nat) : bool :=
  match p, q with
  | Some a, Some b => Nat.eqb a b
  | None, None => true
  | _, _ => false
  end.
Fixpoint remove_loop (fuel : nat) (m : memory) (c s l : option nat) : res memory :=
  match fuel with
  | O => NoFuel
  | S fuel' =>
      match l with
      | None => Ok m
      | Some _ =>
          let* d := ptr m l L_data in
          if same d s then
            let* b := ptr m l L_bwd in
            let* f := ptr m l L_fwd in
            let* m := match b with
                      | None => store m c C_sepsets (P f)
                      | Some _ => store m b L_fwd (P f)
                      end in
            let* m := match f with
                      | Some _ => store m f L_bwd (P b)
                      | None => Ok m
                      end in
            free m l
          else
            let* f := ptr m l L_fwd in
            remove_loop fuel' m c s f
      end
  end.
Definition remove_sepset (m : memory) (c s : option nat) : res memory :=
  match c, s with
  | Some _, Some _ => let* l := ptr m c C_sepsets in remove_loop (S (length m)) m c s l
  | _, _ => Ok m (* EFAULT *)
  end.

(** nip_free_clique, nipjointree.c 176-206. *)
Fixpoint free_sepsets (fuel : nat) (m : memory) (l1 : option nat) : res memory :=
  match fuel with
  | O => NoFuel
  | S fuel' =>
      match l1 with
      | None => Ok m
      | Some _ =>
          let* l2 := ptr m l1 L_fwd in
          let* s := ptr m l1 L_data in
          let* cln := ptr m s X_first in
          let* m := remove_sepset m cln s in
          let* cln := ptr m s X_second in
          let* m := remove_sepset m cln s in
          let* m := free_sepset m s in
          free_sepsets fuel' m l2
      end
  end.
Definition free_clique (m : memory) (c : option nat) : res memory :=
  match c with
  | None => Ok m
  | Some _ =>
      let* l1 := ptr m c C_sepsets in
      let* m := free_sepsets (S (length m)) m l1 in
      let* x := ptr m c C_p in let* m := free_potential m x in
      let* x := ptr m c C_original in let* m := free_potential m x in
      let* x := ptr m c C_variables in let* m := free m x in
      free m c
  end.

(** ** Models and series *)

(** nip_model_struct, nip.h, without the fields that hold no memory. *)
Definition M_ncliques := 0. Definition M_cliques := 1. Definition M_nvars := 2. Definition M_vars := 3.
Definition M_next := 4. Definition M_previous := 5. Definition M_outgoing := 6. Definition M_old_outgoing := 7.
Definition M_incoming := 8. Definition M_children := 9. Definition M_independent := 10.

(** parse_model, nip.c 118-291: the struct and its arrays, for given cliques
    (the array of nip_graph_to_cliques), variables (the array of
    nip_variable_list_to_array, NULL for none) and sizes of the other arrays. *)
Record sizes := mkSizes { z_nexts : nat; z_outgoing : nat; z_incoming : nat; z_children : nat }.
Definition new_model (m : memory) (cliques vars : list (option nat)) (z : sizes) : res (memory * option nat) :=
  let '(m, x) := malloc m 11 in
  let x := Some x in
  let '(m, a) := allocate m (map P cliques) in
  let* m := store m x M_ncliques (N (length cliques)) in
  let* m := store m x M_cliques (P (Some a)) in
  let* m := store m x M_nvars (N (length vars)) in
  let* m := match vars with
            | [] => store m x M_vars (P None)
            | _ => let '(m, a) := allocate m (map P vars) in store m x M_vars (P (Some a))
            end in
  let '(m, a) := calloc m (P None) (z_nexts z) in let* m := store m x M_next (P (Some a)) in
  let '(m, a) := calloc m (P None) (z_nexts z) in let* m := store m x M_previous (P (Some a)) in
  let '(m, a) := calloc m (P None) (z_outgoing z) in let* m := store m x M_outgoing (P (Some a)) in
  let '(m, a) := calloc m (P None) (z_outgoing z) in let* m := store m x M_old_outgoing (P (Some a)) in
  let '(m, a) := calloc m (P None) (z_incoming z) in let* m := store m x M_incoming (P (Some a)) in
  let '(m, a) := calloc m (P None) (z_children z) in let* m := store m x M_children (P (Some a)) in
  let '(m, a) := calloc m (P None) (length vars - z_children z) in let* m := store m x M_independent (P (Some a)) in
  Ok (m, x).

(** free_model, nip.c 492-516. *)
Definition free_model (m : memory) (x : option nat) : res memory :=
  match x with
  | None => Ok m
  | Some _ =>
      let* n := num m x M_ncliques in
      let* m := for_up 0 n (fun i m =>
        let* a := ptr m x M_cliques in let* c := ptr m a i in free_clique m c) m in
      let* a := ptr m x M_cliques in let* m := free m a in
      let* n := num m x M_nvars in
      let* m := for_up 0 n (fun i m =>
        let* a := ptr m x M_vars in let* v := ptr m a i in free_variable m v) m in
      let* a := ptr m x M_vars in let* m := free m a in
      let* a := ptr m x M_next in let* m := free m a in
      let* a := ptr m x M_previous in let* m := free m a in
      let* a := ptr m x M_outgoing in let* m := free m a in
      let* a := ptr m x M_old_outgoing in let* m := free m a in
      let* a := ptr m x M_incoming in let* m := free m a in
      let* a := ptr m x M_children in let* m := free m a in
      let* a := ptr m x M_independent in let* m := free m a in
      free m x
  end.

(** time_series_struct, nip.h: length, hidden, observed, data. *)
Definition Y_length := 0. Definition Y_hidden := 1. Definition Y_observed := 2. Definition Y_data := 3.

(** read_timeseries, nip.c 549-636: one series; no array of observed variables
    and no data if nothing is observed.  generate_data, nip.c 2360-2434: the
    same without the array of hidden variables ([hidden] is None). *)
Definition rows (m : memory) (a : option nat) (n width : nat) : res memory :=
  for_up 0 n (fun t m => let '(m, r) := calloc m (N 0) width in store m a t (P (Some r))) m.
Definition new_timeseries (m : memory) (hidden : option nat) (observed length : nat) : res (memory * option nat) :=
  let '(m, y) := malloc m 4 in
  let y := Some y in
  let* m := store m y Y_hidden (P None) in
  let* m := store m y Y_observed (P None) in
  let* m := store m y Y_data (P None) in
  let* m := store m y Y_length (N length) in
  let* m := match hidden with
            | Some h => let '(m, a) := calloc m (P None) h in store m y Y_hidden (P (Some a))
            | None => Ok m
            end in
  let* m :=
    match observed with
    | O => Ok m
    | _ =>
        let '(m, a) := calloc m (P None) observed in
        let* m := store m y Y_observed (P (Some a)) in
        let '(m, d) := calloc m (P None) length in
        let* m := store m y Y_data (P (Some d)) in
        let* d := ptr m y Y_data in
        rows m d length observed
    end in
  Ok (m, y).

(** free_timeseries, nip.c 803-814. *)
Definition free_timeseries (m : memory) (y : option nat) : res memory :=
  match y with
  | None => Ok m
  | Some _ =>
      let* d := ptr m y Y_data in
      let* m := match d with
                | Some _ =>
                    let* n := num m y Y_length in
                    let* m := for_up 0 n (fun t m => let* r := ptr m d t in free m r) m in
                    free m d
                | None => Ok m
                end in
      let* x := ptr m y Y_hidden in let* m := free m x in
      let* x := ptr m y Y_observed in let* m := free m x in
      free m y
  end.

(** uncertain_series_struct, nip.h: num_of_vars, variables, length, data. *)
Definition U_nvars := 0. Definition U_variables := 1. Definition U_length := 2. Definition U_data := 3.

(** forward_inference, nip.c 1140-1221, and forward_backward_inference, nip.c
    1369-1448: the results for variables with [cards] states. *)
Definition new_uncertainseries (m : memory) (cards : list nat) (length : nat) : res (memory * option nat) :=
  let '(m, u) := malloc m 4 in
  let u := Some u in
  let '(m, a) := calloc m (P None) (List.length cards) in
  let* m := store m u U_variables (P (Some a)) in
  let* m := store m u U_nvars (N (List.length cards)) in
  let* m := store m u U_length (N length) in
  let '(m, d) := calloc m (P None) length in
  let* m := store m u U_data (P (Some d)) in
  let* d := ptr m u U_data in
  let* m := for_up 0 length (fun t m =>
    let '(m, r) := calloc m (P None) (List.length cards) in
    let* m := store m d t (P (Some r)) in
    for_up 0 (List.length cards) (fun i m =>
      let* n := rd cards i in
      let* r := ptr m d t in
      let '(m, x) := calloc m (N 0) n in
      store m r i (P (Some x))) m) m in
  Ok (m, u).

(** free_uncertainseries, nip.c 907-918. *)
Definition free_uncertainseries (m : memory) (u : option nat) : res memory :=
  match u with
  | None => Ok m
  | Some _ =>
      let* n := num m u U_length in
      let* d := ptr m u U_data in
      let* m := for_up 0 n (fun t m =>
        let* k := num m u U_nvars in
        let* m := for_up 0 k (fun i m => let* r := ptr m d t in let* x := ptr m r i in free m x) m in
        let* r := ptr m d t in free m r) m in
      let* d := ptr m u U_data in let* m := free m d in
      let* x := ptr m u U_variables in let* m := free m x in
      free m u
  end.
