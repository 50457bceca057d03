(** * Model of the linked lists: src/niplists.c, src/nipvariable.c 592-821,
    src/nipjointree.c 1369-1461

    The lists of int arrays, ints, doubles, strings, pairs of strings,
    variables, interface relations and potentials are the same code with
    different contents; here the contents are a type [A].  (For a pair or a
    potential with its variables [A] is a tuple.) *)
From Verif Require Import Base.
Import ListNotations.
Open Scope nat_scope.
Local Open Scope res_scope.

Section Lists.
Context {A : Type}.

(** nip_*_link_struct, e.g. niplists.h 71-75; a pointer is an address or NULL. *)
Record link := mkLink { l_data : A; l_fwd : option nat; l_bwd : option nat }.

(** nip_*_list_struct, e.g. niplists.h 79-84. *)
Record header := mkHeader { h_length : nat; h_first : option nat; h_last : option nat }.

(** Memory: the cells ever allocated, in order of allocation; [None] is a
    cell that was freed.  (Addresses are not used again, so that every use of
    freed memory is visible.) *)
Definition memory := list (option link).

(** [*p]: NULL and freed memory are undefined. *)
Definition load (m : memory) (p : option nat) : res link :=
  match p with
  | None => UB
  | Some a => match nth_error m a with Some (Some l) => Ok l | _ => UB end
  end.

(** Assignments to [p->fwd] and [p->bwd]. *)
Definition store_fwd (m : memory) (p q : option nat) : res memory :=
  let* l := load m p in
  match p with
  | Some a => Ok (set_nth m a (Some (mkLink (l_data l) q (l_bwd l))))
  | None => UB
  end.
Definition store_bwd (m : memory) (p q : option nat) : res memory :=
  let* l := load m p in
  match p with
  | Some a => Ok (set_nth m a (Some (mkLink (l_data l) (l_fwd l) q)))
  | None => UB
  end.

(** malloc of a link, which succeeds. *)
Definition alloc (m : memory) (l : link) : memory * nat := (m ++ [Some l], length m).

(** free: nothing for NULL; a second time is undefined. *)
Definition release (m : memory) (p : option nat) : res memory :=
  match p with
  | None => Ok m
  | Some a => match nth_error m a with
              | Some (Some _) => Ok (set_nth m a None)
              | _ => UB
              end
  end.

(** nip_new_int_array_list ... nip_new_string_pair_list, niplists.c 48-115;
    nip_new_variable_list and nip_new_interface_list, nipvariable.c 592-613;
    nip_new_potential_list, nipjointree.c 1369-1379. *)
Definition new_list : header := mkHeader 0 None None.

(** nip_append_int_array ... nip_append_string_pair, niplists.c 118-227;
    nip_append_variable and nip_append_interface, nipvariable.c 616-658;
    nip_append_potential, nipjointree.c 1382-1407.  (List and contents are
    not NULL.) *)
Definition append (m : memory) (l : header) (x : A) : res (memory * header) :=
  let '(m, new) := alloc m (mkLink x None (h_last l)) in
  let* (m, first) :=
    match h_first l with
    | None => Ok (m, Some new)
    | Some _ => let* m := store_fwd m (h_last l) (Some new) in Ok (m, h_first l)
    end in
  Ok (m, mkHeader (S (h_length l)) first (Some new)).

(** nip_prepend_int_array ... nip_prepend_string_pair, niplists.c 230-344;
    nip_prepend_variable and nip_prepend_interface, nipvariable.c 661-706;
    nip_prepend_potential, nipjointree.c 1410-1433. *)
Definition prepend (m : memory) (l : header) (x : A) : res (memory * header) :=
  let '(m, new) := alloc m (mkLink x (h_first l) None) in
  let* (m, last) :=
    match h_last l with
    | None => Ok (m, Some new)
    | Some _ => let* m := store_bwd m (h_first l) (Some new) in Ok (m, h_last l)
    end in
  Ok (m, mkHeader (S (h_length l)) (Some new) last).

(** nip_int_list_to_array, nip_double_list_to_array, nip_string_list_to_array,
    niplists.c 347-428; nip_variable_list_to_array, nipvariable.c 709-736.
    [None] is the NULL returned for an empty list; the array is built here by
    appending instead of writing to allocated memory of the same length. *)
Definition to_array (m : memory) (l : header) : res (option (list A)) :=
  if Nat.eqb (h_length l) 0 then Ok None
  else
    let* (_, a) :=
      for_up 0 (h_length l)
        (fun _ '(ln, a) =>
           let* c := load m ln in Ok (l_fwd c, a ++ [l_data c]))
        (h_first l, []) in
    Ok (Some a).

(** The loop of nip_empty_*_list, e.g. niplists.c 441-444: going backwards,
    frees the link after the current one. *)
Fixpoint empty_loop (fuel : nat) (m : memory) (ln : option nat) : res memory :=
  match fuel with
  | O => NoFuel
  | S fuel' =>
      match ln with
      | None => Ok m
      | Some _ =>
          let* c := load m ln in
          let* m := release m (l_fwd c) in
          let* c := load m ln in
          empty_loop fuel' m (l_bwd c)
      end
  end.

(** nip_empty_int_array_list ... nip_empty_string_list, niplists.c 431-508;
    nip_empty_variable_list, nipvariable.c 739-757. *)
Definition empty (m : memory) (l : header) : res (memory * header) :=
  let* m := empty_loop (S (length m)) m (h_last l) in
  let* m := release m (h_first l) in
  Ok (m, mkHeader 0 None None).

(** The loop of nip_free_string_list, niplists.c 550-556 (and the like): frees
    the contents of the next link, then the link; [freed] lists the contents
    that were freed. *)
Fixpoint free_loop (fuel : nat) (m : memory) (ln : option nat) (freed : list A)
  : res (memory * list A) :=
  match fuel with
  | O => NoFuel
  | S fuel' =>
      match ln with
      | None => Ok (m, freed)
      | Some _ =>
          let* c := load m ln in
          let* (m, freed) :=
            match l_fwd c with
            | None => Ok (m, freed)
            | Some _ =>
                let* d := load m (l_fwd c) in
                let* m := release m (l_fwd c) in
                Ok (m, freed ++ [l_data d])
            end in
          let* c := load m ln in
          free_loop fuel' m (l_bwd c) freed
      end
  end.

(** nip_free_int_array_list, nip_free_string_list, nip_free_string_pair_list,
    niplists.c 511-595; nip_free_interface_list, nipvariable.c 760-786;
    nip_free_potential_list, nipjointree.c 1436-1461. *)
Definition free_list (m : memory) (l : header) : res (memory * list A) :=
  let* (m, freed) := free_loop (S (length m)) m (h_last l) [] in
  match h_first l with
  | None => Ok (m, freed)
  | Some _ =>
      let* d := load m (h_first l) in
      let* m := release m (h_first l) in
      Ok (m, freed ++ [l_data d])
  end.

(** The loops over [fwd] of nip_int_array_list_contains_subset,
    nip_string_list_contains and nip_string_pair_list_search, niplists.c
    598-657, and of nip_search_variable_list, nipvariable.c 803-821: the
    contents of the first link that passes the test. *)
Fixpoint search_loop (fuel : nat) (m : memory) (ln : option nat) (test : A -> bool)
  : res (option A) :=
  match fuel with
  | O => NoFuel
  | S fuel' =>
      match ln with
      | None => Ok None
      | Some _ =>
          let* c := load m ln in
          if test (l_data c) then Ok (Some (l_data c))
          else search_loop fuel' m (l_fwd c) test
      end
  end.
Definition search (m : memory) (l : header) (test : A -> bool) : res (option A) :=
  search_loop (S (length m)) m (h_first l) test.

(** A program that uses several lists.  [Free] ends the life of a list. *)
Inductive call :=
| New
| Append (k : nat) (x : A)
| Prepend (k : nat) (x : A)
| Empty (k : nat)
| Free (k : nat).

(** The lists of the program; [None]: the header was freed. *)
Definition state := (memory * list (option header))%type.

Definition get_list (s : state) (k : nat) : res header :=
  match nth_error (snd s) k with Some (Some l) => Ok l | _ => UB end.

Definition step (s : state) (c : call) : res state :=
  match c with
  | New => Ok (fst s, snd s ++ [Some new_list])
  | Append k x =>
      let* l := get_list s k in
      let* (m, l) := append (fst s) l x in
      Ok (m, set_nth (snd s) k (Some l))
  | Prepend k x =>
      let* l := get_list s k in
      let* (m, l) := prepend (fst s) l x in
      Ok (m, set_nth (snd s) k (Some l))
  | Empty k =>
      let* l := get_list s k in
      let* (m, l) := empty (fst s) l in
      Ok (m, set_nth (snd s) k (Some l))
  | Free k =>
      let* l := get_list s k in
      let* (m, _) := free_list (fst s) l in
      Ok (m, set_nth (snd s) k None)
  end.

Fixpoint run_calls (s : state) (cs : list call) : res state :=
  match cs with
  | [] => Ok s
  | c :: r => let* s := step s c in run_calls s r
  end.
End Lists.
Arguments link : clear implicits.
Arguments memory : clear implicits.
Arguments call : clear implicits.
Arguments state : clear implicits.
