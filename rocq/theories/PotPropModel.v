(** * Model of the properties of potentials (src/nippotential.c 153-181,
    src/niplists.c 207-227 and 641-655)

    On the memory of MemoryModel.v.  A string is a block of the codes of its
    characters with 0 after them. *)
From Verif Require Import Base MemoryModel PotPropSpec.
Import ListNotations.
Open Scope nat_scope.
Local Open Scope res_scope.

(** ** Strings *)
Definition text (s : list nat) : block := map N s ++ [N 0].

(** The number of fields of a block, as fuel for the loops over strings. *)
Definition extent (m : memory) (p : option nat) : nat :=
  match p with
  | None => 0
  | Some a => match nth_error m a with Some (Some b) => length b | _ => 0 end
  end.

(** strcmp (string.h): are the strings equal?  The characters from [i] on. *)
Fixpoint equal_from (fuel : nat) (m : memory) (p q : option nat) (i : nat) : res bool :=
  match fuel with
  | O => NoFuel
  | S fuel' =>
      let* x := num m p i in
      let* y := num m q i in
      if negb (Nat.eqb x y) then Ok false
      else if Nat.eqb x 0 then Ok true
      else equal_from fuel' m p q (S i)
  end.
Definition equal_text (m : memory) (p q : option nat) : res bool := equal_from (S (extent m p)) m p q 0.

(** The characters of a string, as its reader sees them. *)
Fixpoint text_from (fuel : nat) (m : memory) (p : option nat) (i : nat) : res (list nat) :=
  match fuel with
  | O => NoFuel
  | S fuel' =>
      let* x := num m p i in
      if Nat.eqb x 0 then Ok [] else let* s := text_from fuel' m p (S i) in Ok (x :: s)
  end.
Definition text_at (m : memory) (p : option nat) : res (list nat) := text_from (S (extent m p)) m p 0.

(** ** Lists of pairs *)

(** nip_append_string_pair, niplists.c 207-227.  [false]: EFAULT. *)
Definition append_string_pair (m : memory) (l key value : option nat) : res (memory * bool) :=
  match l, key, value with
  | Some _, Some _, Some _ =>
      let '(m, new) := malloc m 4 in
      let* m := store m (Some new) K_key (P key) in
      let* m := store m (Some new) K_value (P value) in
      let* m := store m (Some new) K_fwd (P None) in
      let* last := ptr m l S_last in
      let* m := store m (Some new) K_bwd (P last) in
      let* first := ptr m l S_first in
      let* m := match first with
                | None => store m l S_first (P (Some new))
                | Some _ => let* last := ptr m l S_last in store m last K_fwd (P (Some new))
                end in
      let* m := store m l S_last (P (Some new)) in
      let* n := num m l S_length in
      let* m := store m l S_length (N (S n)) in
      Ok (m, true)
  | _, _, _ => Ok (m, false)
  end.

(** nip_string_pair_list_search, niplists.c 641-655. *)
Fixpoint search_pairs (fuel : nat) (m : memory) (ln key : option nat) : res (option nat) :=
  match fuel with
  | O => NoFuel
  | S fuel' =>
      match ln with
      | None => Ok None
      | Some _ =>
          let* k := ptr m ln K_key in
          let* e := equal_text m key k in
          if (e : bool) then ptr m ln K_value
          else let* f := ptr m ln K_fwd in search_pairs fuel' m f key
      end
  end.
Definition string_pair_list_search (m : memory) (l key : option nat) : res (option nat) :=
  match l, key with
  | Some _, Some _ => let* first := ptr m l S_first in search_pairs (S (length m)) m first key
  | _, _ => Ok None
  end.

(** ** Potentials *)

(** nip_set_potential_property, nippotential.c 153-160. *)
Definition set_potential_property (m : memory) (p key value : option nat) : res (memory * bool) :=
  match p, key, value with
  | Some _, Some _, Some _ => let* l := ptr m p T_prop in append_string_pair m l key value
  | _, _, _ => Ok (m, false)
  end.

(** nip_get_potential_property, nippotential.c 162-171. *)
Definition get_potential_property (m : memory) (p key : option nat) : res (option nat) :=
  match p, key with
  | Some _, Some _ => let* l := ptr m p T_prop in string_pair_list_search m l key
  | _, _ => Ok None
  end.

(** nip_copy_potential, nippotential.c 173-181.  The cardinalities are an argument, as
    those of new_potential; their array and the data are read. *)
Definition copy_potential (m : memory) (p : option nat) (cards : list nat) : res (memory * option nat) :=
  match p with
  | None => Ok (m, None)
  | Some _ =>
      let* c := ptr m p T_card in
      let* d := num m p T_dim in
      let* x := ptr m p T_data in
      let* _ := for_up 0 d (fun i u => let* _ := fetch m c i in Ok u) tt in
      let* _ := for_up 0 (prod cards) (fun i u => let* _ := fetch m x i in Ok u) tt in
      new_potential m cards
  end.

(** ** A program that uses a potential *)

(** Setting gives the potential two strings of its own; asking reads the value, if
    there is one, before anything else is done. *)
Fixpoint serve (m : memory) (p : option nat) (l : list request) : res (memory * list (option (list nat))) :=
  match l with
  | [] => Ok (m, [])
  | Set_property k v :: l =>
      let '(m, key) := allocate m (text k) in
      let '(m, value) := allocate m (text v) in
      let* (m, ok) := set_potential_property m p (Some key) (Some value) in
      if (ok : bool) then serve m p l else UB
  | Get_property k :: l =>
      let '(m, key) := allocate m (text k) in
      let* value := get_potential_property m p (Some key) in
      let* answer := match value with None => Ok None | Some _ => let* s := text_at m value in Ok (Some s) end in
      let* m := free m (Some key) in
      let* (m, answers) := serve m p l in
      Ok (m, answer :: answers)
  end.
(** A new potential, the requests, and its end. *)
Definition with_potential (m : memory) (cards : list nat) (l : list request) : res (memory * list (option (list nat))) :=
  let* (m, p) := new_potential m cards in
  let* (m, answers) := serve m p l in
  let* m := free_potential m p in
  Ok (m, answers).
(** The same with a copy, which is asked for one key and freed at the end. *)
Definition with_copy (m : memory) (cards : list nat) (l : list request) (k : list nat) : res (memory * list (option (list nat))) :=
  let* (m, p) := new_potential m cards in
  let* (m, _) := serve m p l in
  let* (m, q) := copy_potential m p cards in
  let* (m, answers) := serve m q [Get_property k] in
  let* m := free_potential m p in
  let* m := free_potential m q in
  Ok (m, answers).
(** A program that uses one string for two values. *)
Definition with_shared_value (m : memory) (cards : list nat) (k1 k2 v : list nat) : res memory :=
  let* (m, p) := new_potential m cards in
  let '(m, key1) := allocate m (text k1) in
  let '(m, key2) := allocate m (text k2) in
  let '(m, value) := allocate m (text v) in
  let* (m, _) := set_potential_property m p (Some key1) (Some value) in
  let* (m, _) := set_potential_property m p (Some key2) (Some value) in
  free_potential m p.
