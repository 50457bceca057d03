(** * Model of src/nippotential.c

    Definitions only.  Conventions (see DESIGN.md): doubles are exact
    rationals, arrays are lists with checked access, error returns are part of
    the result. *)

From Verif Require Import Base.
Import ListNotations.
Local Open Scope res_scope.

(** nip_potential_struct, /repo/src/nippotential.h 46-57.
    [dims] is [cardinality[0..dimensionality-1]] and [data] the array of
    [size_of_data] cells.  Simplified: [size_of_data] and [dimensionality] are
    the lengths of the two arrays (nip_new_potential sets them so and no other
    function assigns them); [temp_index] is a scratch array and modelled
    locally; the application specific properties are left out. *)
Record potential := mkPot { dims : list nat; data : list Qc }.

Definition size_of_data (p : potential) : nat := length (data p).
Definition dimensionality (p : potential) : nat := length (dims p).

(** The [cardinality] array as allocated by nip_new_potential, nippotential.c
    105-128: one element 1 for a scalar. *)
Definition card_array (p : potential) : list nat :=
  match dims p with [] => [1] | d => d end.

(** nip_get_potential_pointer, nippotential.c 58-68: the flat index of the
    cell (the pointer is [&data[index]]). *)
Definition get_potential_pointer (p : potential) (indices : list nat)
  : res nat :=
  let* (index, _) :=
    for_up 0 (dimensionality p)
      (fun i '(index, card_temp) =>
         let* ii := rd indices i in
         let* t := imul ii card_temp in
         let* index' := iadd index t in
         let* c := rd (card_array p) i in
         let* card_temp' := imul card_temp c in
         Ok (index', card_temp'))
      (0, 1)
  in Ok index.

(** nip_choose_potential_indices, nippotential.c 72-81; writes the first
    [size_of_mapping] elements of [dest_indices]. *)
Definition choose_potential_indices (source_indices dest_indices : list nat)
    (mapping : list nat) (size_of_mapping : nat) : res (list nat) :=
  for_up 0 size_of_mapping
    (fun i dest =>
       let* m := rd mapping i in
       let* s := rd source_indices m in
       wr dest i s)
    dest_indices.

(** nip_new_potential, nippotential.c 84-150.  [None] is the NULL return.
    [init = None] is [data == NULL].  Allocation is assumed to succeed. *)
Definition new_potential (cardinality : list nat) (dimension : Z)
    (init : option (list Qc)) : res (option potential) :=
  if (dimension <? 0)%Z then Ok None
  else
    let n := Z.to_nat dimension in
    let* (dsize, cs) :=
      for_up 0 n
        (fun i '(dsize, cs) =>
           let* c := rd cardinality i in
           let* dsize' := imul dsize c in
           let* cs' := wr cs i c in
           Ok (dsize', cs'))
        (1, repeat 0 n) in
    match init with
    | None =>
        let* d := for_up 0 dsize (fun i d => wr d i 1%Qc) (repeat 0%Qc dsize) in
        Ok (Some (mkPot cs d))
    | Some src =>
        let* d := for_up 0 dsize
                    (fun i d => let* x := rd src i in wr d i x)
                    (repeat 0%Qc dsize) in
        Ok (Some (mkPot cs d))
    end.

(** nip_copy_potential, nippotential.c 173-180; a NULL argument gives NULL. *)
Definition copy_potential (p : option potential) : res (option potential) :=
  match p with
  | None => Ok None
  | Some p => new_potential (card_array p) (Z.of_nat (dimensionality p))
                (Some (data p))
  end.

(** nip_retract_potential, nippotential.c 182-198, for non-NULL arguments. *)
Definition retract_potential (p ref : potential) : res (potential * code) :=
  if negb (Nat.eqb (dimensionality p) (dimensionality ref))
  then Ok (p, EINVAL)
  else
    let* same :=
      for_up 0 (dimensionality p)
        (fun i same =>
           let* c := rd (card_array p) i in
           let* r := rd (card_array ref) i in
           Ok (same && Nat.eqb c r)%bool)
        true in
    if same then
      let* d := for_up 0 (size_of_data p)
                  (fun i d => let* x := rd (data ref) i in wr d i x)
                  (data p) in
      Ok (mkPot (dims p) d, NO_ERROR)
    else Ok (p, EINVAL).

(** nip_retract_potential with pointers that may be NULL (lines 184-185). *)
Definition retract_potential_ptr (p ref : option potential)
  : res (option potential * code) :=
  match p, ref with
  | Some p, Some ref =>
      let* (p', e) := retract_potential p ref in Ok (Some p', e)
  | _, _ => Ok (p, EFAULT)
  end.

(** nip_uniform_potential, nippotential.c 212-219. *)
Definition uniform_potential (p : potential) (value : Qc) : res potential :=
  let* d := for_up 0 (size_of_data p) (fun i d => wr d i value) (data p) in
  Ok (mkPot (dims p) d).

(** nip_random_potential, nippotential.c 222-230; [rnd i] is the i-th value of
    rand()/(double)RAND_MAX. *)
Definition random_potential (p : potential) (rnd : nat -> Qc) : res potential :=
  let* d := for_up 0 (size_of_data p) (fun i d => wr d i (rnd i)) (data p) in
  Ok (mkPot (dims p) d).

(** nip_get_potential_value, nippotential.c 233-240 (the pointer is never
    NULL for a non-NULL potential). *)
Definition get_potential_value (p : potential) (indices : list nat) : res Qc :=
  let* k := get_potential_pointer p indices in rd (data p) k.

(** nip_set_potential_value, nippotential.c 243-248. *)
Definition set_potential_value (p : potential) (indices : list nat) (v : Qc)
  : res potential :=
  let* k := get_potential_pointer p indices in
  let* d := wr (data p) k v in
  Ok (mkPot (dims p) d).

(** nip_inverse_mapping, nippotential.c 251-264; [indices] is the array
    written. *)
Definition inverse_mapping (p : potential) (flat_index : nat)
    (indices : list nat) : res (list nat) :=
  let* (_, _, indices') :=
    for_down (dimensionality p) 0
      (fun i '(x, flat_index, indices) =>
         let* c := rd (card_array p) i in
         let* x' := idiv x c in
         let* q := idiv flat_index x' in
         let* indices' := wr indices i q in
         Ok (x', flat_index - q * x', indices'))
      (size_of_data p, flat_index, indices)
  in Ok indices'.

(** The scratch array [temp_index] of a potential, nippotential.c 105-112.
    Its contents before a call are irrelevant; zeros are used. *)
Definition temp_index (p : potential) : list nat :=
  repeat 0 (Nat.max 1 (dimensionality p)).

(** nip_general_marginalise, nippotential.c 267-306. *)
Definition general_marginalise (source destination : potential)
    (mapping : list nat) : res (potential * code) :=
  if Nat.ltb (dimensionality source) (dimensionality destination)
  then Ok (destination, EINVAL)
  else if Nat.eqb (dimensionality destination) 0 then
    let* d0 := wr (data destination) 0 0%Qc in
    let* d := for_up 0 (size_of_data source)
                (fun i d =>
                   let* x := rd d 0 in
                   let* s := rd (data source) i in
                   wr d 0 (x + s)%Qc)
                d0 in
    Ok (mkPot (dims destination) d, NO_ERROR)
  else
    let* dest0 := uniform_potential destination 0%Qc in
    let* dest :=
      for_up 0 (size_of_data source)
        (fun i dest =>
           let* six := inverse_mapping source i (temp_index source) in
           let* dix := choose_potential_indices six (temp_index dest) mapping
                         (dimensionality dest) in
           let* k := get_potential_pointer dest dix in
           let* x := rd (data dest) k in
           let* s := rd (data source) i in
           let* d := wr (data dest) k (x + s)%Qc in
           Ok (mkPot (dims dest) d))
        dest0 in
    Ok (dest, NO_ERROR).

(** nip_total_marginalise, nippotential.c 309-340.  (The branch at 318-321 for
    dimensionality 0 is unreachable after the test at 312.) *)
Definition total_marginalise (source : potential) (destination : list Qc)
    (variable : Z) : res (list Qc * code) :=
  if (variable <? 0)%Z || (Z.of_nat (dimensionality source) <=? variable)%Z
  then Ok (destination, EINVAL)
  else
    let v := Z.to_nat variable in
    let* cv := rd (card_array source) v in
    let* dest0 := for_up 0 cv (fun i d => wr d i 0%Qc) destination in
    let* (dest, _) :=
      for_up 0 (size_of_data source)
        (fun i '(dest, index) =>
           let* (_, _, index') :=
             for_down (dimensionality source) v
               (fun j '(x, flat_index, index) =>
                  let* c := rd (card_array source) j in
                  let* x' := idiv x c in
                  let* q := idiv flat_index x' in
                  Ok (x', flat_index - q * x', q))
               (size_of_data source, i, index) in
           let* x := rd dest index' in
           let* s := rd (data source) i in
           let* dest' := wr dest index' (x + s)%Qc in
           Ok (dest', index'))
        (dest0, 0) in
    Ok (dest, NO_ERROR).

(** nip_normalise_array, nippotential.c 343-353, applied to the [n] cells
    starting at position [off] of [result] (as nip_normalise_cpd does). *)
Definition normalise_array_at (result : list Qc) (off n : nat)
  : res (list Qc) :=
  let* sum := for_up 0 n
                (fun i sum => let* x := rd result (off + i) in Ok (sum + x)%Qc)
                0%Qc in
  if qzero sum then Ok result
  else for_up 0 n
         (fun i r => let* x := rd r (off + i) in
                     let* y := qdiv x sum in
                     wr r (off + i) y)
         result.

Definition normalise_array (result : list Qc) (array_size : nat)
  : res (list Qc) := normalise_array_at result 0 array_size.

(** nip_normalise_potential, nippotential.c 357-362. *)
Definition normalise_potential (p : option potential)
  : res (option potential * code) :=
  match p with
  | None => Ok (None, EFAULT)
  | Some p =>
      let* d := normalise_array (data p) (size_of_data p) in
      Ok (Some (mkPot (dims p) d), NO_ERROR)
  end.

(** The loop [for(i = 0; i < size; i += n)] of nip_normalise_cpd,
    nippotential.c 373-374, by fuel: with n = 0 it does not terminate. *)
Fixpoint normalise_blocks (fuel : nat) (d : list Qc) (i size n : nat)
  : res (list Qc) :=
  match fuel with
  | O => NoFuel
  | S fuel' =>
      if Nat.ltb i size then
        let* d' := normalise_array_at d i n in
        normalise_blocks fuel' d' (i + n) size n
      else Ok d
  end.

(** nip_normalise_cpd, nippotential.c 367-377. *)
Definition normalise_cpd (p : option potential)
  : res (option potential * code) :=
  match p with
  | None => Ok (None, EFAULT)
  | Some p =>
      let* n := rd (card_array p) 0 in
      let* d := normalise_blocks (S (size_of_data p)) (data p) 0
                  (size_of_data p) n in
      Ok (Some (mkPot (dims p) d), NO_ERROR)
  end.

(** nip_sum_potential, nippotential.c 401-416. *)
Definition sum_potential (sum increment : option potential)
  : res (option potential * code) :=
  match sum, increment with
  | Some s, Some inc =>
      if negb (Nat.eqb (size_of_data s) (size_of_data inc))
      then Ok (Some s, EINVAL)
      else
        let* d := for_up 0 (size_of_data s)
                    (fun i d =>
                       let* x := rd d i in
                       let* y := rd (data inc) i in
                       wr d i (x + y)%Qc)
                    (data s) in
        Ok (Some (mkPot (dims s) d), NO_ERROR)
  | _, _ => Ok (sum, EFAULT)
  end.

(** One step of the division in nip_update_potential, nippotential.c 447-452
    and 469-475. *)
Definition update_divide (x y : Qc) : res Qc :=
  if qzero y then Ok 0%Qc else qdiv x y.

(** nip_update_potential, nippotential.c 419-479; [None] is NULL. *)
Definition update_potential (numerator denominator : option potential)
    (target : potential) (mapping : list nat) : res (potential * code) :=
  match numerator, denominator with
  | None, None => Ok (target, EINVAL)
  | _, _ =>
    let bad :=
      match numerator, denominator with
      | Some n, Some d =>
          negb (Nat.eqb (dimensionality n) (dimensionality d))
          || Nat.ltb (dimensionality target) (dimensionality n)
      | _, _ => false
      end in
    if bad then Ok (target, EINVAL)
    else
      let nvars :=
        match numerator, denominator with
        | Some n, _ => dimensionality n
        | None, Some d => dimensionality d
        | None, None => 0
        end in
      let source_index := repeat 0 (Nat.max 1 nvars) in
      if Nat.eqb nvars 0 then
        let* d :=
          for_up 0 (size_of_data target)
            (fun i d =>
               let* d1 :=
                 match numerator with
                 | Some n =>
                     let* x := rd d i in
                     let* y := rd (data n) 0 in
                     wr d i (x * y)%Qc
                 | None => Ok d
                 end in
               match denominator with
               | Some dn =>
                   let* y := rd (data dn) 0 in
                   let* x := rd d1 i in
                   let* z := update_divide x y in
                   wr d1 i z
               | None => Ok d1
               end)
            (data target) in
        Ok (mkPot (dims target) d, NO_ERROR)
      else
        let* d :=
          for_up 0 (size_of_data target)
            (fun i d =>
               let* tix := inverse_mapping target i (temp_index target) in
               let* six := choose_potential_indices tix source_index mapping
                             nvars in
               let* d1 :=
                 match numerator with
                 | Some n =>
                     let* k := get_potential_pointer n six in
                     let* y := rd (data n) k in
                     let* x := rd d i in
                     wr d i (x * y)%Qc
                 | None => Ok d
                 end in
               match denominator with
               | Some dn =>
                   let* k := get_potential_pointer dn six in
                   let* y := rd (data dn) k in
                   let* x := rd d1 i in
                   let* z := update_divide x y in
                   wr d1 i z
               | None => Ok d1
               end)
            (data target) in
        Ok (mkPot (dims target) d, NO_ERROR)
  end.

(** nip_normalise_dimension, nippotential.c 381-398. *)
Definition normalise_dimension (p : option potential) (dimension : Z)
  : res (option potential * code) :=
  match p with
  | None => Ok (None, EINVAL)
  | Some q =>
      if (dimension <? 0)%Z || (Z.of_nat (dimensionality q) <=? dimension)%Z
      then Ok (p, EINVAL)
      else
        let k := Z.to_nat dimension in
        let* c := rd (card_array q) k in
        let* denom := new_potential [c] 1 None in
        match denom with
        | None => UB
        | Some denom =>
            let* (denom', _) := general_marginalise q denom [k] in
            let* (q', _) := update_potential None (Some denom') q [k] in
            Ok (Some q', NO_ERROR)
        end
  end.

(** nip_update_evidence, nippotential.c 482-504; [denominator = None] is
    NULL. *)
Definition update_evidence (numerator : list Qc) (denominator : option (list Qc))
    (target : potential) (var : nat) : res potential :=
  let* d :=
    for_up 0 (size_of_data target)
      (fun i d =>
         let* tix := inverse_mapping target i (temp_index target) in
         let* s := rd tix var in
         let* x := rd d i in
         let* y := rd numerator s in
         let* d1 := wr d i (x * y)%Qc in
         match denominator with
         | Some dn =>
             let* z := rd dn s in
             if qzero z then Ok d1
             else
               let* x1 := rd d1 i in
               let* q := qdiv x1 z in
               wr d1 i q
         | None => Ok d1
         end)
      (data target) in
  Ok (mkPot (dims target) d).

(** nip_init_potential, nippotential.c 507-544; [mapping = None] is NULL. *)
Definition init_potential (probs target : potential)
    (mapping : option (list nat)) : res (potential * code) :=
  match mapping with
  | None =>
      if negb (Nat.eqb (size_of_data probs) (size_of_data target))
      then Ok (target, EFAULT)
      else
        let* d := for_up 0 (size_of_data target)
                    (fun i d =>
                       let* x := rd d i in
                       let* y := rd (data probs) i in
                       wr d i (x * y)%Qc)
                    (data target) in
        Ok (mkPot (dims target) d, NO_ERROR)
  | Some mapping =>
      if Nat.eqb (dimensionality probs) 0 then Ok (target, NO_ERROR)
      else
        let* d :=
          for_up 0 (size_of_data target)
            (fun i d =>
               let* tix := inverse_mapping target i (temp_index target) in
               let* pix := choose_potential_indices tix (temp_index probs)
                             mapping (dimensionality probs) in
               let* k := get_potential_pointer probs pix in
               let* y := rd (data probs) k in
               let* x := rd d i in
               wr d i (x * y)%Qc)
            (data target) in
        Ok (mkPot (dims target) d, NO_ERROR)
  end.
