(** * Model of src/nipjointree.c: cliques, sepsets and message passing

    A variable is its identifier, a clique or sepset pointer is its position
    in the tables of the join tree.  [card v] is the cardinality field of
    variable [v].  The two potentials [old] and [new] of a sepset are swapped
    by exchanging the fields, as the code exchanges the pointers. *)
From Verif Require Import Base PotentialModel VariableModel.
Import ListNotations.
Open Scope nat_scope.
Local Open Scope res_scope.

(** nip_clique_struct, nipjointree.h 38-50.  [c_sepsets] is the linked list
    of sepset pointers from its head; [c_mark] is [mark == NIP_MARK_ON].
    num_of_sepsets is never used by the code and not modelled. *)
Record clique := mkClique {
  c_vars : list nat;
  c_p : potential;
  c_orig : potential;
  c_sepsets : list nat;
  c_mark : bool
}.

(** nip_sepset_struct, nipjointree.h 55-66.  A NULL [variables] array (empty
    intersection) is the empty list. *)
Record sepset := mkSepset {
  s_vars : list nat;
  s_old : potential;
  s_new : potential;
  s_first : nat;
  s_second : nat
}.

(** The heap region of the join tree: model->cliques and all sepsets. *)
Record jtree := mkJT { cls : list clique; sps : list sepset }.

(** Field assignments through pointers. *)
Definition set_p (c : clique) (p : potential) : clique :=
  mkClique (c_vars c) p (c_orig c) (c_sepsets c) (c_mark c).
Definition set_orig (c : clique) (p : potential) : clique :=
  mkClique (c_vars c) (c_p c) p (c_sepsets c) (c_mark c).
Definition set_sepsets (c : clique) (l : list nat) : clique :=
  mkClique (c_vars c) (c_p c) (c_orig c) l (c_mark c).
Definition set_mark (c : clique) (b : bool) : clique :=
  mkClique (c_vars c) (c_p c) (c_orig c) (c_sepsets c) b.
Definition set_old_new (s : sepset) (o n : potential) : sepset :=
  mkSepset (s_vars s) o n (s_first s) (s_second s).

(** Write back a clique or a sepset at its address. *)
Definition put_clique (jt : jtree) (i : nat) (c : clique) : res jtree :=
  let* l := wr (cls jt) i c in Ok (mkJT l (sps jt)).
Definition put_sepset (jt : jtree) (k : nat) (s : sepset) : res jtree :=
  let* l := wr (sps jt) k s in Ok (mkJT (cls jt) l).

(** An array of variables as passed to the functions of nipvariable.c: the
    empty array is the NULL pointer. *)
Definition arr (l : list nat) : option (list nat) :=
  match l with [] => None | _ => Some l end.
(** A mapping as passed to nippotential.c: NULL is the empty array, any
    access to it is out of bounds. *)
Definition unarr (m : option (list nat)) : list nat :=
  match m with Some l => l | None => [] end.

(** Return value different from zero. *)
Definition is_err (e : code) : bool :=
  match e with NO_ERROR => false | _ => true end.

(** [while(l != NULL){ body; l = l->fwd; }] over a linked list of sepsets,
    with early return of the error code when the body reports one.  The list
    itself is not modified by any of the bodies. *)
Fixpoint each {S : Type} (l : list nat) (body : nat -> S -> res (S * code))
    (st : S) : res (S * code) :=
  match l with
  | [] => Ok (st, NO_ERROR)
  | x :: l' =>
      let* (st', e) := body x st in
      if is_err e then Ok (st', e) else each l' body st'
  end.

(** The reordering of nipjointree.c 113-128 (nip_new_clique) and 386-402
    (nip_create_potential): position of each variable in ascending order of
    identifiers, and the inverse of it. *)
Definition reordering (vars : list nat) (nvars : nat)
  : res (list nat * list nat) :=
  let* indices :=
    for_up 0 nvars
      (fun i ind =>
         let* temp := rd vars i in
         for_up 0 nvars
           (fun j ind =>
              let* vj := rd vars j in
              if Nat.ltb temp vj then
                let* x := rd ind j in wr ind j (S x)
              else Ok ind)
           ind)
      (repeat 0 nvars) in
  let* reorder :=
    for_up 0 nvars
      (fun i r => let* x := rd indices i in wr r x i)
      (repeat 0 nvars) in
  Ok (indices, reorder).

(** nip_new_clique, nipjointree.c 75-173.  Allocations are assumed to
    succeed. *)
Definition new_clique (card : nat -> nat) (vars : list nat) (nvars : nat)
  : res (option clique) :=
  let* (_, reorder) := reordering vars nvars in
  let* (cvars, cardinality) :=
    for_up 0 nvars
      (fun i '(cv, ca) =>
         let* k := rd reorder i in
         let* v := rd vars k in
         let* cv' := wr cv i v in
         let* ca' := wr ca i (card v) in
         Ok (cv', ca'))
      (repeat 0 nvars, repeat 0 nvars) in
  let* p := new_potential cardinality (Z.of_nat nvars) None in
  let* orig := new_potential cardinality (Z.of_nat nvars) None in
  match p, orig with
  | Some p, Some o => Ok (Some (mkClique cvars p o [] false))
  | _, _ => Ok None
  end.

(** nip_confirm_sepset, nipjointree.c 210-233: the sepset becomes the head of
    the list of its first, then of its second neighbour. *)
Definition confirm_sepset (jt : jtree) (s : nat) : res jtree :=
  let* sp := rd (sps jt) s in
  let* c1 := rd (cls jt) (s_first sp) in
  let* jt := put_clique jt (s_first sp) (set_sepsets c1 (s :: c_sepsets c1)) in
  let* c2 := rd (cls jt) (s_second sp) in
  put_clique jt (s_second sp) (set_sepsets c2 (s :: c_sepsets c2)).

(** nip_new_sepset, nipjointree.c 264-324, for neighbours [a] and [b].
    Allocations are assumed to succeed. *)
Definition new_sepset (card : nat -> nat) (jt : jtree) (a b : nat)
  : res (option sepset) :=
  let* ca := rd (cls jt) a in
  let* cb := rd (cls jt) b in
  let* (vars, size) :=
    variable_isect (arr (c_vars ca)) (arr (c_vars cb))
      (dimensionality (c_p ca)) (dimensionality (c_p cb)) in
  if (size <? 0)%Z then Ok None
  else
    let* cardinality :=
      for_up 0 (Z.to_nat size)
        (fun i l => let* v := rd (unarr vars) i in wr l i (card v))
        (repeat 0 (Z.to_nat size)) in
    let* o := new_potential cardinality size None in
    let* n := new_potential cardinality size None in
    match o, n with
    | Some o, Some n => Ok (Some (mkSepset (unarr vars) o n a b))
    | _, _ => Ok None
    end.

(** nip_create_potential, nipjointree.c 339-477. *)
Definition create_potential (card : nat -> nat) (variables : list nat)
    (nvars : nat) (dat : option (list Qc)) : res (option potential) :=
  let* (temp_array, reorder) := reordering variables nvars in
  let* (cardinality, size_of_data) :=
    for_up 0 nvars
      (fun i '(ca, size) =>
         let* k := rd reorder i in
         let* v := rd variables k in
         let* ca' := wr ca i (card v) in
         let* size' := imul size (card v) in
         Ok (ca', size'))
      (repeat 0 nvars, 1) in
  let* p := new_potential cardinality (Z.of_nat nvars) None in
  match p with
  | None => Ok None
  | Some p =>
      match dat with
      | None => Ok (Some p)
      | Some dat =>
          let* (d, _) :=
            for_up 0 size_of_data
              (fun i '(d, indices) =>
                 let* indices := inverse_mapping p i indices in
                 let* (index, _) :=
                   for_up 0 nvars
                     (fun j '(index, card_temp) =>
                        let* t := rd temp_array j in
                        let* x := rd indices t in
                        let* y := imul x card_temp in
                        let* index' := iadd index y in
                        let* cj := rd cardinality t in
                        let* card_temp' := imul card_temp cj in
                        Ok (index', card_temp'))
                     (0, 1) in
                 let* x := rd dat index in
                 let* d' := wr d i x in
                 Ok (d', indices))
              (data p, repeat 0 nvars) in
          Ok (Some (mkPot (dims p) d))
      end
  end.

(** nip_clique_marked, nipjointree.c 489-493. *)
Definition clique_marked (jt : jtree) (i : nat) : res bool :=
  let* c := rd (cls jt) i in Ok (c_mark c).
(** [c->mark = NIP_MARK_ON]. *)
Definition mark_clique (jt : jtree) (i : nat) : res jtree :=
  let* c := rd (cls jt) i in put_clique jt i (set_mark c true).
(** [for(i = 0; i < ncliques; i++) nip_unmark_clique(cliques[i])],
    nip_unmark_clique nipjointree.c 480-484. *)
Definition unmark_all (jt : jtree) : res jtree :=
  for_up 0 (length (cls jt))
    (fun i jt => let* c := rd (cls jt) i in put_clique jt i (set_mark c false))
    jt.

(** nip_cliques_connected, nipjointree.c 515-546, for non-NULL cliques.  The
    fuel bounds the depth of the recursion. *)
Fixpoint cliques_connected (fuel : nat) (jt : jtree) (one two : nat)
  : res (jtree * bool) :=
  match fuel with
  | O => NoFuel
  | S f =>
      let* c := rd (cls jt) one in
      let* jt := mark_clique jt one in
      if Nat.eqb one two then Ok (jt, true)
      else
        (fix loop l jt :=
           match l with
           | [] => Ok (jt, false)
           | s :: l' =>
               let* sp := rd (sps jt) s in
               let* m1 := clique_marked jt (s_first sp) in
               if negb m1 then
                 let* (jt, b) := cliques_connected f jt (s_first sp) two in
                 if (b : bool) then Ok (jt, true) else loop l' jt
               else
                 let* m2 := clique_marked jt (s_second sp) in
                 if negb m2 then
                   let* (jt, b) := cliques_connected f jt (s_second sp) two in
                   if (b : bool) then Ok (jt, true) else loop l' jt
                 else loop l' jt
           end) (c_sepsets c) jt
  end.

(** nip_message_pass, nipjointree.c 645-678. *)
Definition message_pass (jt : jtree) (c1 s c2 : nat) : res (jtree * code) :=
  let* sp := rd (sps jt) s in
  (* switch the pointers old and new *)
  let old := s_new sp in
  let new := s_old sp in
  let* jt := put_sepset jt s (set_old_new sp old new) in
  let* k1 := rd (cls jt) c1 in
  let* m := mapper (arr (c_vars k1)) (arr (s_vars sp))
              (dimensionality (c_p k1)) (dimensionality new) in
  let* (new, err) := general_marginalise (c_p k1) new (unarr m) in
  let* jt := put_sepset jt s (set_old_new sp old new) in
  if is_err err then Ok (jt, err)
  else
    let* k2 := rd (cls jt) c2 in
    let* m := mapper (arr (c_vars k2)) (arr (s_vars sp))
                (dimensionality (c_p k2)) (dimensionality new) in
    let* (p, err) := update_potential (Some new) (Some old) (c_p k2) (unarr m) in
    let* jt := put_clique jt c2 (set_p k2 p) in
    Ok (jt, err).

(** nip_distribute_evidence, nipjointree.c 549-596. *)
Fixpoint distribute_evidence (fuel : nat) (jt : jtree) (c : nat)
  : res (jtree * code) :=
  match fuel with
  | O => NoFuel
  | S f =>
      let* k := rd (cls jt) c in
      let* jt := mark_clique jt c in
      let* (jt, err) :=
        each (c_sepsets k)
          (fun s jt =>
             let* sp := rd (sps jt) s in
             let* m1 := clique_marked jt (s_first sp) in
             if negb m1 then message_pass jt c s (s_first sp)
             else
               let* m2 := clique_marked jt (s_second sp) in
               if negb m2 then message_pass jt c s (s_second sp)
               else Ok (jt, NO_ERROR))
          jt in
      if is_err err then Ok (jt, err)
      else
        each (c_sepsets k)
          (fun s jt =>
             let* sp := rd (sps jt) s in
             let* m1 := clique_marked jt (s_first sp) in
             if negb m1 then distribute_evidence f jt (s_first sp)
             else
               let* m2 := clique_marked jt (s_second sp) in
               if negb m2 then distribute_evidence f jt (s_second sp)
               else Ok (jt, NO_ERROR))
          jt
  end.

(** nip_collect_evidence, nipjointree.c 599-642.  [parent] is [None] when c1
    and s12 are NULL, else the pair of them. *)
Fixpoint collect_evidence (fuel : nat) (jt : jtree) (parent : option (nat * nat))
    (c2 : nat) : res (jtree * code) :=
  match fuel with
  | O => NoFuel
  | S f =>
      let* jt := mark_clique jt c2 in
      let* k := rd (cls jt) c2 in
      let* (jt, err) :=
        each (c_sepsets k)
          (fun s jt =>
             let* sp := rd (sps jt) s in
             let* m1 := clique_marked jt (s_first sp) in
             let* (jt, err) :=
               if negb m1 then collect_evidence f jt (Some (c2, s)) (s_first sp)
               else Ok (jt, NO_ERROR) in
             if is_err err then Ok (jt, err)
             else
               let* m2 := clique_marked jt (s_second sp) in
               if negb m2 then collect_evidence f jt (Some (c2, s)) (s_second sp)
               else Ok (jt, NO_ERROR))
          jt in
      if is_err err then Ok (jt, err)
      else
        match parent with
        | None => Ok (jt, NO_ERROR)
        | Some (c1, s12) => message_pass jt c2 s12 c1
        end
  end.

(** make_consistent, nip.c 1618-1635.  The code returned is what is reported
    to the error handler; the C function returns nothing.  The depth of the
    recursions is bounded by the number of cliques. *)
Definition make_consistent (jt : jtree) : res (jtree * code) :=
  let* jt := unmark_all jt in
  let* (jt, err) := collect_evidence (length (cls jt)) jt None 0 in
  if is_err err then Ok (jt, GENERAL)
  else
    let* jt := unmark_all jt in
    let* (jt, err) := distribute_evidence (length (cls jt)) jt 0 in
    if is_err err then Ok (jt, GENERAL) else Ok (jt, NO_ERROR).

(** nip_join_tree_dfs, nipjointree.c 1075-1120.  The callbacks get the address
    of the clique or sepset, the tree and the accumulator behind [ptr].
    Errors returned by the recursive calls are dropped (lines 1106, 1115). *)
Fixpoint join_tree_dfs {A : Type} (fuel : nat)
    (cf sf : nat -> jtree -> A -> res (jtree * A * code))
    (start : nat) (jt : jtree) (acc : A) : res (jtree * A * code) :=
  match fuel with
  | O => NoFuel
  | S f =>
      let* jt := mark_clique jt start in
      let* (jt, acc, err) := cf start jt acc in
      if is_err err then Ok (jt, acc, err)
      else
        let* k := rd (cls jt) start in
        let* (st, err) :=
          each (c_sepsets k)
            (fun s '(jt, acc) =>
               let* sp := rd (sps jt) s in
               let* m1 := clique_marked jt (s_first sp) in
               if negb m1 then
                 let* (jt, acc, err) := sf s jt acc in
                 if is_err err then Ok ((jt, acc), err)
                 else
                   let* (jt, acc, _) := join_tree_dfs f cf sf (s_first sp) jt acc in
                   Ok ((jt, acc), NO_ERROR)
               else
                 let* m2 := clique_marked jt (s_second sp) in
                 if negb m2 then
                   let* (jt, acc, err) := sf s jt acc in
                   if is_err err then Ok ((jt, acc), err)
                   else
                     let* (jt, acc, _) := join_tree_dfs f cf sf (s_second sp) jt acc in
                     Ok ((jt, acc), NO_ERROR)
                 else Ok ((jt, acc), NO_ERROR))
            (jt, acc) in
        let '(jt, acc) := st in
        Ok (jt, acc, err)
  end.

(** nip_retract_clique, nipjointree.c 1056-1063. *)
Definition retract_clique (i : nat) (jt : jtree) (u : unit)
  : res (jtree * unit * code) :=
  let* c := rd (cls jt) i in
  let* (p, err) := retract_potential (c_p c) (c_orig c) in
  let* jt := put_clique jt i (set_p c p) in
  Ok (jt, u, err).

(** nip_retract_sepset, nipjointree.c 1066-1072. *)
Definition retract_sepset (s : nat) (jt : jtree) (u : unit)
  : res (jtree * unit * code) :=
  let* sp := rd (sps jt) s in
  let* o := uniform_potential (s_old sp) 1%Qc in
  let* n := uniform_potential (s_new sp) 1%Qc in
  let* jt := put_sepset jt s (set_old_new sp o n) in
  Ok (jt, u, NO_ERROR).

(** [for(i = 0; i < size_of_data; i++) m += data[i]], the loops of
    nipjointree.c 1125-1126 and 1134-1135. *)
Definition data_mass (p : potential) : res Qc :=
  for_up 0 (size_of_data p)
    (fun i m => let* x := rd (data p) i in Ok (m + x)%Qc) 0%Qc.

(** nip_clique_mass, nipjointree.c 1122-1129. *)
Definition clique_mass (i : nat) (jt : jtree) (ret : Qc)
  : res (jtree * Qc * code) :=
  let* c := rd (cls jt) i in
  let* m := data_mass (c_p c) in
  Ok (jt, (ret + m)%Qc, NO_ERROR).

(** nip_neg_sepset_mass, nipjointree.c 1131-1138. *)
Definition neg_sepset_mass (s : nat) (jt : jtree) (ret : Qc)
  : res (jtree * Qc * code) :=
  let* sp := rd (sps jt) s in
  let* m := data_mass (s_new sp) in
  Ok (jt, (ret - m)%Qc, NO_ERROR).

(** nip_probability_mass, nipjointree.c 1141-1155. *)
Definition probability_mass (jt : jtree) : res (jtree * Qc) :=
  let* jt := unmark_all jt in
  let* (jt, ret, _) :=
    join_tree_dfs (length (cls jt)) clique_mass neg_sepset_mass 0 jt 0%Qc in
  Ok (jt, ret).

(** nip_clique_var_index, nipjointree.c 919-933.  [None] is -1.  The while
    loop compares before it tests the bound, so a clique without variables
    makes it read outside the array. *)
Fixpoint var_index_loop (fuel : nat) (vars : list nat) (dim v var : nat)
  : res (option nat) :=
  match fuel with
  | O => NoFuel
  | S f =>
      let* x := rd vars var in
      if equal_variables v x then Ok (Some var)
      else if Nat.eqb (S var) dim then Ok None
      else var_index_loop f vars dim v (S var)
  end.
Definition clique_var_index (c : clique) (v : nat) : res (option nat) :=
  var_index_loop (S (length (c_vars c))) (c_vars c) (dimensionality (c_p c)) v 0.

(** nip_marginalise_clique, nipjointree.c 744-757. *)
Definition marginalise_clique (jt : jtree) (i v : nat) (r : list Qc)
  : res (list Qc * code) :=
  let* c := rd (cls jt) i in
  let* ix := clique_var_index c v in
  match ix with
  | None => Ok (r, EINVAL)
  | Some k => total_marginalise (c_p c) r (Z.of_nat k)
  end.

(** nip_find_clique, nipjointree.c 1010-1031.  [None] is NULL. *)
Definition find_clique (jt : jtree) (variables : list nat) (nvars : nat)
  : res (option nat) :=
  find_up 0 (length (cls jt))
    (fun i =>
       let* c := rd (cls jt) i in
       let* ok :=
         for_up 0 nvars
           (fun j ok =>
              let* v := rd variables j in
              let* f := find_up 0 (dimensionality (c_p c))
                          (fun k => let* x := rd (c_vars c) k in
                                    Ok (equal_variables v x)) in
              match f with Some _ => Ok (S ok) | None => Ok ok end)
           0 in
       Ok (Nat.eqb ok nvars)).
