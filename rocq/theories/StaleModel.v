(** * Model of the parents that a rejected NET file leaves behind *)
From Coq Require Import String.
From Verif Require Import Base PotentialModel VariableModel JoinTreeModel NipModel ParseModel.
Import ListNotations.
Open Scope nat_scope.
Local Open Scope res_scope.

(** The symbols after the bar, huginnet.y 755-774.  [acc]: nip_parent_vars, which is a static
    variable (line 70) and has members already if an earlier declaration ended in YYABORT.
    The result is what is in it afterwards, and whether all symbols are known. *)
Fixpoint read_parents (vl : list pvar) (symbols : list string) (acc : list nat) : res (bool * list nat) :=
  match symbols with
  | [] => Ok (true, acc)
  | s :: l =>
      let* v := search_list vl s 0 in
      match v with
      | None => Ok (false, acc)
      | Some v => read_parents vl l (v :: acc)
      end
  end.

(** The actions of a potential declaration, huginnet.y 585-745, as
    [potential_declaration] of ParseModel.v, but nip_parent_vars is [stale] before it.  It
    is emptied at the end of a declaration with a bar (lines 643-645, 736-738) and nowhere
    else: not where the declaration is given up (lines 605-633, 712-716, 768-772).
    Declarations without bar do not look at it.  What a failure to create the potential
    would leave is not followed (there is none if memory does not run out): the list stays. *)
Definition potential_after (vl : list pvar) (stale : list nat) (d : pot_decl)
  : res (option parsed_potential * list nat) :=
  let card := cardp vl in
  match pd_parents d with
  | None => let* p := potential_declaration vl d in Ok (p, stale)
  | Some symbols =>
      let* child := search_list vl (pd_child d) 0 in
      let* (known, parents) := read_parents vl symbols stale in
      if negb known then Ok (None, parents)
      else
        let* doubles := match pd_data d with Some [] => UB | x => Ok x end in
        match parents with
        | [] => Ok (None, parents)
        | _ =>
            match child with
            | None => UB
            | Some child =>
                let* size :=
                  for_up 0 (length parents)
                    (fun i size => let* p := rd parents i in imul size (card p))
                    (card child) in
                if match doubles with Some l => Nat.ltb (length l) size | None => false end
                then Ok (None, parents)
                else
                  let* p := create_potential card (child :: parents) (length parents + 1) doubles in
                  let* (p, _) := normalise_cpd p in
                  match p with
                  | None => Ok (None, parents)
                  | Some p => Ok (Some (mkPP child parents p), [])
                  end
            end
        end
  end.

(** The potential declarations, huginnet.y 319-321: whether the end is reached,
    nip_parsed_potentials and nip_parent_vars. *)
Fixpoint potentials_after (vl : list pvar) (stale : list nat) (l : list pot_decl) (ps : pointer (list parsed_potential))
  : res (bool * pointer (list parsed_potential) * list nat) :=
  match l with
  | [] => Ok (true, ps, stale)
  | d :: l =>
      let* (p, stale) := potential_after vl stale d in
      match p with
      | None => Ok (false, ps, stale)
      | Some p => let* ps := append_to ps p in potentials_after vl stale l ps
      end
  end.

(** How a call of parse_model ends: with a model; given up at a potential; or given up
    elsewhere, where the static variables are not followed. *)
Inductive ending :=
| Accepted (names : list named_variable) (m : model) (g : globals) (stale : list nat)
| Rejected (g : globals) (stale : list nat)
| Elsewhere.

(** parse_model, nip.c 118-291, for a file with the declarations [t]: as [parse_model] of
    ParseModel.v, with nip_parent_vars.  When a potential is given up, the variables and
    potentials so far stay in the static variables (the lists are only freed by the actions
    of input, huginnet.y 203-311; the graph is made anew for the next file, line 314). *)
Definition parse_after (k1 k2 : list pvar -> list nat -> Z) (g : globals) (stale : list nat) (t : net) : res ending :=
  let* r := node_declarations g (n_nodes t) in
  match r with
  | None => Ok Elsewhere
  | Some g =>
      match g_parsed g with
      | Live vl =>
          let* (complete, ps, stale) := potentials_after vl stale (n_potentials t) (g_potentials g) in
          if negb complete
          then Ok (Rejected (mkGlobals (g_counter g) (g_label g) (g_parsed g) (g_relations g) ps) stale)
          else
            let* r := input_action k1 k2 g vl ps in
            match r with
            | None => Ok Elsewhere
            | Some (vl, m, g) =>
                let* r := finish vl m g in
                match r with
                | None => Ok Elsewhere
                | Some (names, m, g) => Ok (Accepted names m g stale)
                end
            end
      | _ => UB
      end
  end.

(** One file after the other in the same process (nip.c 118-291).  It ends after
    [Elsewhere].  Simplified: the lexer starts each file at its beginning, which is so if
    the brace at which the file before was given up ends a line (C102_line_ends). *)
Fixpoint parse_all (k1 k2 : list pvar -> list nat -> Z) (g : globals) (stale : list nat) (ts : list net) : res (list ending) :=
  match ts with
  | [] => Ok []
  | t :: ts =>
      let* e := parse_after k1 k2 g stale t in
      match e with
      | Elsewhere => Ok [e]
      | Rejected g stale | Accepted _ _ g stale => let* es := parse_all k1 k2 g stale ts in Ok (e :: es)
      end
  end.
