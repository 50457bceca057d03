(** * Model of the construction of a model from a NET file: src/huginnet.y and
      parse_model of src/nip.c

    The text of a file is represented by its declarations, in the order of
    the file ([net]); the lexical analyser and the grammar are in NetLexModel.v
    and NetGrammarModel.v.
    A variable is its position in the list nip_parsed_vars; as identifiers are
    given in ascending order of creation (C18), the order of positions is the
    order of identifiers.  Allocations succeed.  [None] is a parse that fails
    (YYABORT, NULL returned by parse_model); the state of the parser after
    such a failure is not modelled. *)
From Coq Require Import String.
From Verif Require Import Base PotentialModel VariableModel JoinTreeModel NipModel SliceModel
  LearnModel GraphModel.
Import ListNotations.
Open Scope nat_scope.
Local Open Scope res_scope.

(** A node declaration, huginnet.y 324-456: symbol, label, states and the
    field NIP_next.  [None]: the field is missing. *)
Record node_decl := mkNode {
  nd_symbol : string;
  nd_label : option string;
  nd_states : option (list string);
  nd_next : option string
}.

(** A potential declaration, huginnet.y 585-745: [pd_parents] is [None] if
    there is no vertical bar, else the symbols after it in the order of the
    text; [pd_data] is [None] for an empty body, else the numbers. *)
Record pot_decl := mkDecl {
  pd_child : string;
  pd_parents : option (list string);
  pd_data : option (list Qc)
}.
Record net := mkNet { n_nodes : list node_decl; n_potentials : list pot_decl }.

(** A parsed variable: the names, and the fields [next], [parents] and
    interface_status of nip_variable_struct, nipvariable.h 53-81. *)
Record pvar := mkPV {
  pv_named : named_variable;
  pv_next : option nat;
  pv_previous : option nat;
  pv_parents : list nat;
  pv_iface : nat
}.
Definition set_next (v : pvar) (x : option nat) : pvar :=
  mkPV (pv_named v) x (pv_previous v) (pv_parents v) (pv_iface v).
Definition set_previous (v : pvar) (x : option nat) : pvar :=
  mkPV (pv_named v) (pv_next v) x (pv_parents v) (pv_iface v).
Definition set_parents (v : pvar) (l : list nat) : pvar :=
  mkPV (pv_named v) (pv_next v) (pv_previous v) l (pv_iface v).
(** [v->interface_status |= bits]. *)
Definition add_status (v : pvar) (bits : nat) : pvar :=
  mkPV (pv_named v) (pv_next v) (pv_previous v) (pv_parents v) (Nat.lor (pv_iface v) bits).
(** NIP_INTERFACE_..., nipvariable.h 31-34. *)
Definition INTERFACE_INCOMING : nat := 1.
Definition INTERFACE_OUTGOING : nat := 2.
Definition INTERFACE_OLD_OUTGOING : nat := 4.

(** A pointer to something, in a static variable. *)
Inductive pointer (A : Type) := Null | Live (x : A) | Freed.
Arguments Null {A}.
Arguments Live {A} x.
Arguments Freed {A}.

(** An element of nip_parsed_potentials, nipjointree.h 132-141. *)
Record parsed_potential := mkPP {
  pp_child : nat;
  pp_parents : list nat;
  pp_data : potential
}.

(** The static variables that outlive one call of the parser: the identifier
    counter (nipvariable.c 60), nip_label, nip_parsed_vars,
    nip_interface_relations and nip_parsed_potentials (huginnet.y 66-79). *)
Record globals := mkGlobals {
  g_counter : Z;
  g_label : pointer string;
  g_parsed : pointer (list pvar);
  g_relations : pointer (list (nat * string));
  g_potentials : pointer (list parsed_potential)
}.
Definition fresh_globals (counter : Z) : globals := mkGlobals counter Null Null Null Null.

(** [if(l == NULL) l = nip_new_..._list(); nip_append_...(l, x)]. *)
Definition append_to {A} (l : pointer (list A)) (x : A) : res (pointer (list A)) :=
  match l with
  | Null => Ok (Live [x])
  | Live l => Ok (Live (l ++ [x]))
  | Freed => UB
  end.

(** The action of a node declaration, huginnet.y 324-391 and 393-456.  The
    label read here is freed at the end (line 384) while nip_label keeps
    pointing to it; the next node without a label uses it again.  The list of
    states of [states = ();] is a NULL list that is dereferenced (line 546). *)
Definition node_declaration (g : globals) (d : node_decl) : res (option globals) :=
  let* label :=
    match nd_label d with
    | Some s => Ok (Live s)
    | None => Ok (g_label g)
    end in
  let* states :=
    match nd_states d with
    | Some [] => UB
    | Some l => Ok (Some l)
    | None => Ok None
    end in
  match states with
  | None =>
      match label with
      | Freed => UB (* the label is freed, line 336 *)
      | _ => Ok None
      end
  | Some states =>
      let* nip_label :=
        match label with
        | Null => Ok Null  (* a local label is made and freed *)
        | Live _ => Ok Freed
        | Freed => UB
        end in
      let* (v, counter) :=
        new_variable (g_counter g) true true true (Some (nd_symbol d))
          (Some (map Some states)) (length states) in
      match v with
      | None => Ok None
      | Some v =>
          let* vars := append_to (g_parsed g) (mkPV v None None [] 0) in
          match vars with
          | Live l =>
              let* rel :=
                match nd_next d with
                | None => Ok (g_relations g)
                | Some next => append_to (g_relations g) (length l - 1, next)
                end in
              Ok (Some (mkGlobals counter nip_label vars rel (g_potentials g)))
          | _ => UB
          end
      end
  end.
(** The node declarations of a file, huginnet.y 314-316. *)
Fixpoint node_declarations (g : globals) (l : list node_decl) : res (option globals) :=
  match l with
  | [] => Ok (Some g)
  | d :: l =>
      let* r := node_declaration g d in
      match r with
      | None => Ok None
      | Some g => node_declarations g l
      end
  end.

(** nip_search_variable_list, nipvariable.c 805-821, from the element at
    position [i]. *)
Fixpoint search_list (vl : list pvar) (symbol : string) (i : nat) : res (option nat) :=
  match vl with
  | [] => Ok None
  | v :: l =>
      match nv_symbol (pv_named v) with
      | None => UB
      | Some s => if String.eqb symbol s then Ok (Some i) else search_list l symbol (S i)
      end
  end.

(** The cardinality field of a variable (others have one state, a value never
    used). *)
Definition cardp (vl : list pvar) (v : nat) : nat :=
  match nth_error vl v with Some x => nv_card (pv_named x) | None => 1 end.

(** The symbols after the bar, huginnet.y 755-774: every variable found is
    prepended to nip_parent_vars, one that is unknown ends the parse. *)
Fixpoint parent_list (vl : list pvar) (symbols : list string) (acc : list nat)
  : res (option (list nat)) :=
  match symbols with
  | [] => Ok (Some acc)
  | s :: l =>
      let* v := search_list vl s 0 in
      match v with
      | None => Ok None
      | Some v => parent_list vl l (v :: acc)
      end
  end.

(** The actions of a potential declaration, huginnet.y 585-745.  An unknown
    child is NULL and dereferenced; so is the list of numbers of
    [data = ();] (line 832).  The codes of the normalisations are not looked
    at.  [parents] is NULL without a bar. *)
Definition potential_declaration (vl : list pvar) (d : pot_decl)
  : res (option parsed_potential) :=
  let card := cardp vl in
  let* child := search_list vl (pd_child d) 0 in
  let* parents :=
    match pd_parents d with
    | None => Ok (Some None)
    | Some symbols =>
        let* l := parent_list vl symbols [] in
        match l with
        | None => Ok None
        | Some l => Ok (Some (Some l))
        end
    end in
  match parents with
  | None => Ok None
  | Some parents =>
      let* doubles :=
        match pd_data d with
        | Some [] => UB
        | x => Ok x
        end in
      match parents with
      | Some [] => Ok None
      | Some parents =>
          match child with
          | None => UB
          | Some child =>
              let nparents := length parents in
              let family := child :: parents in
              let* size :=
                for_up 0 nparents
                  (fun i size => let* p := rd parents i in imul size (card p))
                  (card child) in
              if match doubles with Some l => Nat.ltb (length l) size | None => false end
              then Ok None
              else
                let* p := create_potential card family (nparents + 1) doubles in
                let* (p, _) := normalise_cpd p in
                match p with
                | None => Ok None
                | Some p => Ok (Some (mkPP child parents p))
                end
          end
      | None =>
          match child with
          | None => UB
          | Some child =>
              match doubles with
              | Some l =>
                  if Nat.ltb (length l) (card child) then Ok None
                  else
                    let* p := create_potential card [child] 1 (Some l) in
                    let* (p, _) := normalise_potential p in
                    match p with
                    | None => Ok None
                    | Some p => Ok (Some (mkPP child [] p))
                    end
              | None =>
                  let* p := create_potential card [child] 1 None in
                  match p with
                  | None => Ok None
                  | Some p => Ok (Some (mkPP child [] p))
                  end
              end
          end
      end
  end.
(** The potential declarations of a file, huginnet.y 319-321. *)
Fixpoint potential_declarations (vl : list pvar) (l : list pot_decl)
    (ps : pointer (list parsed_potential)) : res (option (pointer (list parsed_potential))) :=
  match l with
  | [] => Ok (Some ps)
  | d :: l =>
      let* p := potential_declaration vl d in
      match p with
      | None => Ok None
      | Some p =>
          let* ps := append_to ps p in
          potential_declarations vl l ps
      end
  end.

(** parsed_vars_to_graph, huginnet.y 1065-1110: first the nodes ... *)
Fixpoint vars_to_graph (g : graph) (vs : list nat) : res (option graph) :=
  match vs with
  | [] => Ok (Some g)
  | v :: l =>
      let* (g, e) := graph_add_node g v in
      if is_err e then Ok None else vars_to_graph g l
  end.
(** ... then, for every potential, the arcs from the parents and the array of
    parents of the child (nip_set_parents, nipvariable.c 339-361). *)
Fixpoint potentials_to_graph (g : graph) (vl : list pvar) (ps : list parsed_potential)
  : res (option (graph * list pvar)) :=
  match ps with
  | [] => Ok (Some (g, vl))
  | p :: l =>
      let n := dimensionality (pp_data p) - 1 in
      let* r :=
        for_up 0 n
          (fun i r =>
             match r with
             | None => Ok None
             | Some g =>
                 let* u := rd (pp_parents p) i in
                 let* (g, e) := graph_add_child g u (pp_child p) in
                 if is_err e then Ok None else Ok (Some g)
             end)
          (Some g) in
      match r with
      | None => Ok None
      | Some g =>
          let* parents :=
            for_up 0 n (fun i l => let* u := rd (pp_parents p) i in wr l i u) (repeat 0 n) in
          let* x := rd vl (pp_child p) in
          let* vl := wr vl (pp_child p) (set_parents x parents) in
          potentials_to_graph g vl l
      end
  end.

(** interface_to_vars, huginnet.y 1162-1261: first the relations.  The
    comparison of state names (lines 1181-1193) only prints. *)
Fixpoint relations_to_vars (vl : list pvar) (il : list (nat * string))
  : res (option (list pvar)) :=
  match il with
  | [] => Ok (Some vl)
  | (v1, next) :: l =>
      let* v2 := search_list vl next 0 in
      match v2 with
      | None => UB
      | Some v2 =>
          if Nat.eqb (cardp vl v1) (cardp vl v2) then
            let* x := rd vl v1 in
            let* vl := wr vl v1 (set_next x (Some v2)) in
            let* y := rd vl v2 in
            let* vl := wr vl v2 (set_previous y (Some v1)) in
            relations_to_vars vl l
          else Ok None
      end
  end.
(** [v->interface_status |= bits]. *)
Definition mark_interface (vl : list pvar) (v bits : nat) : res (list pvar) :=
  let* x := rd vl v in wr vl v (add_status x bits).
(** ... then the classification, for the variable at [j]. *)
Definition classify (vl : list pvar) (j : nat) : res (list pvar) :=
  let* v2 := rd vl j in
  let n := length (pv_parents v2) in
  let* (vl, m) :=
    for_up 0 n
      (fun i '(vl, m) =>
         let* v1 := rd (pv_parents v2) i in
         let* x := rd vl v1 in
         match pv_next x with
         | None => Ok (vl, m)
         | Some next =>
             let* vl := mark_interface vl v1 INTERFACE_OLD_OUTGOING in
             let* vl := mark_interface vl next INTERFACE_OUTGOING in
             let* vl := mark_interface vl j INTERFACE_INCOMING in
             Ok (vl, true)
         end)
      (vl, false) in
  if (m : bool) then
    for_up 0 n
      (fun i vl =>
         let* v1 := rd (pv_parents v2) i in
         let* x := rd vl v1 in
         match pv_next x with
         | None => mark_interface vl v1 INTERFACE_INCOMING
         | Some _ => Ok vl
         end)
      vl
  else Ok vl.
Definition interface_to_vars (il : pointer (list (nat * string))) (vl : list pvar)
  : res (option (list pvar)) :=
  match il with
  | Null => Ok (Some vl)
  | Freed => UB
  | Live il =>
      let* r := relations_to_vars vl il in
      match r with
      | None => Ok None
      | Some vl =>
          let* vl := for_up 0 (length vl) (fun j vl => classify vl j) vl in
          Ok (Some vl)
      end
  end.

(** The variables as the rest of the library sees them, right after parsing
    (nip_new_variable, nipvariable.c 56-128). *)
Definition vrec_of (v : pvar) : vrec :=
  mkVar (nv_card (pv_named v)) (nv_likelihood (pv_named v)) None false (pv_parents v) None None
    (if_old_outgoing (pv_iface v)) MARK_OFF.

(** nip_set_prior, nipvariable.c 385-400, for a non-NULL array. *)
Definition store_prior (m : model) (v : nat) (prior : list Qc) : res model :=
  let* x := rd (m_vars m) v in
  let* l :=
    for_up 0 (v_card x) (fun i l => let* y := rd prior i in wr l i y)
      (repeat 0%Qc (v_card x)) in
  put_var m v (set_prior x (Some l)).

(** parsed_potentials_to_jtree, huginnet.y 1117-1159. *)
Fixpoint potentials_to_jtree (m : model) (ps : list parsed_potential) : res (option model) :=
  match ps with
  | [] => Ok (Some m)
  | p :: l =>
      let* (m, fam_clique) := find_family m (pp_child p) in
      match fam_clique with
      | None => potentials_to_jtree m l (* only a message *)
      | Some c =>
          if Nat.ltb 1 (dimensionality (pp_data p)) then
            let* (m, e) := init_clique m c (pp_child p) (pp_data p) false in
            if is_err e then Ok None else potentials_to_jtree m l
          else
            let* m := store_prior m (pp_child p) (data (pp_data p)) in
            potentials_to_jtree m l
      end
  end.

(** The actions at the end of yyparse(), huginnet.y 203-311: graph, cliques,
    tables.  [k1] and [k2] stand for the costs of nipgraph.c 616-644, which
    may depend on parents and cardinalities.  The new lists are freed. *)
Definition input_action (k1 k2 : list pvar -> list nat -> Z) (g : globals) (vl : list pvar)
    (potentials : pointer (list parsed_potential)) : res (option (list pvar * model * globals)) :=
  match potentials with
  | Live ps =>
      let* r := vars_to_graph (new_graph (length vl)) (seq 0 (length vl)) in
      match r with
      | None => Ok None
      | Some gr =>
          let* r := potentials_to_graph gr vl ps in
          match r with
          | None => Ok None
          | Some (gr, vl) =>
              let* r := interface_to_vars (g_relations g) vl in
              match r with
              | None => Ok None
              | Some vl =>
                  let iface v := match nth_error vl v with
                                 | Some x => pv_iface x | None => 0 end in
                  let* (jt, _) := graph_to_cliques (k1 vl) (k2 vl) (cardp vl) iface gr in
                  let* r := potentials_to_jtree
                              (mkModel (map vrec_of vl) jt [] [] [] [] 0 0) ps in
                  match r with
                  | None => Ok None
                  | Some m =>
                      Ok (Some (vl, m,
                        mkGlobals (g_counter g) (g_label g) (Live vl)
                          (match g_relations g with Null => Null | _ => Freed end)
                          Freed))
                  end
              end
          end
      end
  | _ => UB (* nip_parsed_potentials->first, line 1069 *)
  end.

(** yyparse() for a file with the declarations [t]. *)
Definition yyparse (k1 k2 : list pvar -> list nat -> Z) (g : globals) (t : net)
  : res (option (list pvar * model * globals)) :=
  let* r := node_declarations g (n_nodes t) in
  match r with
  | None => Ok None
  | Some g =>
      match g_parsed g with
      | Live vl =>
          let* r := potential_declarations vl (n_potentials t) (g_potentials g) in
          match r with
          | None => Ok None
          | Some ps => input_action k1 k2 g vl ps
          end
      | _ => UB (* nip_parsed_vars->length, line 314 *)
      end
  end.

(** The loop of parse_model that fills the interfaces, nip.c 210-232; [m] and
    the arrays have room for [size] variables. *)
Definition fill_interfaces (vl : list pvar) (size : nat) : res (list nat * list nat) :=
  let* (prev, out, m) :=
    for_up 0 (length vl)
      (fun i '(prev, out, m) =>
         let* temp := rd vl i in
         if if_old_outgoing (pv_iface temp) then
           match pv_next temp with
           | None => UB
           | Some next =>
               let* prev := wr prev m i in
               let* out := wr out m next in
               let* y := rd vl next in
               if if_outgoing (pv_iface y) then Ok (prev, out, m + 1) else UB
           end
         else Ok (prev, out, m))
      (repeat 0 size, repeat 0 size, 0) in
  if Nat.eqb m size then Ok (prev, out) else UB.

(** parse_model, nip.c 118-291, after yyparse() has returned.  A violated
    assertion is undefined behaviour.  The list of variables is freed
    (line 148), the static pointer to it stays.  The arrays next, previous and
    incoming_interface are not part of [model]; the arrays children and
    independent are filled in the order of the variables (lines 236-241).
    NULL for in_clique and out_clique is represented by 0 (they are not used
    then). *)
Definition finish (vl : list pvar) (m : model) (g : globals)
  : res (option (list named_variable * model * globals)) :=
  let size := length (filter (fun v => if_outgoing (pv_iface v)) vl) in
  (* a parentless variable without a prior gets one of zeros, 168-177 *)
  let vars := map (fun x => match v_parents x, v_prior x with
                            | [], None => set_prior x (Some (repeat 0%Qc (v_card x)))
                            | _, _ => x
                            end) (m_vars m) in
  let* (prev, out) := fill_interfaces vl size in
  let orphan v := match nth_error vars v with
                  | Some x => match v_parents x with [] => true | _ => false end
                  | None => true end in
  let all := seq 0 (length vars) in
  let* (ic, oc) :=
    if Nat.ltb 0 size then
      let* ic := find_clique (m_jt m) prev size in
      let* oc := find_clique (m_jt m) out size in
      match ic, oc with
      | Some i, Some o => Ok (i, o)
      | _, _ => UB
      end
    else Ok (0, 0) in
  Ok (Some (map pv_named vl,
        mkModel vars (m_jt m) (filter orphan all) (filter (fun v => negb (orphan v)) all)
          out prev ic oc,
        mkGlobals (g_counter g) (g_label g) Freed (g_relations g) (g_potentials g))).

(** parse_model, nip.c 118-291, for a file with the declarations [t]. *)
Definition parse_model (k1 k2 : list pvar -> list nat -> Z) (g : globals) (t : net)
  : res (option (list named_variable * model * globals)) :=
  let* r := yyparse k1 k2 g t in
  match r with
  | None => Ok None
  | Some (vl, m, g) => finish vl m g
  end.
