(** * Model of the memory used to parse a network
    (src/huginnet.y, src/nip.c 118-291, src/nipvariable.c 592-783,
    src/nipjointree.c 339-480, 936-960 and 1369-1463)

    The values are computed by the functions of ParseModel.v; here they run with
    the calls of malloc and free around them, on the memory of MemoryModel.v.
    Variables, cliques, sepsets, potentials and the model have all their
    pointers.  Texts, lists and arrays of the parser are not represented field
    by field (as in MemoryModel3.v): such a block has an address and can be used
    and freed.  The declarations are run in their order; what the lexer
    allocates for keywords, numbers and single characters is freed at once and
    left out, and so is its array of token boundaries (nipparsers.c 526-648),
    freed at the end of the file, and the texts of a net block and of the name of
    a class.
    A parse that fails ends without a memory:
    nothing is said about what it leaves behind. *)
From Coq Require Import String.
From Verif Require Import Base PotentialModel VariableModel HeapModel JoinTreeModel NipModel GraphModel ParseModel NetLexModel NetGrammarModel MemoryModel MemoryModel3.
Import ListNotations.
Open Scope nat_scope.
Local Open Scope res_scope.
Local Notation len := List.length.

(** What is in a file: the declarations of every node (NetGrammarModel.v) and
    those of the distributions. *)
Record source := mkSource { s_nodes : list (string * list field); s_pots : list pot_decl }.

(** A text that yylex, huginnet.y 851-1055, returns: the token is copied. *)
Definition m_text (m : memory) : res (memory * nat) :=
  let '(m, token) := take m in
  let '(m, s) := take m in
  let* m := free m (Some token) in
  Ok (m, s).

(** An array that is freed by the same function that allocated it. *)
Definition m_scrap (m : memory) : res memory :=
  let '(m, a) := take m in free m (Some a).

(** Every block of a list of blocks is used. *)
Fixpoint use_all (m : memory) (l : list nat) : res unit :=
  match l with
  | [] => Ok tt
  | a :: l => let* _ := use m a in use_all m l
  end.
(** The pointers that are not NULL. *)
Definition addresses_in (l : list (option nat)) : list nat :=
  flat_map (fun p => match p with Some a => [a] | None => [] end) l.
(** Frees from the first to the last. *)
Fixpoint free_each (m : memory) (l : list nat) : res memory :=
  match l with
  | [] => Ok m
  | a :: l => let* m := free m (Some a) in free_each m l
  end.

(** A list: the struct and its links.  nip_new_..._list if there is none yet,
    and nip_append_... or nip_prepend_... (niplists.c 75-103 and 163-205,
    nipvariable.c 592-680, nipjointree.c 1369-1404). *)
Record mlist := mkMlist { b_list : nat; b_nodes : list nat }.
(** Walking through a list, as the loops over niplists.h lists do. *)
Definition use_list (m : memory) (l : mlist) : res unit :=
  let* _ := use m (b_list l) in use_all m (b_nodes l).
Definition m_list (m : memory) (l : option mlist) : memory * mlist :=
  match l with
  | Some l => (m, l)
  | None => let '(m, a) := take m in (m, mkMlist a [])
  end.
Definition m_link (m : memory) (l : mlist) : res (memory * mlist) :=
  let* _ := use_list m l in
  let '(m, a) := take m in
  Ok (m, mkMlist (b_list l) (b_nodes l ++ [a])).
Definition m_append (m : memory) (l : option mlist) : res (memory * mlist) :=
  let '(m, l) := m_list m l in m_link m l.

(** nip_empty_..._list and free of the struct (niplists.c 471-507,
    nipvariable.c 738-755). *)
Definition m_drop (m : memory) (l : mlist) : res memory :=
  let* _ := use m (b_list l) in
  let* m := free_all m (b_nodes l) in
  free m (Some (b_list l)).

(** ** Nodes *)

(** strings and statesDeclaration, huginnet.y 545-564 and 776-793: the array of
    names and the names. *)
Fixpoint m_strings (m : memory) (l : list string) (ml : option mlist) (names : list nat)
  : res (memory * option mlist * list nat) :=
  match l with
  | [] => Ok (m, ml, names)
  | _ :: l =>
      let* (m, s) := m_text m in
      let* (m, ml) := m_append m ml in
      m_strings m l (Some ml) (names ++ [s])
  end.
Definition m_states (m : memory) (l : list string) : res (memory * (nat * list nat)) :=
  let* (m, ml, names) := m_strings m l None [] in
  match ml with
  | None => UB
  | Some ml =>
      let* _ := use_list m ml in
      let '(m, array) := take m in
      let* m := m_drop m ml in
      Ok (m, (array, names))
  end.

(** node_params, huginnet.y 520-527: the texts of labels and of NIP_next, and
    the arrays of states, in their order.  The value of an unknown field is
    taken for a text (numbers need no memory), huginnet.y 580-582 and 824. *)
Fixpoint m_fields (m : memory) (l : list field) : res (memory * list nat * list nat * list (nat * list nat)) :=
  match l with
  | [] => Ok (m, [], [], [])
  | F_unknown :: l =>
      let* (m, name) := m_text m in
      let* (m, value) := m_text m in
      let* m := free m (Some value) in
      let* m := free m (Some name) in
      m_fields m l
  | F_label _ :: l =>
      let* (m, s) := m_text m in
      let* (m, labels, nexts, arrays) := m_fields m l in
      Ok (m, s :: labels, nexts, arrays)
  | F_next _ :: l =>
      let* (m, s) := m_text m in
      let* (m, labels, nexts, arrays) := m_fields m l in
      Ok (m, labels, s :: nexts, arrays)
  | F_states x :: l =>
      let* (m, a) := m_states m x in
      let* (m, labels, nexts, arrays) := m_fields m l in
      Ok (m, labels, nexts, a :: arrays)
  | F_position _ _ :: l | F_size _ _ :: l => m_fields m l
  end.

(** The static variables nip_label, nip_parsed_vars, nip_interface_relations
    (with the texts in it) and nip_parsed_potentials (with the potentials and
    the arrays of parents), huginnet.y 66-79. *)
Record statics := mkStatics {
  st_label : option nat;
  st_vars : option mlist;
  st_relations : option (mlist * list nat);
  st_potentials : option (mlist * list (option nat * option nat)) }.
Definition no_statics : statics := mkStatics None None None None.

(** The declaration that nodeDeclaration sees, huginnet.y 324-456, as in
    NetGrammarModel.v: labels and NIP_next 520-543 and 566-578, states 545-564. *)
Definition declared (symbol : string) (l : list field) : node_decl :=
  mkNode symbol (label_in l) (states_in l) (next_of l).

(** nodeDeclaration, huginnet.y 324-456, of a supported node: the first label
    and the first NIP_next count, and the last states. *)
Definition m_node (m : memory) (st : statics) (vs : list nat) (g : globals) (symbol : string) (l : list field)
  : res (option (memory * statics * list nat * globals)) :=
  let* (m, sym) := m_text m in
  let* (m, labels, nexts, arrays) := m_fields m l in
  let nip_label := match labels with a :: _ => Some a | [] => st_label st end in
  let '(m, label) := match nip_label with Some a => (m, a) | None => take m end in
  let* y := node_declaration g (declared symbol l) in
  match y, rev arrays, states_in l with
  | Some g, (array, names) :: _, Some states =>
      let* _ := use_all m (sym :: label :: array :: names) in
      let* (m, v) := MemoryModel.new_variable m (len vs) (String.length symbol)
                       (Some (match label_in l with Some s => String.length s | None => 1 end))
                       (Some (map String.length states)) (len states) in
      match v with
      | None => UB
      | Some v =>
          let* (m, vars) := m_append m (st_vars st) in
          let* (m, rel) :=
            match nexts with
            | [] => Ok (m, st_relations st)
            | n :: _ =>
                let* (m, ml) := m_append m (option_map fst (st_relations st)) in
                let old := match st_relations st with Some (_, l) => l | None => [] end in
                Ok (m, Some (ml, old ++ [n]))
            end in
          let* m := free m (Some sym) in
          let* m := free m (Some label) in
          let* m := free_each m names in
          let* m := free m (Some array) in
          Ok (Some (m, mkStatics nip_label (Some vars) rel (st_potentials st), vs ++ [v], g))
      end
  | None, _, _ => Ok None
  | _, _, _ => UB
  end.

(** nodes, huginnet.y 314-316. *)
Fixpoint m_nodes (m : memory) (st : statics) (vs : list nat) (g : globals) (l : list (string * list field))
  : res (option (memory * statics * list nat * globals)) :=
  match l with
  | [] => Ok (Some (m, st, vs, g))
  | (symbol, fields) :: l =>
      let* x := m_node m st vs g symbol fields in
      match x with
      | None => Ok None
      | Some (m, st, vs, g) => m_nodes m st vs g l
      end
  end.

(** ** Distributions *)

(** symbols, huginnet.y 755-774. *)
Fixpoint m_symbols (m : memory) (vars : mlist) (l : list string) (ml : option mlist) : res (memory * option mlist) :=
  match l with
  | [] => Ok (m, ml)
  | _ :: l =>
      let* (m, s) := m_text m in
      let '(m, ml) := m_list m ml in
      let* _ := use_list m vars in
      let* _ := use m s in
      let* (m, ml) := m_link m ml in
      let* m := free m (Some s) in
      m_symbols m vars l (Some ml)
  end.

(** numbers and dataList, huginnet.y 795-842: the array. *)
Fixpoint m_numbers (m : memory) (l : list Qc) (ml : option mlist) : res (memory * option mlist) :=
  match l with
  | [] => Ok (m, ml)
  | _ :: l => let* (m, ml) := m_append m ml in m_numbers m l (Some ml)
  end.
Definition m_data (m : memory) (l : list Qc) : res (memory * nat) :=
  let* (m, ml) := m_numbers m l None in
  match ml with
  | None => UB
  | Some ml =>
      let* _ := use_list m ml in
      let '(m, array) := take m in
      let* m := m_drop m ml in
      Ok (m, array)
  end.

(** nip_create_potential, nipjointree.c 339-480. *)
Definition m_create_potential (m : memory) (cards : list nat) : res (memory * option nat) :=
  let '(m, a) := take m in
  let '(m, b) := take m in
  let '(m, c) := take m in
  let '(m, d) := take m in
  let* (m, p) := MemoryModel.new_potential m cards in
  let* m := free_each m [a; b; c; d] in
  Ok (m, p).

(** child and potentialDeclaration, huginnet.y 585-753.  [doubles] is freed
    although it may be NULL; [family] and [parents] are arrays only after a
    bar. *)
Definition m_potential (m : memory) (st : statics) (vl : list pvar) (d : pot_decl)
  : res (option (memory * statics * parsed_potential)) :=
  match st_vars st with
  | None => UB
  | Some vars =>
      let* (m, s) := m_text m in
      let* _ := use_list m vars in
      let* m := free m (Some s) in
      let* (m, given) := match pd_parents d with
                         | None => Ok (m, None)
                         | Some l => m_symbols m vars l None
                         end in
      let* (m, doubles) := match pd_data d with
                           | None => Ok (m, None)
                           | Some l => let* (m, a) := m_data m l in Ok (m, Some a)
                           end in
      let* y := potential_declaration vl d in
      match y with
      | None => Ok None
      | Some p =>
          let '(m, family, parents) :=
            match given with
            | None => (m, None, None)
            | Some _ => let '(m, f) := take m in let '(m, a) := take m in (m, Some f, Some a)
            end in
          let '(m, ml) := m_list m (option_map fst (st_potentials st)) in
          let* _ := use_all m (addresses_in [doubles; family; parents]) in
          let* (m, q) := m_create_potential m (dims (pp_data p)) in
          let* (m, ml) := m_link m ml in
          let* m := free m doubles in
          let* m := match given with None => Ok m | Some g => m_drop m g end in
          let* m := free m family in
          let old := match st_potentials st with Some (_, l) => l | None => [] end in
          Ok (Some (m, mkStatics (st_label st) (st_vars st) (st_relations st) (Some (ml, old ++ [(q, parents)])), p))
      end
  end.

(** potentials, huginnet.y 319-321. *)
Fixpoint m_potentials (m : memory) (st : statics) (vl : list pvar) (l : list pot_decl) (ps : list parsed_potential)
  : res (option (memory * statics * list parsed_potential)) :=
  match l with
  | [] => Ok (Some (m, st, ps))
  | d :: l =>
      let* x := m_potential m st vl d in
      match x with
      | None => Ok None
      | Some (m, st, p) => m_potentials m st vl l (ps ++ [p])
      end
  end.

(** ** The end of the file *)

(** parsed_vars_to_graph, huginnet.y 1065-1110: the nodes, then the arcs and the
    arrays of parents. *)
Fixpoint m_vars_to_graph (m : memory) (G : mgraph) (l : list nat) : res (option (memory * mgraph)) :=
  match l with
  | [] => Ok (Some (m, G))
  | v :: l =>
      let* (m, G, e) := m_graph_add_node m G v in
      if is_err e then Ok None else m_vars_to_graph m G l
  end.
Fixpoint m_arcs (m : memory) (G : mgraph) (parents : list nat) (child : nat) : res (option (memory * mgraph)) :=
  match parents with
  | [] => Ok (Some (m, G))
  | u :: l =>
      let* (m, G, e) := m_graph_add_child m G u child in
      if is_err e then Ok None else m_arcs m G l child
  end.
Fixpoint m_potentials_to_graph (m : memory) (G : mgraph) (vs : list nat) (ps : list parsed_potential)
  : res (option (memory * mgraph)) :=
  match ps with
  | [] => Ok (Some (m, G))
  | p :: l =>
      let parents := firstn (dimensionality (pp_data p) - 1) (pp_parents p) in
      let* r := m_arcs m G parents (pp_child p) in
      match r with
      | None => Ok None
      | Some (m, G) =>
          let* v := rd vs (pp_child p) in
          let* m := MemoryModel.set_parents m (Some v) (map (nth_error vs) parents) in
          m_potentials_to_graph m G vs l
      end
  end.

(** nip_free_interface_list, nipvariable.c 758-783, and nip_free_potential_list,
    nipjointree.c 1433-1463: from the last link to the first. *)
Fixpoint free_relations (m : memory) (links texts : list nat) : res memory :=
  match links, texts with
  | k :: links, s :: texts =>
      let* m := free_relations m links texts in
      let* m := free m (Some s) in
      free m (Some k)
  | [], [] => Ok m
  | _, _ => UB
  end.
Definition m_free_relations (m : memory) (l : option (mlist * list nat)) : res memory :=
  match l with
  | None => Ok m
  | Some (ml, texts) =>
      let* _ := use m (b_list ml) in
      let* m := free_relations m (b_nodes ml) texts in
      free m (Some (b_list ml))
  end.
Fixpoint free_potentials (m : memory) (links : list nat) (l : list (option nat * option nat)) : res memory :=
  match links, l with
  | k :: links, (p, parents) :: l =>
      let* m := free_potentials m links l in
      let* m := free_potential m p in
      let* m := free m parents in
      free m (Some k)
  | [], [] => Ok m
  | _, _ => UB
  end.
Definition m_free_potentials (m : memory) (l : option (mlist * list (option nat * option nat))) : res memory :=
  match l with
  | None => Ok m
  | Some (ml, l) =>
      let* _ := use m (b_list ml) in
      let* m := free_potentials m (b_nodes ml) l in
      free m (Some (b_list ml))
  end.

(** parsed_potentials_to_jtree, huginnet.y 1117-1159.  nip_find_family,
    nipjointree.c 936-960, allocates and frees the array of the family (only if
    it is not known yet), nip_init_clique, nipjointree.c 682-741, that of the
    mapping (only if the family is smaller than the clique). *)
Fixpoint m_potentials_to_jtree (m : memory) (vs : list nat) (x : model) (ps : list parsed_potential)
  : res (option (memory * model)) :=
  match ps with
  | [] => Ok (Some (m, x))
  | p :: l =>
      let* (x, fam_clique) := find_family x (pp_child p) in
      let* m := m_scrap m in
      match fam_clique with
      | None => m_potentials_to_jtree m vs x l
      | Some c =>
          if Nat.ltb 1 (dimensionality (pp_data p)) then
            let* (x, e) := init_clique x c (pp_child p) (pp_data p) false in
            let* m := m_scrap m in
            if is_err e then Ok None else m_potentials_to_jtree m vs x l
          else
            let* v := rd vs (pp_child p) in
            let* m := MemoryModel.set_prior m (Some v) in
            let* x := store_prior x (pp_child p) (data (pp_data p)) in
            m_potentials_to_jtree m vs x l
      end
  end.

(** The loops over nip_parsed_potentials and nip_interface_relations,
    huginnet.y 1078, 1126 and 1171. *)
Definition use_static {A} (m : memory) (l : option (mlist * A)) : res unit :=
  match l with
  | None => Ok tt
  | Some (ml, _) => use_list m ml
  end.
(** The actions of input, huginnet.y 203-311: the array of the cliques and what
    is in it, and the values as in [input_action]. *)
Definition m_input_action (k1 k2 : list pvar -> list nat -> Z) (m : memory) (G : mgraph) (st : statics) (vars : mlist)
    (vs : list nat) (g : globals) (vl : list pvar) (ps : list parsed_potential)
  : res (option (memory * nat * list (option nat) * list pvar * model * globals)) :=
  let* _ := use_list m vars in
  let* _ := use_static m (st_potentials st) in
  let* r := m_vars_to_graph m G (seq 0 (len vl)) in
  match r with
  | None => Ok None
  | Some (m, G) =>
      let g0 := mg G in
      let* r := m_potentials_to_graph m G vs ps in
      let* r' := potentials_to_graph g0 vl ps in
      match r, r' with
      | Some (m, G), Some (_, vl) =>
          let* _ := use_list m vars in
          let* _ := use_static m (st_relations st) in
          let* _ := use_all m (match st_relations st with Some (_, texts) => texts | None => [] end) in
          let* r := interface_to_vars (g_relations g) vl in
          match r with
          | None => Ok None
          | Some vl =>
              let* m := m_free_relations m (st_relations st) in
              let iface v := match nth_error vl v with Some x => pv_iface x | None => 0 end in
              let* (m, array, ptrs, jt, _) :=
                m_graph_to_cliques (k1 vl) (k2 vl) (cardp vl) iface (nth_error vs) m G in
              let* m := m_free_graph m G in
              let* _ := use_static m (st_potentials st) in
              let* r := m_potentials_to_jtree m vs (mkModel (map vrec_of vl) jt [] [] [] [] 0 0) ps in
              match r with
              | None => Ok None
              | Some (m, x) =>
                  let* m := m_free_potentials m (st_potentials st) in
                  Ok (Some (m, array, ptrs, vl, x,
                    mkGlobals (g_counter g) (g_label g) (Live vl)
                      (match g_relations g with Null => Null | _ => Freed end) Freed))
              end
          end
      | _, _ => Ok None
      end
  end.

(** nip.c 168-177: a variable without parents and prior gets one. *)
Definition m_give_prior (m : memory) (v : nat) : res memory :=
  let* parents := ptr m (Some v) V_parents in
  let* prior := ptr m (Some v) V_prior in
  match parents, prior with
  | None, None => MemoryModel.set_prior m (Some v)
  | _, _ => Ok m
  end.
Fixpoint m_give_priors (m : memory) (vs : list nat) : res memory :=
  match vs with
  | [] => Ok m
  | v :: vs => let* m := m_give_prior m v in m_give_priors m vs
  end.

(** The sizes of the arrays of the model, counted in nip.c 150-200. *)
Definition count_if (f : pvar -> bool) (vl : list pvar) : nat := len (filter f vl).
Definition sizes_of (vl : list pvar) : sizes :=
  mkSizes (count_if (fun v => match pv_next v with Some _ => true | None => false end) vl)
          (count_if (fun v => if_outgoing (pv_iface v)) vl)
          (count_if (fun v => Nat.testbit (pv_iface v) 0 (* NIP_INTERFACE_INCOMING *)) vl)
          (count_if (fun v => match pv_parents v with [] => false | _ => true end) vl).
(** parse_model, nip.c 118-291.  The struct of the model and its arrays are
    allocated at the end ([new_model] of MemoryModel.v).  That includes the
    array of the cliques, since the one of nip_graph_to_cliques has no contents
    in MemoryModel3.v: it is freed in exchange. *)
Definition m_parse_model (k1 k2 : list pvar -> list nat -> Z) (g : globals) (s : source)
  : res (option (memory * option nat * list named_variable * model * globals)) :=
  let* r := m_nodes [] no_statics [] g (s_nodes s) in
  match r with
  | None => Ok None
  | Some (m, st, vs, g) =>
      match g_parsed g, st_vars st with
      | Live vl, Some vars =>
          let '(m, G) := m_new_graph m (new_graph (len vl)) in (* huginnet.y 314 *)
          let* r := m_potentials m st vl (s_pots s) [] in
          match r with
          | None => Ok None
          | Some (m, st, ps) =>
              let* r := m_input_action k1 k2 m G st vars vs g vl ps in
              match r with
              | None => Ok None
              | Some (m, array, ptrs, vl, x, g) =>
                  let* _ := use_list m vars in
                  let* m := m_drop m vars in
                  let* m := m_give_priors m vs in
                  let* r := finish vl x g in
                  match r with
                  | None => Ok None
                  | Some (names, x, g) =>
                      let* m := free m (Some array) in
                      let* (m, a) := new_model m ptrs (map Some vs) (sizes_of vl) in
                      Ok (Some (m, a, names, x, g))
                  end
              end
          end
      | _, _ => UB
      end
  end.
