(** * Model of the grammar of NET files with its actions: src/huginnet.y

    The parser that bison generates is represented by functions that read the
    terminals from left to right, one for each nonterminal; the grammar is
    LL(1).  [None] is a parse that fails (syntax error or YYABORT).  As in the
    generated parser an empty rule is taken whatever follows (default
    reductions), so that its action happens before a syntax error is noticed. *)
From Coq Require Import String Ascii.
From Verif Require Import Base StringModel VariableModel JoinTreeModel NipModel ParseModel
  SeriesFileModel NetLexModel.
Import ListNotations.
Open Scope nat_scope.
Local Open Scope res_scope.
Local Notation len := List.length.

(** The characters that are terminals of the grammar, huginnet.y 202-842. *)
Definition ch (n : nat) : terminal := T_char (ascii_of_nat n).
Definition LPAR := ascii_of_nat 40.
Definition RPAR := ascii_of_nat 41.
Definition LBRACE := ascii_of_nat 123.
Definition RBRACE := ascii_of_nat 125.
Definition EQUALS := ascii_of_nat 61.
Definition SEMICOLON := ascii_of_nat 59.
Definition BAR := ascii_of_nat 124.

(** Shifts the character [c], and a row of characters (the generated parser:
    yyparse on the rules of huginnet.y 202-842). *)
Definition expect (c : ascii) (ts : list terminal) : option (list terminal) :=
  match ts with
  | T_char d :: r => if Ascii.eqb c d then Some r else None
  | _ => None
  end.
Fixpoint expect_all (cs : list ascii) (ts : list terminal) : option (list terminal) :=
  match cs with
  | [] => Some ts
  | c :: cs => match expect c ts with Some ts => expect_all cs ts | None => None end
  end.

(** strings and symbols, huginnet.y 749-800 (the actions of symbol are in
    [parent_list] of ParseModel.v). *)
Fixpoint strings (ts : list terminal) : list string * list terminal :=
  match ts with
  | T_quoted s :: r => let '(l, r) := strings r in (string_of_list_ascii s :: l, r)
  | _ => ([], ts)
  end.
Fixpoint symbol_list (ts : list terminal) : list string * list terminal :=
  match ts with
  | T_unquoted s :: r => let '(l, r) := symbol_list r in (string_of_list_ascii s :: l, r)
  | _ => ([], ts)
  end.

(** numbers and ignored_numbers, huginnet.y 795-827; [depth] is the number of
    open parentheses. *)
Fixpoint numbers (depth : nat) (ts : list terminal) : option (list number * list terminal) :=
  match ts with
  | T_number x :: r =>
      match numbers depth r with Some (l, r) => Some (x :: l, r) | None => None end
  | T_char c :: r =>
      if Ascii.eqb c LPAR then numbers (S depth) r
      else if Ascii.eqb c RPAR then
        match depth with O => Some ([], ts) | S depth => numbers depth r end
      else match depth with O => Some ([], ts) | S _ => None end
  | _ => match depth with O => Some ([], ts) | S _ => None end
  end.

(** [(int)x] and [abs], huginnet.y 568-576: undefined outside of the ints. *)
Definition int_of (x : number) : res Z :=
  match x with
  | NonFinite => UB
  | Finite q =>
      let z := Z.quot (QArith_base.Qnum (this q)) (Zpos (QArith_base.Qden (this q))) in
      if ((Z.abs z <=? INT_MAX)%Z)%bool then Ok (Z.abs z) else UB
  end.

(** The numbers of a table.  Infinite ones and NaN are not represented in the
    model, which makes no statement about them. *)
Fixpoint finite (l : list number) : res (list Qc) :=
  match l with
  | [] => Ok []
  | Finite q :: l => let* l := finite l in Ok (q :: l)
  | NonFinite :: _ => UB
  end.

(** The declarations inside a node or net block, huginnet.y 505-583. *)
Inductive field :=
| F_unknown
| F_states (l : list string)
| F_label (s : string)
| F_next (s : string)
| F_position (x y : Z)
| F_size (x y : Z).

(** [= ( NUMBER NUMBER ) ;] of positionDeclaration and nodeSizeDeclaration. *)
Definition two_numbers (ts : list terminal) : res (option (Z * Z * list terminal)) :=
  match expect_all [EQUALS; LPAR] ts with
  | Some (T_number x :: T_number y :: r) =>
      match expect_all [RPAR; SEMICOLON] r with
      | Some r =>
          let* x := int_of x in
          let* y := int_of y in
          Ok (Some (x, y, r))
      | None => Ok None
      end
  | _ => Ok None
  end.

(** [= QUOTED_STRING ;] of labelDeclaration and persistenceDeclaration. *)
Definition one_string (ts : list terminal) : option (string * list terminal) :=
  match expect EQUALS ts with
  | Some (T_quoted s :: r) =>
      match expect SEMICOLON r with
      | Some r => Some (string_of_list_ascii s, r)
      | None => None
      end
  | _ => None
  end.

(** statesDeclaration, huginnet.y 545-564: the list of [states = ();] is NULL
    and dereferenced. *)
Definition states_declaration (ts : list terminal) : res (option (list string * list terminal)) :=
  match expect_all [EQUALS; LPAR] ts with
  | Some r =>
      let '(l, r) := strings r in
      match expect_all [RPAR; SEMICOLON] r with
      | Some r => match l with [] => UB | _ => Ok (Some (l, r)) end
      | None => Ok None
      end
  | None => Ok None
  end.

(** unknownDeclaration and value, huginnet.y 580-582 and 824-826. *)
Definition unknown_declaration (ts : list terminal) : option (list terminal) :=
  match expect EQUALS ts with
  | Some (T_quoted _ :: r) => expect SEMICOLON r
  | Some r =>
      match numbers 0 r with
      | Some (_, r) => expect SEMICOLON r
      | None => None
      end
  | None => None
  end.

(** node_params and ignored_params, huginnet.y 508-527: the declarations in the
    order of the text. *)
Fixpoint node_params (fuel : nat) (ts : list terminal) : res (option (list field * list terminal)) :=
  match fuel with
  | O => NoFuel
  | S fuel' =>
      let more (x : field) (r : list terminal) :=
        let* r := node_params fuel' r in
        match r with Some (l, r) => Ok (Some (x :: l, r)) | None => Ok None end in
      match ts with
      | T_unquoted _ :: r =>
          match unknown_declaration r with
          | Some r => more F_unknown r
          | None => Ok None
          end
      | T_key K_states :: r =>
          let* x := states_declaration r in
          match x with Some (l, r) => more (F_states l) r | None => Ok None end
      | T_key K_label :: r =>
          match one_string r with Some (s, r) => more (F_label s) r | None => Ok None end
      | T_key K_persistence :: r =>
          match one_string r with Some (s, r) => more (F_next s) r | None => Ok None end
      | T_key K_position :: r =>
          let* x := two_numbers r in
          match x with Some (x, y, r) => more (F_position x y) r | None => Ok None end
      | _ => Ok (Some ([], ts))
      end
  end.

(** parameters, huginnet.y 534-538. *)
Fixpoint parameters (fuel : nat) (ts : list terminal) : res (option (list field * list terminal)) :=
  match fuel with
  | O => NoFuel
  | S fuel' =>
      let more (x : field) (r : list terminal) :=
        let* r := parameters fuel' r in
        match r with Some (l, r) => Ok (Some (x :: l, r)) | None => Ok None end in
      match ts with
      | T_unquoted _ :: r =>
          match unknown_declaration r with
          | Some r => more F_unknown r
          | None => Ok None
          end
      | T_key K_node_size :: r =>
          let* x := two_numbers r in
          match x with Some (x, y, r) => more (F_size x y) r | None => Ok None end
      | _ => Ok (Some ([], ts))
      end
  end.

(** What the declarations of a node say.  The actions of label and NIP_next
    happen when the list is complete, from the last to the first, so that the
    first one counts; those of states, position and node_size at once, so that
    the last one counts. *)
Fixpoint first_some {A B} (f : A -> option B) (l : list A) : option B :=
  match l with
  | [] => None
  | x :: l => match f x with Some y => Some y | None => first_some f l end
  end.
Definition label_in (l : list field) : option string :=
  first_some (fun x => match x with F_label s => Some s | _ => None end) l.
Definition next_of (l : list field) : option string :=
  first_some (fun x => match x with F_next s => Some s | _ => None end) l.
Definition states_in (l : list field) : option (list string) :=
  first_some (fun x => match x with F_states s => Some s | _ => None end) (rev l).
Definition position_in (l : list field) : option (Z * Z) :=
  first_some (fun x => match x with F_position x y => Some (x, y) | _ => None end) (rev l).
Definition size_in (l : list field) : option (Z * Z) :=
  first_some (fun x => match x with F_size x y => Some (x, y) | _ => None end) (rev l).

(** [{ node_params }] *)
Definition braced_params (ts : list terminal) : res (option (list field * list terminal)) :=
  match expect LBRACE ts with
  | Some r =>
      let* x := node_params (S (len r)) r in
      match x with
      | Some (l, r) =>
          match expect RBRACE r with Some r => Ok (Some (l, r)) | None => Ok None end
      | None => Ok None
      end
  | None => Ok None
  end.

(** Does a terminal start a nodeDeclaration? *)
Definition starts_node (ts : list terminal) : bool :=
  match ts with
  | T_key K_node :: _ | T_key K_discrete :: _ | T_key K_continuous :: _
  | T_key K_utility :: _ | T_key K_decision :: _ => true
  | _ => false
  end.

(** nodeDeclaration, huginnet.y 324-505.  The first component of the result
    tells the position and the label that nip_new_variable gets (it is freed,
    line 384; what nip_set_variable_text keeps of it is in WriteModel.v).
    Continuous, utility and decision nodes end the parse after freeing the
    label, which is undefined if it was freed before. *)
Record looks := mkLooks { k_label : option string; k_x : Z; k_y : Z }.
Definition looks_of (l : list field) : looks :=
  let '(x, y) := match position_in l with Some p => p | None => (100, 100)%Z end in
  mkLooks (label_in l) x y.
Definition unsupported (g : globals) (ts : list terminal) : res (option (node_decl * looks * list terminal)) :=
  let* x := braced_params ts in
  match x with
  | None => Ok None
  | Some (l, _) =>
      match label_in l, g_label g with
      | None, Freed => UB
      | _, _ => Ok None
      end
  end.
Definition supported (symbol : list ascii) (ts : list terminal)
  : res (option (node_decl * looks * list terminal)) :=
  let* x := braced_params ts in
  match x with
  | None => Ok None
  | Some (l, r) =>
      Ok (Some (mkNode (string_of_list_ascii symbol) (label_in l) (states_in l) (next_of l),
                looks_of l, r))
  end.
Definition node_text (g : globals) (ts : list terminal) : res (option (node_decl * looks * list terminal)) :=
  match ts with
  | T_key K_node :: T_unquoted s :: r => supported s r
  | T_key K_discrete :: T_key K_node :: T_unquoted s :: r => supported s r
  | T_key K_continuous :: T_key K_node :: T_unquoted _ :: r => unsupported g r
  | T_key K_utility :: T_unquoted _ :: r => unsupported g r
  | T_key K_decision :: T_unquoted _ :: r => unsupported g r
  | _ => Ok None
  end.

(** nodes, huginnet.y 314-316. *)
Fixpoint nodes (fuel : nat) (g : globals) (ts : list terminal)
  : res (option (globals * list looks * list terminal)) :=
  match fuel with
  | O => NoFuel
  | S fuel' =>
      if starts_node ts then
        let* x := node_text g ts in
        match x with
        | None => Ok None
        | Some (d, k, r) =>
            let* y := node_declaration g d in
            match y with
            | None => Ok None
            | Some g =>
                let* z := nodes fuel' g r in
                match z with
                | None => Ok None
                | Some (g, ks, r) => Ok (Some (g, k :: ks, r))
                end
            end
        end
      else
        match g_parsed g with
        | Live _ => Ok (Some (g, [], ts))
        | _ => UB (* nip_parsed_vars->length, line 314 *)
        end
  end.

(** dataList, huginnet.y 829-842: the list of [data = ();] is NULL and
    dereferenced. *)
Definition data_list (ts : list terminal) : res (option (list Qc * list terminal)) :=
  match expect_all [EQUALS; LPAR] ts with
  | Some r =>
      match numbers 0 r with
      | Some (l, r) =>
          match expect_all [RPAR; SEMICOLON] r with
          | Some r =>
              match l with
              | [] => UB
              | _ => let* l := finite l in Ok (Some (l, r))
              end
          | None => Ok None
          end
      | None => Ok None
      end
  | None => Ok None
  end.

(** [ ) { dataList } ] or [ ) { } ], huginnet.y 585-744. *)
Definition potential_body (ts : list terminal) : res (option (option (list Qc) * list terminal)) :=
  match expect_all [RPAR; LBRACE] ts with
  | Some (T_key K_data :: r) =>
      let* x := data_list r in
      match x with
      | Some (l, r) =>
          match expect RBRACE r with Some r => Ok (Some (Some l, r)) | None => Ok None end
      | None => Ok None
      end
  | Some r =>
      match expect RBRACE r with Some r => Ok (Some (None, r)) | None => Ok None end
  | None => Ok None
  end.

(** potentialDeclaration, huginnet.y 585-745, after token_potential: what the
    text declares.  The child is looked up when it is read, and an unknown parent
    ends the parse at once. *)
Definition potential_text (vl : list pvar) (ts : list terminal) : res (option (pot_decl * list terminal)) :=
  match expect LPAR ts with
  | Some (T_unquoted child :: r) =>
      let* _ := search_list vl (string_of_list_ascii child) 0 in
      let* x :=
        match expect BAR r with
        | Some r =>
            let '(l, r) := symbol_list r in
            let* p := parent_list vl l [] in
            match p with
            | None => Ok None
            | Some _ => Ok (Some (Some l, r))
            end
        | None => Ok (Some (None, r))
        end in
      match x with
      | None => Ok None
      | Some (parents, r) =>
          let* y := potential_body r in
          match y with
          | None => Ok None
          | Some (dat, r) =>
              Ok (Some (mkDecl (string_of_list_ascii child) parents dat, r))
          end
      end
  | _ => Ok None
  end.

(** potentials, huginnet.y 319-321. *)
Fixpoint potentials (fuel : nat) (vl : list pvar) (ps : pointer (list parsed_potential))
    (ts : list terminal) : res (option (pointer (list parsed_potential) * list terminal)) :=
  match fuel with
  | O => NoFuel
  | S fuel' =>
      match ts with
      | T_key K_potential :: r =>
          let* x := potential_text vl r in
          match x with
          | None => Ok None
          | Some (d, r) =>
              let* p := potential_declaration vl d in
              match p with
              | None => Ok None
              | Some p =>
                  let* ps := append_to ps p in
                  potentials fuel' vl ps r
              end
          end
      | _ => Ok (Some (ps, ts))
      end
  end.

(** The size of nodes, huginnet.y 51-52: 80 and 60 if not declared (and not
    declared by an earlier file). *)
Definition node_size (l : list field) : Z * Z :=
  match size_in l with Some p => p | None => (80, 60)%Z end.

(** [nodes potentials] with the actions of input, huginnet.y 202-311; [closing]
    is what follows before the end: a brace in a class. *)
Definition blocks (k1 k2 : list pvar -> list nat -> Z) (g : globals) (closing : list ascii)
    (size : Z * Z) (ts : list terminal)
  : res (option (list pvar * model * globals * list looks * (Z * Z))) :=
  let* x := nodes (S (len ts)) g ts in
  match x with
  | None => Ok None
  | Some (g, ks, r) =>
      match g_parsed g with
      | Live vl =>
          let* y := potentials (S (len r)) vl (g_potentials g) r in
          match y with
          | None => Ok None
          | Some (ps, r) =>
              match expect_all closing r with
              | None => Ok None
              | Some r =>
                  let* z := input_action k1 k2 g vl ps in
                  match z with
                  | None => Ok None
                  | Some (vl, m, g) =>
                      match r with
                      | [] => Ok (Some (vl, m, g, ks, size))
                      | _ => Ok None
                      end
                  end
              end
          end
      | _ => UB
      end
  end.

(** input, huginnet.y 202-311. *)
Definition input (k1 k2 : list pvar -> list nat -> Z) (g : globals) (ts : list terminal)
  : res (option (list pvar * model * globals * list looks * (Z * Z))) :=
  match ts with
  | T_key K_net :: r =>
      match expect LBRACE r with
      | Some r =>
          let* x := parameters (S (len r)) r in
          match x with
          | Some (l, r) =>
              match expect RBRACE r with
              | Some r => blocks k1 k2 g [] (node_size l) r
              | None => Ok None
              end
          | None => Ok None
          end
      | None => Ok None
      end
  | T_key K_class :: T_unquoted _ :: r =>
      match expect LBRACE r with
      | Some r =>
          let* x := parameters (S (len r)) r in
          match x with
          | Some (l, r) => blocks k1 k2 g [RBRACE] (node_size l) r
          | None => Ok None
          end
      | None => Ok None
      end
  | T_key K_class :: _ => Ok None
  | _ => blocks k1 k2 g [] (node_size []) ts
  end.

(** parse_model, nip.c 118-291, of a file: also gives labels and positions of
    the nodes, and node_size_x, node_size_y (line 262). *)
Definition parse_file (k1 k2 : list pvar -> list nat -> Z) (g : globals) (contents : list ascii)
  : res (option (list named_variable * model * globals * list looks * (Z * Z))) :=
  let* ts := lex contents in
  let* r := input k1 k2 g ts in
  match r with
  | None => Ok None
  | Some (vl, m, g, ks, size) =>
      let* x := finish vl m g in
      match x with
      | None => Ok None
      | Some (names, m, g) => Ok (Some (names, m, g, ks, size))
      end
  end.
