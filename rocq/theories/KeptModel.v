(** * Model of what a rejected NET file leaves behind *)
From Coq Require Import String Ascii.
From Verif Require Import Base StringModel VariableModel JoinTreeModel NipModel SeriesFileModel ParseModel NetLexModel NetGrammarModel RereadModel.
Import ListNotations.
Open Scope nat_scope.
Local Open Scope res_scope.
Local Notation len := List.length.

(** The start of a nodeDeclaration, huginnet.y 324 and 392, where it ends in a syntax
    error before the brace: the number of terminals read up to the one that is wrong (the
    generated parser reads one terminal at a time, and calls no action here).  The other
    kinds of nodes (huginnet.y 460-505) are not followed. *)
Definition wrong_at (ts : list terminal) : option nat :=
  let brace (r : list terminal) (j : nat) :=
    match r with
    | T_char c :: _ => if Ascii.eqb c LBRACE then None else Some j
    | _ => Some j
    end in
  match ts with
  | T_key K_node :: T_unquoted _ :: r => brace r 3
  | T_key K_node :: _ => Some 2
  | T_key K_discrete :: T_key K_node :: T_unquoted _ :: r => brace r 4
  | T_key K_discrete :: T_key K_node :: _ => Some 3
  | T_key K_discrete :: _ => Some 2
  | _ => None
  end.

(** yyparse on a file without a net block, huginnet.y 202-505, that is given up at the
    start of a node declaration: the static variables (the nodes before are in
    nip_parsed_vars and stay there, lines 361-363; nothing is freed by parse_model, nip.c
    135-140) and the number of terminals read.  [None] if it is not given up there. *)
Fixpoint nodes_left (fuel : nat) (g : globals) (n : nat) (ts : list terminal) : res (option (globals * nat)) :=
  match fuel with
  | O => NoFuel
  | S fuel' =>
      if starts_node ts then
        match wrong_at ts with
        | Some j => Ok (Some (g, n + j))
        | None =>
            let* x := node_text g ts in
            match x with
            | None => Ok None
            | Some (d, _, r) =>
                let* y := node_declaration g d in
                match y with
                | None => Ok None
                | Some g => nodes_left fuel' g (n + (len ts - len r)) r
                end
            end
        end
      else Ok None
  end.

(** parse_model, nip.c 118-140, of such a file: the static variables of the parser and of
    nip_next_hugin_token afterwards. *)
Definition give_up (g : globals) (contents : list ascii) : res (option (globals * lexer)) :=
  let* ts := lex contents in
  let* r := nodes_left (S (len ts)) g 0 ts in
  match r with
  | None => Ok None
  | Some (g, k) => let* x := after_files [(contents, k)] (start_lexer []) in Ok (Some (g, x))
  end.
