(** * Model of the size of nodes in files read one after another *)
From Coq Require Import String Ascii.
From Verif Require Import Base StringModel VariableModel JoinTreeModel NipModel SeriesFileModel ParseModel NetLexModel NetGrammarModel.
Import ListNotations.
Open Scope nat_scope.
Local Open Scope res_scope.
Local Notation len := List.length.

(** parameters and nodeSizeDeclaration, huginnet.y 535-537 and 575-577: the static
    variables nip_node_size_x and nip_node_size_y after the declarations that are read, up
    to their end or to the first one that is wrong.  The generated parser runs the action
    as soon as the declaration is complete.  [s]: what they were before. *)
Fixpoint sizes_read (fuel : nat) (s : Z * Z) (ts : list terminal) : res (Z * Z) :=
  match fuel with
  | O => NoFuel
  | S fuel' =>
      match ts with
      | T_unquoted _ :: r =>
          match unknown_declaration r with
          | Some r => sizes_read fuel' s r
          | None => Ok s
          end
      | T_key K_node_size :: r =>
          let* x := two_numbers r in
          match x with Some (x, y, r) => sizes_read fuel' (x, y) r | None => Ok s end
      | _ => Ok s
      end
  end.

(** yyparse, huginnet.y 202-311, whether or not it succeeds: these variables afterwards.
    node_size is only read in the net block or at the start of a class. *)
Definition size_after (s : Z * Z) (ts : list terminal) : res (Z * Z) :=
  match ts with
  | T_key K_net :: r | T_key K_class :: T_unquoted _ :: r =>
      match expect LBRACE r with Some r => sizes_read (S (len r)) s r | None => Ok s end
  | _ => Ok s
  end.

(** parse_model, nip.c 118-291, of files one after another: these variables afterwards.
    They start as 80 and 60, huginnet.y 51-52, and nothing sets them back.  Each file is
    taken to be read from its beginning (see C102 for what may be left of a line). *)
Fixpoint size_after_files (s : Z * Z) (files : list (list ascii)) : res (Z * Z) :=
  match files with
  | [] => Ok s
  | f :: r => let* ts := lex f in let* s := size_after s ts in size_after_files s r
  end.

(** parse_model, nip.c 118-291, of a file after others, with [g] the other static variables
    (see C104 and C106 for what the others leave there).  As [parse_file] of
    NetGrammarModel.v, but get_parsed_node_size, nip.c 262 and huginnet.y 1381-1384, gives
    what the static variables are. *)
Definition parse_following (k1 k2 : list pvar -> list nat -> Z) (g : globals) (files : list (list ascii)) (contents : list ascii)
  : res (option (list named_variable * model * globals * list looks * (Z * Z))) :=
  let* s := size_after_files (80, 60)%Z (files ++ [contents])%list in
  let* r := parse_file k1 k2 g contents in
  Ok (match r with None => None | Some (names, m, g, ks, _) => Some (names, m, g, ks, s) end).
