(** * Model of reading a NET file after another one that was not read to its end *)
From Coq Require Import String Ascii.
From Verif Require Import Base StringModel VariableModel JoinTreeModel NipModel SeriesFileModel ParseModel NetLexModel NetGrammarModel.
Import ListNotations.
Open Scope nat_scope.
Local Open Scope res_scope.
Local Notation len := List.length.

(** Calls of nip_next_hugin_token, nipparsers.c 526-649, by yylex. *)
Fixpoint read_tokens (k : nat) (x : lexer) : res lexer :=
  match k with
  | O => Ok x
  | S k' => let* (x, _) := next_hugin_token x in read_tokens k' x
  end.

(** close_net_file and open_net_file, huginnet.y 1344-1366: another file; the static
    variables of nip_next_hugin_token (nipparsers.c 528-542) keep what they were. *)
Definition another_file (x : lexer) (contents : list ascii) : lexer :=
  mkLexer contents (x_line x) (x_left x) (x_index x) (x_read x).

(** yylex up to the end of the input, from any state. *)
Definition lex_from (x : lexer) : res (list terminal) :=
  terminals (S (len (x_file x) + x_left x)) x.

(** parse_model, nip.c 118-291, of a file when nip_next_hugin_token is in state [x].
    As [parse_file] of NetGrammarModel.v otherwise. *)
Definition parse_from (k1 k2 : list pvar -> list nat -> Z) (g : globals) (x : lexer)
  : res (option (list named_variable * model * globals * list looks * (Z * Z))) :=
  let* ts := lex_from x in
  let* r := input k1 k2 g ts in
  match r with
  | None => Ok None
  | Some (vl, m, g, ks, size) =>
      let* x := finish vl m g in
      match x with
      | None => Ok None
      | Some (names, m, g) => Ok (Some (names, m, g, ks, size))
      end
  end.

(** parse_model of files one after another, where the generated parser gave up on each
    of the first ones after the given number of tokens. *)
Fixpoint after_files (files : list (list ascii * nat)) (x : lexer) : res lexer :=
  match files with
  | [] => Ok x
  | (contents, k) :: r => let* x := read_tokens k (another_file x contents) in after_files r x
  end.
Definition parse_after (k1 k2 : list pvar -> list nat -> Z) (g : globals) (files : list (list ascii * nat))
    (contents : list ascii) : res (option (list named_variable * model * globals * list looks * (Z * Z))) :=
  let* x := after_files files (start_lexer []) in
  parse_from k1 k2 g (another_file x contents).
