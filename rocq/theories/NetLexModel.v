(** * Model of the lexical analysis of NET files: nip_next_hugin_token of
      src/nipparsers.c and yylex of src/huginnet.y

    A file is the list of its characters.  Allocations succeed. *)
From Coq Require Import String Ascii.
From Verif Require Import Base StringModel SeriesFileModel.
Import ListNotations.
Open Scope nat_scope.
Local Open Scope res_scope.
Local Notation len := List.length.

(** The separators, nipparsers.c 588 and 601, and NIP_COMMENT_CHAR,
    nipparsers.h 35. *)
Definition SEPARATORS : list ascii := str "(){}=,;".
Definition COMMENT : ascii := ascii_of_nat 37.

(** The static variables of nip_next_hugin_token, nipparsers.c 529-543, and the
    position in the file: last_line, tokens_left, the indices from
    indexarray onwards, nip_read_line. *)
Record lexer := mkLexer {
  x_file : list ascii;
  x_line : list ascii;
  x_left : nat;
  x_index : list nat;
  x_read : bool
}.
Definition start_lexer (contents : list ascii) : lexer := mkLexer contents [] 0 [] true.

(** nip_next_hugin_token, nipparsers.c 572-613: reads lines until one has
    tokens and does not start with a comment.  [None]: the function returns
    NULL. *)
Fixpoint read_lines (fuel : nat) (f : list ascii) : res (option lexer * list ascii) :=
  match fuel with
  | O => NoFuel
  | S fuel' =>
      match fgets f with
      | None => Ok (None, [])
      | Some (last_line, f) =>
          let* (tokens_left, _) := count_tokens last_line true (Some SEPARATORS) 7 true true in
          if Nat.ltb 0 tokens_left then
            let* (bounds, _) :=
              tokenise (Some last_line) (Z.of_nat tokens_left) true (Some SEPARATORS) 7 true true in
            match bounds with
            | None => Ok (None, f)
            | Some bounds =>
                let* b := rd bounds 0 in
                let* ch := cget last_line b in
                if Ascii.eqb ch COMMENT then read_lines fuel' f
                else Ok (Some (mkLexer f last_line tokens_left bounds false), f)
            end
          else read_lines fuel' f
      end
  end.

(** nip_next_hugin_token, nipparsers.c 526-649: the token ([None]: NULL,
    [*token_length] is 0). *)
Definition next_hugin_token (x : lexer) : res (lexer * option (list ascii)) :=
  let* (r, f) :=
    if x_read x then read_lines (S (len (x_file x))) (x_file x)
    else Ok (Some x, x_file x) in
  match r with
  | None => Ok (mkLexer f (x_line x) (x_left x) [] true, None)
  | Some x =>
      let* token := word (x_line x) (x_index x) 0 in
      let index := skipn 2 (x_index x) in
      let left := x_left x - 1 in
      let* read :=
        if Nat.eqb left 0 then Ok true
        else
          let* b := rd index 0 in
          let* ch := cget (x_line x) b in
          Ok (Ascii.eqb ch COMMENT) in
      Ok (mkLexer (x_file x) (x_line x) left index read, Some token)
  end.

(** isalpha and isdigit of <ctype.h> in the C locale, huginnet.y 884 and 892. *)
Definition in_range (lo hi : nat) (c : ascii) : bool :=
  (Nat.leb lo (nat_of_ascii c) && Nat.leb (nat_of_ascii c) hi)%bool.
Definition isalpha (c : ascii) : bool := (in_range 65 90 c || in_range 97 122 c)%bool.
Definition isdigit (c : ascii) : bool := in_range 48 57 c.

(** A value of strtod: finite, or infinite or not a number. *)
Inductive number := Finite (q : Qc) | NonFinite.

(** The value of a digit. *)
Definition digit_value (base : nat) (c : ascii) : option nat :=
  let n := nat_of_ascii c in
  if isdigit c then Some (n - 48)
  else if Nat.eqb base 16 then
    if in_range 97 102 c then Some (n - 87)
    else if in_range 65 70 c then Some (n - 55)
    else None
  else None.

(** A sequence of digits: the number after the digits before it ([acc]), how
    many, and the rest. *)
Fixpoint read_digits (base : nat) (s : list ascii) (acc : Z) (n : nat) : Z * nat * list ascii :=
  match s with
  | c :: t =>
      match digit_value base c with
      | Some d => read_digits base t (acc * Z.of_nat base + Z.of_nat d) (S n)
      | None => (acc, n, s)
      end
  | [] => (acc, n, s)
  end.

(** An optional sign: true for a minus. *)
Definition read_sign (s : list ascii) : bool * list ascii :=
  match s with
  | c :: t =>
      if Ascii.eqb c (ascii_of_nat 45) then (true, t)
      else if Ascii.eqb c (ascii_of_nat 43) then (false, t)
      else (false, s)
  | [] => (false, s)
  end.

(** An optional exponent after the letter [mark] (or its capital). *)
Definition read_exponent (mark : nat) (s : list ascii) : Z :=
  match s with
  | c :: t =>
      if (Nat.eqb (nat_of_ascii c) mark || Nat.eqb (nat_of_ascii c) (mark - 32))%bool then
        let '(neg, t) := read_sign t in
        let '(e, n, _) := read_digits 10 t 0 0 in
        if Nat.eqb n 0 then 0%Z else if neg then (- e)%Z else e
      else 0%Z
  | [] => 0%Z
  end.

(** The letters of [p] in any case. *)
Fixpoint prefix_nocase (p s : list ascii) : bool :=
  match p, s with
  | [], _ => true
  | a :: p, b :: s =>
      (Nat.eqb (nat_of_ascii b) (nat_of_ascii a)
       || Nat.eqb (nat_of_ascii b) (nat_of_ascii a - 32))%bool && prefix_nocase p s
  | _, [] => false
  end%bool.

(** [m * base^e]. *)
Definition scale (m : Z) (base : Z) (e : Z) : Qc :=
  if (0 <=? e)%Z then Q2Qc (QArith_base.inject_Z (m * base ^ e))
  else (Q2Qc (QArith_base.inject_Z m) / Q2Qc (QArith_base.inject_Z (base ^ (- e))))%Qc.

(** Digits with an optional point, then an exponent.  [None]: no digits. *)
Definition read_real (base : nat) (mark : nat) (ebase : Z) (per_digit : Z) (s : list ascii)
  : option Qc :=
  let '(m, n1, s) := read_digits base s 0 0 in
  let '(m, n2, s) :=
    match s with
    | c :: t =>
        if Ascii.eqb c (ascii_of_nat 46) then read_digits base t m 0 else (m, 0, s)
    | [] => (m, 0, s)
    end in
  if Nat.eqb (n1 + n2) 0 then None
  else Some (scale m ebase (read_exponent mark s - per_digit * Z.of_nat n2)).

(** strtod of <stdlib.h>, for values without rounding and overflow; [None]: no
    conversion. *)
Fixpoint skip_space (s : list ascii) : list ascii :=
  match s with
  | c :: t => if isspace c then skip_space t else s
  | [] => []
  end.
Definition negated (neg : bool) (q : Qc) : Qc := if neg then (- q)%Qc else q.
Definition strtod (s : list ascii) : option number :=
  let '(neg, s) := read_sign (skip_space s) in
  if (prefix_nocase (str "inf") s || prefix_nocase (str "nan") s)%bool then Some NonFinite
  else
    let hex :=
      match s with
      | z :: x :: t =>
          if (Ascii.eqb z (ascii_of_nat 48)
              && (Ascii.eqb x (ascii_of_nat 120) || Ascii.eqb x (ascii_of_nat 88)))%bool
          then read_real 16 112 2 4 t else None
      | _ => None
      end in
    match hex with
    | Some q => Some (Finite (negated neg q))
    | None => option_map (fun q => Finite (negated neg q)) (read_real 10 101 10 1 s)
    end.

(** The terminals, huginnet.y 176-193.  [T_char] is a single character, [T_end]
    the end of the input. *)
Inductive keyword :=
| K_net | K_class | K_node_size | K_data | K_utility | K_decision | K_discrete | K_continuous
| K_node | K_label | K_position | K_states | K_persistence | K_potential | K_normal.
Inductive terminal :=
| T_key (k : keyword)
| T_quoted (s : list ascii)
| T_unquoted (s : list ascii)
| T_number (x : number)
| T_char (c : ascii)
| T_end.

(** The literal tokens in the order in which yylex looks for them, huginnet.y
    909-991. *)
Definition keywords : list (string * keyword) :=
  [("net", K_net); ("node", K_node); ("data", K_data); ("label", K_label); ("class", K_class);
   ("states", K_states); ("normal", K_normal); ("utility", K_utility);
   ("position", K_position); ("decision", K_decision); ("discrete", K_discrete);
   ("NIP_next", K_persistence); ("node_size", K_node_size); ("potential", K_potential);
   ("continuous", K_continuous)]%string.
Definition find_keyword (token : list ascii) : option keyword :=
  option_map snd (find (fun k => ascii_list_eqb (str (fst k)) token) keywords).

(** yylex, huginnet.y 853-1050: what a token is.  A single character above 127
    is a negative number as a (signed) char, which the generated parser takes
    for the end of the input. *)
Definition classify_token (token : list ascii) : terminal :=
  match token with
  | [] => T_end
  | [c] =>
      if isalpha c then T_unquoted [c]
      else if isdigit c then
        match strtod [c] with Some x => T_number x | None => T_number (Finite 0) end
      else if Nat.leb 128 (nat_of_ascii c) then T_end
      else T_char c
  | c :: t =>
      match find_keyword token with
      | Some k => T_key k
      | None =>
          if (Ascii.eqb c QUOTE && Ascii.eqb (last t NUL) QUOTE)%bool
          then T_quoted (removelast t)
          else
            match strtod token with
            | Some x => T_number x
            | None => T_unquoted token
            end
      end
  end.
Definition yylex (x : lexer) : res (lexer * terminal) :=
  let* (x, token) := next_hugin_token x in
  Ok (x, match token with None => T_end | Some token => classify_token token end).

(** The terminals up to the end of the input.  (The generated parser asks for
    them one at a time; as no call fails the order makes no difference.) *)
Fixpoint terminals (fuel : nat) (x : lexer) : res (list terminal) :=
  match fuel with
  | O => NoFuel
  | S fuel' =>
      let* (x, t) := yylex x in
      match t with
      | T_end => Ok []
      | _ => let* l := terminals fuel' x in Ok (t :: l)
      end
  end.
Definition lex (contents : list ascii) : res (list terminal) :=
  terminals (S (len contents)) (start_lexer contents).
