(** * Specification of NET files as texts (for Properties C69-C71) *)
From Coq Require Import String Ascii QArith.QArith QArith.Qcanon QArith.Qabs.
From Verif Require Import Base StringSpec ParseModel NetLexModel NetGrammarModel.
Import ListNotations.
Open Scope nat_scope.
Local Notation chars := list_ascii_of_string.

(** ** Lines

    Tokens are separators, quoted strings (without separators in them, see
    C66) and words; white space separates, a token that would start with a
    percent sign starts a comment, which extends to the end of the line. *)
Definition net_separators : list ascii := chars "(){}=,;".
Definition percent : ascii := ascii_of_nat 37.
Definition word_char (c : ascii) : Prop := delimits net_separators true c = false /\ c <> quote.
Definition starts_with_word_char (s : list ascii) : Prop :=
  match s with [] => False | c :: _ => word_char c end.
Inductive net_line : list ascii -> list (list ascii) -> Prop :=
| line_end : net_line [] []
| line_comment : forall s, net_line (percent :: s) []
| line_white : forall c s l, member c white = true -> net_line s l -> net_line (c :: s) l
| line_separator : forall c s l, member c net_separators = true -> net_line s l -> net_line (c :: s) ([c] :: l)
| line_quoted : forall body s l,
    Forall (fun c => c <> quote /\ member c net_separators = false) body ->
    net_line s l -> net_line (quote :: body ++ quote :: s) ((quote :: body ++ [quote]) :: l)
| line_word : forall c w s l, c <> percent -> word_char c -> Forall word_char w ->
    ~ starts_with_word_char s -> net_line s l -> net_line ((c :: w) ++ s) ((c :: w) :: l).

(** A file: lines of less than 9999 characters. *)
Definition line_ok (line : list ascii) (toks : list (list ascii)) : Prop :=
  ~ In end_of_line line /\ ~ In zero line /\ length line < Z.to_nat 9999 /\ net_line line toks.
Inductive text_tokens : list ascii -> list (list ascii) -> Prop :=
| text_empty : text_tokens [] []
| text_last : forall line toks, line <> [] -> line_ok line toks -> text_tokens line toks
| text_line : forall line toks rest more, line_ok line toks -> text_tokens rest more ->
    text_tokens (line ++ end_of_line :: rest) (toks ++ more).

(** ** What a token is *)
Definition keyword_text (k : keyword) : string :=
  match k with
  | K_net => "net" | K_class => "class" | K_node_size => "node_size" | K_data => "data"
  | K_utility => "utility" | K_decision => "decision" | K_discrete => "discrete"
  | K_continuous => "continuous" | K_node => "node" | K_label => "label"
  | K_position => "position" | K_states => "states" | K_persistence => "NIP_next"
  | K_potential => "potential" | K_normal => "normal"
  end%string.

(** Decimal numerals: an optional sign, digits with an optional point, an
    optional exponent. *)
Definition digit (d : nat) : ascii := ascii_of_nat (48 + d).
Definition digits (l : list nat) : list ascii := map digit l.
Definition decimal (l : list nat) : Z := fold_left (fun a d => 10 * a + Z.of_nat d)%Z l 0%Z.
Definition sign_text (neg : bool) (s : list ascii) : Prop :=
  if neg then s = chars "-" else s = [] \/ s = chars "+".
Definition signed (neg : bool) (z : Z) : Z := if neg then (- z)%Z else z.
Definition power_of_ten (e : Z) : Qc := Q2Qc (QArith_base.Qpower (QArith_base.inject_Z 10) e).
Inductive exponent_text : list ascii -> Z -> Prop :=
| no_exponent : exponent_text [] 0%Z
| exponent : forall e neg sg ds, (e = chars "e" \/ e = chars "E") -> sign_text neg sg ->
    ds <> [] -> Forall (fun d => d < 10) ds ->
    exponent_text (e ++ sg ++ digits ds) (signed neg (decimal ds)).
Inductive numeral : list ascii -> Qc -> Prop :=
| numeral_of : forall neg sg ip fp point ex e,
    sign_text neg sg -> Forall (fun d => d < 10) (ip ++ fp) -> ip ++ fp <> [] ->
    (point = chars "." \/ (point = [] /\ fp = [])) -> exponent_text ex e ->
    numeral (sg ++ digits ip ++ point ++ digits fp ++ ex)
      (Q2Qc (QArith_base.inject_Z (signed neg (decimal (ip ++ fp))))
       * power_of_ten (e - Z.of_nat (length fp)))%Qc.

(** Symbols: not a keyword and nothing that starts like a number, which is
    the case after a digit, a sign, a point, and if the text starts with inf
    or nan in small or capital letters; a single character is a letter. *)
Definition letter (c : ascii) : bool :=
  let n := nat_of_ascii c in ((Nat.leb 65 n && Nat.leb n 90) || (Nat.leb 97 n && Nat.leb n 122))%bool.
Definition lower (c : ascii) : ascii :=
  let n := nat_of_ascii c in if (Nat.leb 65 n && Nat.leb n 90)%bool then ascii_of_nat (n + 32) else c.
Definition like_number (s : list ascii) : bool :=
  match s with
  | c :: _ => member c (chars "0123456789+-.") ||
      (if list_eq_dec ascii_dec (map lower (firstn 3 s)) (chars "inf") then true else false) ||
      (if list_eq_dec ascii_dec (map lower (firstn 3 s)) (chars "nan") then true else false)
  | [] => false
  end%bool.
Definition symbol_ok (s : list ascii) : Prop :=
  s <> [] /\ Forall word_char s /\ like_number s = false /\
  (forall k, s <> chars (keyword_text k)) /\
  (forall c, s = [c] -> letter c = true).

(** The terminal that a token means. *)
Inductive reads_as : list ascii -> terminal -> Prop :=
| reads_key : forall k, reads_as (chars (keyword_text k)) (T_key k)
| reads_char : forall c, In c (chars "(){}=,;|") -> reads_as [c] (T_char c)
| reads_quoted : forall s, reads_as (quote :: s ++ [quote]) (T_quoted s)
| reads_symbol : forall s, symbol_ok s -> reads_as s (T_unquoted s)
| reads_number : forall s q, numeral s q -> reads_as s (T_number (Finite q)).

(** ** The grammar *)
Definition mark (c : ascii) : list terminal := [T_char c].
Definition marks (s : string) : list terminal := map T_char (chars s).
Definition texts (l : list string) : list terminal := map (fun s => T_quoted (chars s)) l.
Definition names (l : list string) : list terminal := map (fun s => T_unquoted (chars s)) l.

(** Numbers in any nesting of parentheses. *)
Inductive nested : list number -> list terminal -> Prop :=
| nested_end : nested [] []
| nested_number : forall x l ts, nested l ts -> nested (x :: l) (T_number x :: ts)
| nested_group : forall l1 l2 t1 t2, nested l1 t1 -> nested l2 t2 ->
    nested (l1 ++ l2) (marks "(" ++ t1 ++ marks ")" ++ t2).

(** The integer part of the absolute value of a number. *)
Definition whole (x : number) (n : Z) : Prop :=
  exists q, x = Finite q /\ (0 <= n <= INT_MAX)%Z /\
  (inject_Z n <= Qabs.Qabs (this q))%Q /\ (Qabs.Qabs (this q) < inject_Z (n + 1))%Q.

Inductive value_text : list terminal -> Prop :=
| value_string : forall s, value_text [T_quoted s]
| value_numbers : forall l ts, nested l ts -> value_text ts.

(** One declaration in the block of a node or of the net. *)
Inductive field_text : field -> list terminal -> Prop :=
| text_states : forall l, l <> [] ->
    field_text (F_states l) ([T_key K_states] ++ marks "=(" ++ texts l ++ marks ");")
| text_label : forall s, field_text (F_label s) ([T_key K_label] ++ marks "=" ++ texts [s] ++ marks ";")
| text_next : forall s, field_text (F_next s) ([T_key K_persistence] ++ marks "=" ++ texts [s] ++ marks ";")
| text_position : forall a b x y, whole a x -> whole b y ->
    field_text (F_position x y) ([T_key K_position] ++ marks "=(" ++ [T_number a; T_number b] ++ marks ");")
| text_size : forall a b x y, whole a x -> whole b y ->
    field_text (F_size x y) ([T_key K_node_size] ++ marks "=(" ++ [T_number a; T_number b] ++ marks ");")
| text_other : forall s v, value_text v ->
    field_text F_unknown ([T_unquoted s] ++ marks "=" ++ v ++ marks ";").
Definition is_size (x : field) : bool := match x with F_size _ _ => true | _ => false end.
Definition is_other (x : field) : bool := match x with F_unknown => true | _ => false end.
Inductive fields_text (kind : field -> bool) : list field -> list terminal -> Prop :=
| no_fields : fields_text kind [] []
| more_fields : forall x l t ts, kind x = true -> field_text x t -> fields_text kind l ts ->
    fields_text kind (x :: l) (t ++ ts).

(** What the declarations of a node say: of several labels (or NIP_next) the
    first one counts, of several lists of states (or positions) the last one. *)
Definition labels (l : list field) : list string :=
  flat_map (fun x => match x with F_label s => [s] | _ => [] end) l.
Definition nexts (l : list field) : list string :=
  flat_map (fun x => match x with F_next s => [s] | _ => [] end) l.
Definition state_lists (l : list field) : list (list string) :=
  flat_map (fun x => match x with F_states s => [s] | _ => [] end) l.
Definition positions (l : list field) : list (Z * Z) :=
  flat_map (fun x => match x with F_position a b => [(a, b)] | _ => [] end) l.
Definition sizes (l : list field) : list (Z * Z) :=
  flat_map (fun x => match x with F_size a b => [(a, b)] | _ => [] end) l.
Definition last_of {A} (l : list A) : option A := hd_error (rev l).
Definition place (l : list field) : Z * Z :=
  match last_of (positions l) with Some p => p | None => (100, 100)%Z end.

Definition node_start (kind : bool) : list terminal :=
  if kind then [T_key K_discrete; T_key K_node] else [T_key K_node].
Inductive node_in_text : node_decl -> looks -> list terminal -> Prop :=
| node_of : forall kind s l ts, fields_text (fun x => negb (is_size x)) l ts ->
    node_in_text (mkNode s (hd_error (labels l)) (last_of (state_lists l)) (hd_error (nexts l)))
      (mkLooks (hd_error (labels l)) (fst (place l)) (snd (place l)))
      (node_start kind ++ names [s] ++ marks "{" ++ ts ++ marks "}").

Inductive data_in_text : option (list Qc) -> list terminal -> Prop :=
| no_data : data_in_text None []
| some_data : forall l ts, l <> [] -> nested (map Finite l) ts ->
    data_in_text (Some l) ([T_key K_data] ++ marks "=(" ++ ts ++ marks ");").
Definition given_text (l : option (list string)) : list terminal :=
  match l with None => [] | Some l => marks "|" ++ names l end.
Inductive potential_in_text : pot_decl -> list terminal -> Prop :=
| potential_of : forall s l dat ts, data_in_text dat ts ->
    potential_in_text (mkDecl s l dat)
      ([T_key K_potential] ++ marks "(" ++ names [s] ++ given_text l ++ marks "){" ++ ts ++ marks "}").

Inductive nodes_in_text : list node_decl -> list looks -> list terminal -> Prop :=
| no_nodes_text : nodes_in_text [] [] []
| more_nodes_text : forall d k t ds ks ts, node_in_text d k t -> nodes_in_text ds ks ts ->
    nodes_in_text (d :: ds) (k :: ks) (t ++ ts).
Inductive potentials_in_text : list pot_decl -> list terminal -> Prop :=
| no_potentials_text : potentials_in_text [] []
| more_potentials_text : forall d t ds ts, potential_in_text d t -> potentials_in_text ds ts ->
    potentials_in_text (d :: ds) (t ++ ts).

(** A file: an optional net block, or the old form of a class, around node
    declarations followed by potential declarations. *)
Definition size_of (l : list field) : Z * Z :=
  match last_of (sizes l) with Some p => p | None => (80, 60)%Z end.
Inductive document : net -> list looks -> Z * Z -> list terminal -> Prop :=
| plain_document : forall ds ks ps t1 t2, nodes_in_text ds ks t1 -> potentials_in_text ps t2 ->
    document (mkNet ds ps) ks (80, 60)%Z (t1 ++ t2)
| net_document : forall l t0 ds ks ps t1 t2, fields_text (fun x => is_size x || is_other x)%bool l t0 ->
    nodes_in_text ds ks t1 -> potentials_in_text ps t2 ->
    document (mkNet ds ps) ks (size_of l)
      ([T_key K_net] ++ marks "{" ++ t0 ++ marks "}" ++ t1 ++ t2)
| class_document : forall s l t0 ds ks ps t1 t2, fields_text (fun x => is_size x || is_other x)%bool l t0 ->
    nodes_in_text ds ks t1 -> potentials_in_text ps t2 ->
    document (mkNet ds ps) ks (size_of l)
      ([T_key K_class] ++ names [s] ++ marks "{" ++ t0 ++ t1 ++ t2 ++ marks "}").

(** ** Identifiers *)
Definition underscore : ascii := ascii_of_nat 95.
Definition digit_char (c : ascii) : bool := member c (chars "0123456789").
Definition identifier (s : list ascii) : Prop :=
  match s with
  | c :: w => (letter c = true \/ c = underscore) /\
      Forall (fun x => letter x = true \/ digit_char x = true \/ x = underscore) w
  | [] => False
  end.
(** The identifiers that cannot be symbols: keywords, those that start with
    inf or nan in small or capital letters, and the underscore. *)
Definition reserved (s : list ascii) : Prop :=
  (exists k, s = chars (keyword_text k)) \/
  map lower (firstn 3 s) = chars "inf" \/ map lower (firstn 3 s) = chars "nan" \/
  s = [underscore].
(** A file with one variable of two states and the symbol [s]. *)
Definition one_node (s : list ascii) : list (list ascii) :=
  (map chars ["node"%string] ++ [s] ++
   map chars ["{"; "states"; "="; "("; """a"""; """b"""; ")"; ";"; "}"; "potential"; "("]%string ++ [s] ++
   map chars [")"; "{"; "}"]%string)%list.
(** The words a file with nodes starts with. *)
Definition opening : list (list ascii) :=
  map chars ["net"; "class"; "node"; "discrete"; "continuous"; "utility"; "decision"]%string.
