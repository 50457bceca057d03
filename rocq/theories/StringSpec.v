(** * Specification of tokens (for Properties C49 and C50) *)
From Coq Require Import Ascii.
From Verif Require Import Base.
Import ListNotations.
Open Scope nat_scope.

(** The characters are those of a C string: the terminator is not among them,
    and positions are ints. *)
Definition text (s : list ascii) : Prop :=
  ~ In zero s /\ (2 * Z.of_nat (length s) <= INT_MAX)%Z.

(** [l] lists pairs begin, end of non-empty intervals, from left to right and
    without overlaps, between [lo] and [hi]. *)
Inductive intervals (hi : nat) : nat -> list nat -> Prop :=
| no_interval : forall lo, intervals hi lo []
| an_interval : forall lo b e l, lo <= b -> b < e -> e <= hi ->
    intervals hi e l -> intervals hi lo (b :: e :: l).

(** The text between two positions. *)
Definition between {A} (s : list A) (b e : nat) : list A := firstn (e - b) (skipn b s).

(** Cutting a text at its delimiters: the pieces between them, in order.
    Delimiters for which [kept] holds are pieces on their own. *)
Fixpoint pieces {A} (delimiter kept : A -> bool) (s : list A) : list (list A) :=
  match s with
  | [] => [[]]
  | c :: t =>
      if delimiter c then
        if kept c then [] :: [c] :: pieces delimiter kept t
        else [] :: pieces delimiter kept t
      else
        match pieces delimiter kept t with
        | p :: ps => (c :: p) :: ps
        | [] => [[c]]
        end
  end.

Definition nonempty {A} (l : list A) : bool := match l with [] => false | _ => true end.

Definition fields (delimiter kept : ascii -> bool) (s : list ascii) : list (list ascii) :=
  filter nonempty (pieces delimiter kept s).

(** White space: space, tabulators, ends of lines and pages. *)
Definition white : list ascii := map ascii_of_nat [32; 9; 10; 11; 12; 13].
Definition end_of_line : ascii := ascii_of_nat 10.

Definition member (c : ascii) (l : list ascii) : bool := existsb (Ascii.eqb c) l.

(** What ends a token: a separator, the end of a line, and white space if
    requested. *)
Definition delimits (separators : list ascii) (wspace : bool) (c : ascii) : bool :=
  (member c separators || Ascii.eqb c end_of_line || (wspace && member c white))%bool.

Definition quote : ascii := ascii_of_nat 34.

(** A text made of tokens, with quoted strings: [lexed separators s l] says
    that [s] is the sequence of tokens [l], where every separator is a token,
    a quoted string with its quotes is a token (here without ends of lines, and
    without separators in it unless a separator or nothing follows), white
    space separates tokens, and a word is a longest sequence of other
    characters. *)
Definition starts_word (separators : list ascii) (s : list ascii) : Prop :=
  match s with
  | [] => False
  | c :: _ => delimits separators true c = false /\ c <> quote
  end.

Definition at_separator (separators : list ascii) (s : list ascii) : Prop :=
  match s with
  | [] => True
  | c :: _ => member c separators = true
  end.

Inductive lexed (separators : list ascii) : list ascii -> list (list ascii) -> Prop :=
| lexed_end : lexed separators [] []
| lexed_white : forall c s l, member c white = true -> member c separators = false ->
    lexed separators s l -> lexed separators (c :: s) l
| lexed_separator : forall c s l, member c separators = true ->
    lexed separators s l -> lexed separators (c :: s) ([c] :: l)
| lexed_quoted : forall body s l,
    Forall (fun c => c <> quote /\ c <> end_of_line) body ->
    Forall (fun c => member c separators = false) body \/ at_separator separators s ->
    member quote separators = false ->
    lexed separators s l ->
    lexed separators (quote :: body ++ quote :: s) ((quote :: body ++ [quote]) :: l)
| lexed_word : forall w s l, w <> [] ->
    Forall (fun c => delimits separators true c = false /\ c <> quote) w ->
    ~ starts_word separators s ->
    lexed separators s l -> lexed separators (w ++ s) (w :: l).
