(** * Model of src/nipstring.c

    A C string is a list of characters; reading the position after the last
    one gives the terminator, reading further is undefined. *)
From Coq Require Import Ascii.
From Verif Require Import Base.
Import ListNotations.
Open Scope nat_scope.
Local Open Scope res_scope.

(** The terminator of a C string, the quote and the end of a line. *)
Definition NUL : ascii := zero.
Definition QUOTE : ascii := ascii_of_nat 34.
Definition NEWLINE : ascii := ascii_of_nat 10.

(** [s[i]] for a C string. *)
Definition cget (s : list ascii) (i : nat) : res ascii :=
  match nth_error s i with
  | Some c => Ok c
  | None => if Nat.eqb i (length s) then Ok NUL else UB
  end.

(** isspace of <ctype.h> in the C locale.  (The code passes a plain char; for
    characters above 127 this is a negative number where char is signed, for
    which the standard defines nothing.  The model answers 0 as glibc does.) *)
Definition isspace (c : ascii) : bool :=
  let n := nat_of_ascii c in
  (Nat.eqb n 32 || (Nat.leb 9 n && Nat.leb n 13))%bool.

(** The loop over the separators, nipstring.c 56-61 and 128-133: sets
    [separator_found], never clears it. *)
Definition separator_loop (separators : option (list ascii)) (n_separators : nat)
    (ch : ascii) (separator_found : bool) : res bool :=
  match separators with
  | None => Ok separator_found
  | Some l =>
      let* f := find_up 0 n_separators
                  (fun k => let* x := rd l k in Ok (Ascii.eqb ch x)) in
      Ok (match f with Some _ => true | None => separator_found end)
  end.

(** The inner loop that looks for a second quote, nipstring.c 72-79
    and 152-167: is there a quote at [i] or later? *)
Fixpoint matching_quote (fuel : nat) (s : list ascii) (i : nat) : res bool :=
  match fuel with
  | O => NoFuel
  | S fuel' =>
      let* ch := cget s i in
      if Ascii.eqb ch NUL then Ok false
      else if Ascii.eqb ch QUOTE then Ok true
      else matching_quote fuel' s (S i)
  end.

(** nip_count_tokens, nipstring.c 54-96: the loop.  [i] is the offset of the
    moving pointer [s]; result: tokens and characters. *)
Fixpoint count_loop (fuel : nat) (s : list ascii) (q_strings : bool)
    (separators : option (list ascii)) (n_separators : nat)
    (sep_tokens wspace_sep : bool)
    (i tokens state : nat) (separator_found : bool) (chars : nat)
  : res (nat * nat) :=
  match fuel with
  | O => NoFuel
  | S fuel' =>
      let* ch := cget s i in
      if Ascii.eqb ch NUL then Ok (tokens, chars)
      else
        let* separator_found :=
          separator_loop separators n_separators ch separator_found in
        let* (tokens, state, separator_found) :=
          if (negb (Nat.eqb state 2) && separator_found)%bool then
            Ok ((if sep_tokens then S tokens else tokens), 0, false)
          else if (q_strings && negb (Nat.eqb state 2) && Ascii.eqb ch QUOTE)%bool then
            let* m := matching_quote (S (length s)) s (S i) in
            if (m : bool) then Ok (S tokens, 2, separator_found)
            else Ok (tokens, state, separator_found)
          else if Nat.eqb state 0 then
            if ((wspace_sep && negb (isspace ch))
                || (negb wspace_sep && negb (Ascii.eqb ch NEWLINE)))%bool
            then Ok (S tokens, 1, separator_found)
            else Ok (tokens, state, separator_found)
          else if ((wspace_sep && Nat.eqb state 1 && isspace ch)
                   || Ascii.eqb ch NEWLINE)%bool
          then Ok (tokens, 0, separator_found)
          else if (q_strings && Nat.eqb state 2 && Ascii.eqb ch QUOTE)%bool
          then Ok (tokens, 0, separator_found)
          else Ok (tokens, state, separator_found) in
        count_loop fuel' s q_strings separators n_separators sep_tokens wspace_sep
          (S i) tokens state separator_found (S chars)
  end.

(** nip_count_tokens, nipstring.c 36-98: the number of tokens and [*chars].
    ([s] is not NULL: the code does not check.) *)
Definition count_tokens (s : list ascii) (q_strings : bool)
    (separators : option (list ascii)) (n_separators : nat)
    (sep_tokens wspace_sep : bool) : res (nat * nat) :=
  count_loop (S (length s)) s q_strings separators n_separators sep_tokens
    wspace_sep 0 0 0 false 0.

(** nip_count_words, nipstring.c 31-33. *)
Definition count_words (s : list ascii) : res (nat * nat) :=
  count_tokens s false None 0 false true.

(** [indices[j++] = v] *)
Definition push (st : list nat * nat) (v : nat) : res (list nat * nat) :=
  let '(indices, j) := st in
  let* indices := wr indices j v in
  Ok (indices, S j).

(** nip_tokenise, nipstring.c 126-190: the loop; result: the array, [i], [j]. *)
Fixpoint tokenise_loop (fuel : nat) (s : list ascii) (q_strings : bool)
    (separators : option (list ascii)) (n_separators : nat)
    (sep_tokens wspace_sep : bool) (arraysize : nat)
    (indices : list nat) (i j state : nat) (separator_found : bool)
  : res (list nat * nat * nat) :=
  match fuel with
  | O => NoFuel
  | S fuel' =>
      let* ch := cget s i in
      if Ascii.eqb ch NUL then Ok (indices, i, j)
      else
        let* separator_found :=
          separator_loop separators n_separators ch separator_found in
        let* (indices, j, state, separator_found) :=
          if (negb (Nat.eqb state 2) && separator_found)%bool then
            let* a := (if Nat.eqb state 1 then push (indices, j) i
                       else Ok (indices, j)) in
            let* a := (if sep_tokens then let* a := push a i in push a (i + 1)
                       else Ok a) in
            Ok (fst a, snd a, 0, false)
          else if (q_strings && negb (Nat.eqb state 2) && Ascii.eqb ch QUOTE)%bool then
            let* m := matching_quote (S (length s)) s (i + 1) in
            if (m : bool) then
              let* a := (if Nat.eqb state 1 then push (indices, j) i
                         else Ok (indices, j)) in
              let* a := push a i in
              Ok (fst a, snd a, 2, separator_found)
            else Ok (indices, j, state, separator_found)
          else if Nat.eqb state 0 then
            if ((wspace_sep && negb (isspace ch))
                || (negb wspace_sep && negb (Ascii.eqb ch NEWLINE)))%bool
            then let* a := push (indices, j) i in
                 Ok (fst a, snd a, 1, separator_found)
            else Ok (indices, j, state, separator_found)
          else if ((wspace_sep && Nat.eqb state 1 && isspace ch)
                   || Ascii.eqb ch NEWLINE)%bool
          then let* a := push (indices, j) i in
               Ok (fst a, snd a, 0, separator_found)
          else if (q_strings && Nat.eqb state 2 && Ascii.eqb ch QUOTE)%bool
          then let* a := push (indices, j) (i + 1) in
               Ok (fst a, snd a, 0, separator_found)
          else Ok (indices, j, state, separator_found) in
        if Nat.eqb j arraysize then Ok (indices, i, j)
        else tokenise_loop fuel' s q_strings separators n_separators sep_tokens
               wspace_sep arraysize indices (S i) j state separator_found
  end.

(** nip_tokenise, nipstring.c 101-216.  [None] is the NULL return; the second
    component is the error that was reported. *)
Definition tokenise (s : option (list ascii)) (n : Z) (q_strings : bool)
    (separators : option (list ascii)) (n_separators : nat)
    (sep_tokens wspace_sep : bool) : res (option (list nat) * code) :=
  match s with
  | None => Ok (None, EFAULT)
  | Some s =>
      if (n <? 0)%Z then Ok (None, EINVAL)
      else if (n =? 0)%Z then Ok (None, NO_ERROR)
      else
        let* arraysize := imul 2 (Z.to_nat n) in
        let* (indices, i, j) :=
          tokenise_loop (S (length s)) s q_strings separators n_separators
            sep_tokens wspace_sep arraysize (repeat 0 arraysize) 0 0 0 false in
        if Nat.eqb j (arraysize - 1) then
          let* indices := wr indices j i in Ok (Some indices, NO_ERROR)
        else if Nat.ltb j (arraysize - 1) then Ok (None, EINVAL)
        else Ok (Some indices, NO_ERROR)
  end.

(** strncpy of [n] characters from [&s[b]] into zeroed memory of [n + 1]
    characters, as a C string (nipstring.c 244-245, nipparsers.c 314-316,
    348-350 and 505-508). *)
Fixpoint strncpy (s : list ascii) (b n : nat) : res (list ascii) :=
  match n with
  | O => Ok []
  | S n' =>
      let* ch := cget s b in
      if Ascii.eqb ch NUL then Ok []
      else let* w := strncpy s (S b) n' in Ok (ch :: w)
  end.

(** The word between two indices: a negative length is a request for an
    immense amount of memory, here UB. *)
Definition word (s : list ascii) (indices : list nat) (i : nat) : res (list ascii) :=
  let* b := rd indices (2 * i) in
  let* e := rd indices (2 * i + 1) in
  if Nat.ltb e b then UB else strncpy s b (e - b).

(** nip_split, nipstring.c 219-249. *)
Definition split (s : list ascii) (indices : list nat) (n : nat)
  : res (list (list ascii)) :=
  for_up 0 n (fun i words => let* w := word s indices i in wr words i w)
    (repeat [] n).
