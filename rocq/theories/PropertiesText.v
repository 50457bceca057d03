(** * Properties C49-C51, C53 and C66: tokens, lists, errors
    (src/nipstring.c, src/niplists.c, src/niperrorhandler.c) *)
From Coq Require Import Ascii String.
From Verif Require Import Base StringModel StringSpec StringProofs StringProofs2
  ListModel ListSpec ListProofs ErrorModel ErrorProofs.
Import ListNotations.
Open Scope nat_scope.
Local Open Scope res_scope.
Local Notation len := List.length.
Local Notation chars := list_ascii_of_string.

(** C49.  For every text, separators and flags the counter returns, and asked
    for as many tokens the tokeniser succeeds with that many non-empty
    intervals of the text, ordered and disjoint. *)
Theorem C49_tokeniser_agrees : forall s q seps ns keep wsp, text s ->
  match seps with Some l => ns <= len l | None => True end ->
  exists n, count_tokens s q seps ns keep wsp = Ok (n, len s) /\
    (n = 0 -> tokenise (Some s) (Z.of_nat n) q seps ns keep wsp = Ok (None, NO_ERROR)) /\
    (0 < n -> exists ix, tokenise (Some s) (Z.of_nat n) q seps ns keep wsp = Ok (Some ix, NO_ERROR) /\
       len ix = 2 * n /\ intervals (len s) 0 ix).
Proof. exact C49_lemma. Qed.
Print Assumptions C49_tokeniser_agrees.

Definition ex_line : list ascii := chars "states = (""a b"" ""c"") ;% rest".
Example C49_case : text ex_line /\
  (let* (n, _) := count_tokens ex_line true (Some (chars "(){}=,;")) 7 true true in Ok n) = Ok 9.
Proof. split; [split; [cbn; intuition discriminate|vm_compute; discriminate]|vm_compute; reflexivity]. Qed.

(** Asked for fewer tokens than there are the tokeniser writes outside of the
    array (no caller does this). *)
Theorem C49_fewer_tokens_overflow :
  tokenise (Some (chars "a,b")) 1 false (Some (chars ",")) 1 true true = UB.
Proof. vm_compute. reflexivity. Qed.
Print Assumptions C49_fewer_tokens_overflow.

(** C50.  Without quotes (or if quotes are not special) the tokens are the
    non-empty fields between the delimiters; with [keep] the separators are
    tokens, too. *)
Theorem C50_tokens_are_fields : forall s q seps keep wsp, text s -> (q = false \/ ~ In quote s) ->
  let fs := fields (delimits seps wsp) (fun c => keep && member c seps)%bool s in
  count_tokens s q (Some seps) (len seps) keep wsp = Ok (len fs, len s) /\
  (fs <> [] -> exists ix,
     tokenise (Some s) (Z.of_nat (len fs)) q (Some seps) (len seps) keep wsp = Ok (Some ix, NO_ERROR)
     /\ split s ix (len fs) = Ok fs).
Proof. exact C50_lemma. Qed.
Print Assumptions C50_tokens_are_fields.

(** The words are what is between white space; quotes do not matter. *)
Theorem C50_words : forall s, text s ->
  count_words s = Ok (len (fields (fun c => member c white) (fun _ => false) s), len s).
Proof. exact C50_words_lemma. Qed.
Print Assumptions C50_words.

Definition ex_row : list ascii := chars " on,, a b ,off".
Example C50_case : text ex_row /\ ~ In quote ex_row /\
  fields (delimits (chars ",") true) (fun _ => false) ex_row = map chars ["on"; "a"; "b"; "off"]%string /\
  fields (delimits (chars ",") false) (fun _ => false) ex_row = map chars [" on"; " a b "; "off"]%string.
Proof.
  split; [split; [cbn; intuition discriminate|vm_compute; discriminate]|].
  split; [cbn; intuition discriminate|]. split; vm_compute; reflexivity.
Qed.

(** C66.  Texts with quoted strings are cut as specified, if the quoted strings
    contain no separators or are followed by a separator or the end. *)
Theorem C66_quoted_strings_partial : forall s seps toks, text s -> lexed seps s toks ->
  count_tokens s true (Some seps) (len seps) true true = Ok (len toks, len s) /\
  (toks <> [] -> exists ix,
     tokenise (Some s) (Z.of_nat (len toks)) true (Some seps) (len seps) true true = Ok (Some ix, NO_ERROR)
     /\ split s ix (len toks) = Ok toks).
Proof. exact C66_lemma. Qed.
Print Assumptions C66_quoted_strings_partial.

Example C66_case : lexed (chars "=") (chars "a=""b =c""") (map chars ["a"; "="; """b =c"""]%string).
Proof.
  apply (lexed_word (chars "=") (chars "a") (chars "=""b =c""")); [discriminate| |vm_compute; intuition discriminate|].
  { constructor; [split; [reflexivity|discriminate]|constructor]. }
  apply lexed_separator; [reflexivity|].
  apply (lexed_quoted (chars "=") (chars "b =c") []); [|right; exact I|reflexivity|constructor].
  repeat constructor; discriminate.
Qed.

(** A separator in a quoted string makes a separator of the character after
    the string: the states of [("a,b" "c")] are not read as two strings. *)
Theorem C66_separator_in_quotes_refuted : exists ix,
  tokenise (Some (chars "(""a,b"" ""c"")")) 5 true (Some (chars "(){}=,;")) 7 true true
  = Ok (Some ix, NO_ERROR) /\
  (let* (n, _) := count_tokens (chars "(""a,b"" ""c"")") true (Some (chars "(){}=,;")) 7 true true in Ok n) = Ok 5 /\
  split (chars "(""a,b"" ""c"")") ix 5 = Ok (map chars ["("; """a,b"""; " "; """c"""; ")"]%string).
Proof. eexists. split; [vm_compute; reflexivity|]. split; vm_compute; reflexivity. Qed.
Print Assumptions C66_separator_in_quotes_refuted.

(** C51.  Every program that creates, appends, prepends, empties and frees
    lists, without using a list after freeing it, is free of undefined
    behaviour; its lists are the sequences that the calls mean, read forwards
    and backwards; arrays, searches and destructors see these sequences; and
    no memory is left when all lists are empty or freed. *)
Theorem C51_lists_are_sequences : forall (A : Type) (cs : list (call A)) ss, meanings [] cs = Some ss ->
  exists m ls, run_calls ([], []) cs = Ok (m, ls) /\ len ls = len ss /\
    (forall k, nth_error ss k = Some None -> nth_error ls k = Some None) /\
    (forall k xs, nth_error ss k = Some (Some xs) ->
      exists l, nth_error ls k = Some (Some l) /\ holds_sequence m l xs /\
        to_array m l = Ok (match xs with [] => None | _ => Some xs end) /\
        (forall test, search m l test = Ok (find test xs)) /\
        (exists m', free_list m l = Ok (m', rev xs))) /\
    ((forall k xs, nth_error ss k = Some (Some xs) -> xs = []) -> Forall (fun c => c = None) m).
Proof. exact @C51_lemma. Qed.
Print Assumptions C51_lists_are_sequences.

Example C51_case :
  meanings [] [New; Append 0 5; New; Prepend 1 7; Prepend 0 4; Append 0 6; Empty 1; Prepend 1 8; Free 1]
  = Some [Some [4; 5; 6]; None].
Proof. reflexivity. Qed.

(** C53.  The counter is the number of errors since the last reset (or the
    start) and the type that of the last one, 0 if there is none. *)
Theorem C53_error_bookkeeping : forall before es, (Z.of_nat (len before + len es) <= INT_MAX)%Z ->
  (exists h, handle initial_handler (before ++ Reset :: map Report es) = Ok h /\
     check_error_counter h = Z.of_nat (len es) /\ check_error_type h = last es 0%Z) /\
  (exists h, handle initial_handler (map Report es) = Ok h /\
     check_error_counter h = Z.of_nat (len es) /\ check_error_type h = last es 0%Z).
Proof. exact C53_lemma. Qed.
Print Assumptions C53_error_bookkeeping.

Example C53_case : exists h, handle initial_handler [Report 22; Report 12; Reset; Report 14; Report 5] = Ok h /\
  check_error_counter h = 2%Z /\ check_error_type h = 5%Z.
Proof. eexists. split; [reflexivity|]. split; reflexivity. Qed.
