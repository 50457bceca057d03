(** * Model of writing models to NET files: write_model of src/nip.c

    A file is the list of its characters.  The macro NET_LANG_V1 is not
    defined, so that [indent] is empty.  Allocations succeed. *)
From Coq Require Import String Ascii.
From Verif Require Import Base PotentialModel VariableModel JoinTreeModel NipModel SliceModel LearnModel
  StringModel SeriesFileModel GraphModel ParseModel NetLexModel NetGrammarModel.
Import ListNotations.
Open Scope nat_scope.
Local Open Scope res_scope.
Local Notation len := List.length.

(** ** Numbers of fprintf *)

(** The decimal digits of a natural number, the first ones first (the
    conversion of fprintf; not a function of /repo). *)
Fixpoint decimal_digits (fuel : nat) (z : Z) : list nat :=
  match fuel with
  | O => []
  | S fuel' =>
      if (z <? 10)%Z then [Z.to_nat z]
      else decimal_digits fuel' (z / 10)%Z ++ [Z.to_nat (z mod 10)%Z]
  end.
Definition digit_char (d : nat) : ascii := ascii_of_nat (48 + d).
Definition print_nat (z : Z) : list ascii :=
  map digit_char (decimal_digits (S (Z.to_nat (Z.log2 z))) z).
(** A given number of digits, with leading zeros. *)
Fixpoint fixed_digits (n : nat) (z : Z) : list nat :=
  match n with
  | O => []
  | S n' => fixed_digits n' (z / 10)%Z ++ [Z.to_nat (z mod 10)%Z]
  end.

(** [%d] (nip.c 342, 357). *)
Definition print_d (z : Z) : list ascii :=
  if (z <? 0)%Z then str "-" ++ print_nat (- z) else print_nat z.

(** [%f] (nip.c 384, 467): six decimals, rounded to the nearest, ties to the
    even one; the sign also of numbers that are rounded to zero. *)
Definition millionths (q : Qc) : Z :=
  let n := (Z.abs (QArith_base.Qnum (this q)) * 1000000)%Z in
  let d := Zpos (QArith_base.Qden (this q)) in
  let k := (n / d)%Z in
  match (2 * (n mod d) ?= d)%Z with
  | Lt => k
  | Eq => if Z.even k then k else (k + 1)%Z
  | Gt => (k + 1)%Z
  end.
Definition print_f (q : Qc) : list ascii :=
  let k := millionths q in
  (if (QArith_base.Qnum (this q) <? 0)%Z then str "-" else [])
  ++ print_nat (k / 1000000) ++ str "." ++ map digit_char (fixed_digits 6 (k mod 1000000)).

(** ** Models with what only the writer uses *)

(** The fields name, pos_x, pos_y and next of nip_variable_struct,
    nipvariable.h 53-81 (the other fields are in [named_variable] and in
    [vrec]). *)
Record page := mkPage {
  pg_name : option string;
  pg_x : Z;
  pg_y : Z;
  pg_next : option nat
}.

(** The fields that parse_model fills, huginnet.y 324-391 and nipvariable.c
    56-91: the label, one blank if there is none, of which
    nip_set_variable_text keeps the first characters; the position; and [next],
    which huginnet.y 1196 assigns ([pv_next]). *)
Definition page_of (k : looks) (v : pvar) : page :=
  mkPage (Some (variable_text (match k_label k with Some s => s | None => " "%string end)))
    (k_x k) (k_y k) (pv_next v).

(** parse_model, nip.c 118-291, as [parse_file] of NetGrammarModel.v, with these
    fields. *)
Definition load (k1 k2 : list pvar -> list nat -> Z) (g : globals) (contents : list ascii)
  : res (option (list named_variable * list page * (Z * Z) * model * globals)) :=
  let* ts := lex contents in
  let* r := input k1 k2 g ts in
  match r with
  | None => Ok None
  | Some (vl, m, g, ks, size) =>
      let* x := finish vl m g in
      match x with
      | None => Ok None
      | Some (names, m, g) =>
          Ok (Some (names, map (fun '(k, v) => page_of k v) (combine ks vl), size, m, g))
      end
  end.

(** ** The writer *)

(** [a % b] of the C language. *)
Definition imod (a b : nat) : res nat := if Nat.eqb b 0 then UB else Ok (a mod b).

(** POTENTIAL_ELEMENTS_PER_LINE, nip.c 26. *)
Definition PER_LINE : nat := 7.

(** nip_variable_symbol, nipvariable.c 232-236, printed with [%s] (NULL:
    undefined). *)
Definition symbol_text (names : list named_variable) (v : nat) : res (list ascii) :=
  let* nv := rd names v in
  match nv_symbol nv with Some s => Ok (str s) | None => UB end.
(** [v->state_names[j]] printed with [%s]. *)
Definition state_text (names : list named_variable) (v j : nat) : res (list ascii) :=
  let* nv := rd names v in
  match nv_states nv with
  | Names l => let* s := rd l j in Ok (str s)
  | _ => UB
  end.

Definition DQUOTE : list ascii := [QUOTE].
Definition NL : list ascii := [NEWLINE].

(** write_model, nip.c 349-367: the declaration of variable [i]. *)
Definition write_node (names : list named_variable) (pages : list page) (m : model) (i : nat)
    (out : list ascii) : res (list ascii) :=
  let* x := rd (m_vars m) i in
  let* p := rd pages i in
  let* symbol := symbol_text names i in
  let out := out ++ NL in
  let out := out ++ str "node " ++ symbol ++ NL in
  let out := out ++ str "{" ++ NL in
  match pg_name p with
  | None => UB
  | Some name =>
      let out := out ++ str "    label = " ++ DQUOTE ++ str name ++ DQUOTE ++ str ";" ++ NL in
      let out := out ++ str "    position = (" ++ print_d (pg_x p) ++ str " " ++ print_d (pg_y p)
                     ++ str ");" ++ NL in
      let out := out ++ str "    states = (" in
      match v_card x with
      | O => UB (* state_names[-1] *)
      | S n =>
          let* out :=
            for_up 0 n
              (fun j out =>
                 let* s := state_text names i j in
                 Ok (out ++ str " " ++ DQUOTE ++ s ++ DQUOTE ++ str " " ++ NL
                         ++ str "              "))
              out in
          let* s := state_text names i n in
          let out := out ++ str " " ++ DQUOTE ++ s ++ DQUOTE ++ str " );" ++ NL in
          let* out :=
            match pg_next p with
            | None => Ok out
            | Some next =>
                let* s := symbol_text names next in
                Ok (out ++ str "    NIP_next = " ++ DQUOTE ++ s ++ DQUOTE ++ str ";" ++ NL)
            end in
          Ok (out ++ str "}" ++ NL)
      end
  end.

(** write_model, nip.c 370-392: the prior of the independent variable [v]. *)
Definition write_prior (names : list named_variable) (m : model) (v : nat) (out : list ascii)
  : res (list ascii) :=
  let* x := rd (m_vars m) v in
  let* symbol := symbol_text names v in
  let out := out ++ NL in
  let out := out ++ str "potential (" ++ symbol ++ str ")" ++ NL in
  let out := out ++ str "{" ++ NL in
  let out := out ++ str "    data = ( " in
  match v_prior x with
  | None => if Nat.eqb (v_card x) 0 then Ok (out ++ str ");" ++ NL ++ str "}" ++ NL) else UB
  | Some prior =>
      let* out :=
        for_up 0 (v_card x)
          (fun j out =>
             let out := if (Nat.ltb 0 j && Nat.eqb (j mod PER_LINE) 0)%bool
                        then out ++ NL ++ str "             " else out in
             let* q := rd prior j in
             Ok (out ++ print_f q ++ str "  "))
          out in
      Ok (out ++ str ");" ++ NL ++ str "}" ++ NL)
  end.

(** write_model, nip.c 418-439: the conditional distribution of the child
    [v], from the original table of the clique that nip_find_family finds. *)
Definition family_cpd (m : model) (v : nat) : res (model * potential) :=
  let* x := rd (m_vars m) v in
  let* cards :=
    for_up 0 (len (v_parents x))
      (fun j l =>
         let* u := rd (v_parents x) j in
         let* y := rd (m_vars m) u in
         wr l (j + 1) (v_card y))
      (v_card x :: repeat 0 (len (v_parents x))) in
  let* p := new_potential cards (Z.of_nat (len (v_parents x) + 1)) None in
  match p with
  | None => UB (* general_marginalise(..., NULL, ...) *)
  | Some p =>
      let* (m, c) := find_family m v in
      match c with
      | None => UB (* c->original_p *)
      | Some c =>
          let* (m, mapping) := find_family_mapping m c v in
          let* k := rd (cls (m_jt m)) c in
          let* (p, _) := general_marginalise (c_orig k) p mapping in
          let* (p, _) := normalise_cpd (Some p) in
          match p with
          | None => UB
          | Some p => Ok (m, p)
          end
      end
  end.

(** write_model, nip.c 454-459: the comment about the states of the parents
    before the [j]-th value. *)
Definition write_comment (names : list named_variable) (parents : list nat) (p : potential) (j : nat)
    (out : list ascii) : res (list ascii) :=
  let out := out ++ str " % " in
  let* temp := inverse_mapping p (j - 1) (repeat 0 (len parents + 1)) in
  for_down (len parents) 0
    (fun x out =>
       let* u := rd parents x in
       let* symbol := symbol_text names u in
       let* i := rd temp (x + 1) in
       let* state := state_text names u i in
       Ok (out ++ symbol ++ str "=" ++ state ++ str " "))
    out.

(** write_model, nip.c 441-469: the values of the table of a child with
    [nvalues] states.  The second component is the variable [y], the number of
    values on the line. *)
Definition write_values (names : list named_variable) (parents : list nat) (nvalues : nat)
    (p : potential) (out : list ascii) : res (list ascii * nat) :=
  let multiparent := Nat.ltb 1 (len parents) in
  for_up 0 (size_of_data p)
    (fun j '(out, y) =>
       let* r := imod j nvalues in
       let n := Nat.eqb r 0 in
       let* (out, y) :=
         if (Nat.ltb 0 j && (n || (Nat.ltb PER_LINE nvalues && Nat.eqb (y mod PER_LINE) 0)))%bool then
           let* out :=
             if n then
               write_comment names parents p j (if multiparent then out ++ str ")(" else out)
             else Ok out in
           Ok (out ++ NL ++ str "            ", 0)
         else Ok (out, y) in
       let* q := rd (data p) j in
       Ok (out ++ str " " ++ print_f q ++ str " ", y + 1))
    (out, 0).

(** write_model, nip.c 395-477: the conditional distribution of [v]. *)
Definition write_cpd (names : list named_variable) (m : model) (v : nat) (out : list ascii)
  : res (model * list ascii) :=
  let* x := rd (m_vars m) v in
  let parents := v_parents x in
  let multiparent := Nat.ltb 1 (len parents) in
  let* symbol := symbol_text names v in
  let out := out ++ NL in
  let out := out ++ str "potential (" ++ symbol ++ str " | " in
  let* out :=
    for_down (len parents) 1
      (fun j out =>
         let* u := rd parents j in
         let* s := symbol_text names u in
         Ok (out ++ s ++ str " "))
      out in
  let* u := rd parents 0 in
  let* s := symbol_text names u in
  let out := out ++ s ++ str ")" ++ NL in
  let out := out ++ str "{ " ++ NL in
  let out := out ++ str "    data = (" in
  let out := if multiparent then out ++ str "(" else out in
  let* (m, p) := family_cpd m v in
  let* (out, _) := write_values names parents (v_card x) p out in
  let out := if multiparent then out ++ str ")" else out in
  Ok (m, out ++ str ");" ++ NL ++ str "}" ++ NL).

(** write_model, nip.c 295-489.  [opened] and [closed] tell whether fopen and
    fclose succeed; the contents of the file are [None] if it was not opened. *)
Definition write_model (opened closed : bool) (names : list named_variable) (pages : list page)
    (size : Z * Z) (m : model) : res (model * option (list ascii) * code) :=
  if negb opened then Ok (m, None, EIO)
  else
    let* m := reset_model m in
    let out := str "net" ++ NL ++ str "{" ++ NL in
    let out := out ++ str "    node_size = (" ++ print_d (fst size) ++ str " " ++ print_d (snd size)
                   ++ str ");" ++ NL in
    let out := out ++ str "}" ++ NL in
    let* out := for_up 0 (len (m_vars m)) (fun i out => write_node names pages m i out) out in
    let* out :=
      for_up 0 (len (m_vars m) - len (m_children m))
        (fun i out => let* v := rd (m_indep m) i in write_prior names m v out)
        out in
    let* (m, out) :=
      for_up 0 (len (m_children m))
        (fun i '(m, out) => let* v := rd (m_children m) i in write_cpd names m v out)
        (m, out) in
    Ok (m, Some out, if closed then NO_ERROR else EIO).
