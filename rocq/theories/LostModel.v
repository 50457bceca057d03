(** * Model of the memory of files that parse_model does not accept *)
From Coq Require Import String.
From Verif Require Import Base ParseModel NetLexModel NetGrammarModel MemoryModel MemoryModel3 MemoryModel4.
Import ListNotations.
Open Scope nat_scope.
Local Open Scope res_scope.
Local Notation len := List.length.

(** A call of parse_model that gives no model: the file cannot be opened, or there is a
    wrong terminal before the brace of a node declaration after some that are fine: the
    terminals of that declaration up to the wrong one.  Other ways to fail (inside the
    braces, in a potential) are not modelled. *)
Inductive attempt :=
| Missing
| Wrong (nodes : list (string * list field)) (header : list terminal).

(** The texts of yylex, huginnet.y 1005-1050: only those of strings are still allocated
    when it returns.  The actions of the rule that would free them (huginnet.y 384, 452)
    are not reached after a syntax error, and the grammar has no %destructor.  The keyword
    of the declaration and single characters are freed (huginnet.y 909-991, 870-882). *)
Fixpoint m_header (m : memory) (l : list terminal) : res memory :=
  match l with
  | [] => Ok m
  | T_unquoted _ :: l | T_quoted _ :: l => let* (m, _) := m_text m in m_header m l
  | _ :: l => let* m := m_scrap m in m_header m l
  end.

(** parse_model, nip.c 118-140, where it returns NULL: the struct of the model comes first
    (line 122; its fields are not set) and is not freed. *)
Definition m_attempt (m : memory) (st : statics) (vs : list nat) (g : globals) (a : attempt)
  : res (option (memory * statics * list nat * globals)) :=
  let '(m, _) := take m in
  match a with
  | Missing => Ok (Some (m, st, vs, g)) (* nip.c 130-133, huginnet.y 1344-1350 *)
  | Wrong nodes header =>
      let* r := m_nodes m st vs g nodes in
      match r with
      | None => Ok None
      | Some (m, st, vs, g) => let* m := m_header m header in Ok (Some (m, st, vs, g))
      end
  end.

(** One call after the other. *)
Fixpoint m_attempts (m : memory) (st : statics) (vs : list nat) (g : globals) (l : list attempt)
  : res (option (memory * statics * list nat * globals)) :=
  match l with
  | [] => Ok (Some (m, st, vs, g))
  | a :: l =>
      let* r := m_attempt m st vs g a in
      match r with
      | None => Ok None
      | Some (m, st, vs, g) => m_attempts m st vs g l
      end
  end.

(** All that can still be reached is freed: the variables (nip_free_variable), the list of
    get_parsed_variables (nip_empty_variable_list and free, as in nip.c 147-148), and
    nip_interface_relations, which the actions of input free after the next file
    (nip_free_interface_list, huginnet.y 218). *)
Fixpoint free_variables (m : memory) (vs : list nat) : res memory :=
  match vs with
  | [] => Ok m
  | v :: vs => let* m := free_variable m (Some v) in free_variables m vs
  end.
Definition clean_up (m : memory) (st : statics) (vs : list nat) : res memory :=
  let* m := free_variables m vs in
  let* m := match st_vars st with None => Ok m | Some ml => m_drop m ml end in
  m_free_relations m (st_relations st).
