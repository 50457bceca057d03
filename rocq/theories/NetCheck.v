(** * Concrete texts for C69-C71 *)
From Coq Require Import String Ascii QArith.QArith QArith.Qcanon QArith.Qabs.
From Verif Require Import Base StringSpec ParseModel ParseCheck NetLexModel NetGrammarModel NetSpec.
Import ListNotations.
Open Scope nat_scope.
Local Open Scope string_scope.
Local Open Scope list_scope.
Local Notation chars := list_ascii_of_string.

(** Lines with their ends. *)
Fixpoint join (ls : list string) : list ascii :=
  match ls with [] => [] | l :: ls => chars l ++ end_of_line :: join ls end.

(** The file px_net of ParseCheck.v as a text. *)
Definition px_lines : list string :=
  [ "% A hidden Markov model; a quote ("") in a comment does not matter";
    "net { node_size = (80 40); anything = ((1) 2) ; }";
    "";
    "node Y { label = ""output""; position = (100 -20.7);";
    "  states = (""low"" ""high"" ""off""); }";
    "discrete node X{states=(""a"" ""b"");label=""state"";}   % another comment";
    "node X0 { label = ""old state""; states = (""a"" ""b""); NIP_next = ""X""; }";
    "potential (X0) { data = (0.25 .75); }";
    "potential (X | X0) { data = ((0.9 1e-1) (2E-1 +0.8)); }";
    "potential (Y | X) { data = (0.5 0.25 0.25 0.125 0.375 0.5); }" ].
Definition px_text : list ascii := join px_lines.
Definition px_tokens : list (list ascii) := map chars
  [ "net"; "{"; "node_size"; "="; "("; "80"; "40"; ")"; ";"; "anything"; "="; "("; "("; "1"; ")"; "2"; ")"; ";"; "}";
    "node"; "Y"; "{"; "label"; "="; """output"""; ";"; "position"; "="; "("; "100"; "-20.7"; ")"; ";";
    "states"; "="; "("; """low"""; """high"""; """off"""; ")"; ";"; "}";
    "discrete"; "node"; "X"; "{"; "states"; "="; "("; """a"""; """b"""; ")"; ";"; "label"; "="; """state"""; ";"; "}";
    "node"; "X0"; "{"; "label"; "="; """old state"""; ";"; "states"; "="; "("; """a"""; """b"""; ")"; ";";
    "NIP_next"; "="; """X"""; ";"; "}";
    "potential"; "("; "X0"; ")"; "{"; "data"; "="; "("; "0.25"; ".75"; ")"; ";"; "}";
    "potential"; "("; "X"; "|"; "X0"; ")"; "{"; "data"; "="; "("; "("; "0.9"; "1e-1"; ")"; "("; "2E-1"; "+0.8"; ")"; ")"; ";"; "}";
    "potential"; "("; "Y"; "|"; "X"; ")"; "{"; "data"; "="; "("; "0.5"; "0.25"; "0.25"; "0.125"; "0.375"; "0.5"; ")"; ";"; "}" ].
Definition px_looks : list looks :=
  [mkLooks (Some "output") 100 20; mkLooks (Some "state") 100 100; mkLooks (Some "old state") 100 100].

(** ** Tactics *)
Definition in_word (c : ascii) : bool := negb (delimits net_separators true c) && negb (Ascii.eqb c quote).
Fixpoint take_word (s : list ascii) : list ascii :=
  match s with [] => [] | c :: s => if in_word c then c :: take_word s else [] end.
Fixpoint drop_word (s : list ascii) : list ascii :=
  match s with [] => [] | c :: t => if in_word c then drop_word t else s end.
Fixpoint take_quoted (s : list ascii) : list ascii :=
  match s with [] => [] | c :: s => if Ascii.eqb c quote then [] else c :: take_quoted s end.
Fixpoint drop_quoted (s : list ascii) : list ascii :=
  match s with [] => [] | c :: s => if Ascii.eqb c quote then s else drop_quoted s end.

Ltac word_char_tac := split; [reflexivity|discriminate].
Ltac net_line_tac :=
  lazymatch goal with
  | |- net_line [] _ => apply line_end
  | |- net_line (?c :: ?s) _ =>
      first [ apply line_comment
            | apply line_white; [reflexivity|net_line_tac]
            | apply line_separator; [reflexivity|net_line_tac]
            | let w := eval vm_compute in (take_word s) in
              let r := eval vm_compute in (drop_word s) in
              apply (line_word c w r); [discriminate|word_char_tac|repeat (constructor; [word_char_tac|]); constructor
                |first [solve [vm_compute; intros [X _]; discriminate X] | solve [intros [_ X]; apply X; reflexivity] | solve [intros []]]
                |net_line_tac]
            | let w := eval vm_compute in (take_quoted s) in
              let r := eval vm_compute in (drop_quoted s) in
              apply (line_quoted w r); [repeat (constructor; [split; [discriminate|reflexivity]|]); constructor|net_line_tac] ]
  end.
Ltac line_tac :=
  split; [vm_compute; intuition discriminate|]; split; [vm_compute; intuition discriminate|];
  split; [vm_compute length; lia|]; cbv [list_ascii_of_string]; net_line_tac.

Lemma join_tokens : forall ls toks, Forall2 (fun l t => line_ok (chars l) t) ls toks -> text_tokens (join ls) (concat toks).
Proof. intros ls toks H. induction H; cbn [join concat]; constructor; assumption. Qed.

Lemma px_text_tokens : text_tokens px_text px_tokens.
Proof.
  assert (X : exists toks, Forall2 (fun l t => line_ok (chars l) t) px_lines toks /\ concat toks = px_tokens).
  { eexists. split.
    - repeat (apply Forall2_cons; [line_tac|]). apply Forall2_nil.
    - reflexivity. }
  destruct X as (toks & H & E). rewrite <- E. apply join_tokens. exact H.
Qed.

(** Numerals from their parts. *)
Lemma numeral_parts : forall neg sg ip fp point ex e s q,
  sign_text neg sg -> Forall (fun d => d < 10) (ip ++ fp) -> ip ++ fp <> [] ->
  (point = chars "." \/ (point = [] /\ fp = [])) -> exponent_text ex e ->
  s = (sg ++ digits ip ++ point ++ digits fp ++ ex)%list ->
  (this q == this (Q2Qc (inject_Z (signed neg (decimal (ip ++ fp)))) * power_of_ten (e - Z.of_nat (length fp)))%Qc)%Q ->
  numeral s q.
Proof. intros neg sg ip fp point ex e s q H1 H2 H3 H4 H5 -> E. apply Qc_is_canon in E. subst q. apply numeral_of; assumption. Qed.

Ltac small := repeat (constructor; [lia|]); constructor.
Ltac num neg sg ip fp point ex e :=
  apply reads_number; apply (numeral_parts neg (chars sg) ip fp (chars point) ex e);
  [first [reflexivity | left; reflexivity | right; reflexivity]|small|discriminate
  |first [left; reflexivity | right; split; reflexivity]
  | |vm_compute; reflexivity|vm_compute; reflexivity].
Ltac plain sg ip fp point := num false sg ip fp point (@nil ascii) 0%Z; apply no_exponent.
Ltac symbol_tac :=
  apply reads_symbol; split; [discriminate|]; split; [repeat (constructor; [word_char_tac|]); constructor|];
  split; [reflexivity|]; split; [intros []; discriminate|intros c E; try discriminate E; injection E as <-; reflexivity].
Ltac quoted_tac :=
  match goal with |- reads_as ?l _ => let l' := eval vm_compute in l in
    match l' with ?q :: ?s => let b := eval vm_compute in (take_quoted s) in exact (reads_quoted b) end end.
Ltac token_tac :=
  first [ match goal with |- reads_as _ (T_key ?k) => exact (reads_key k) end | apply reads_char; cbn; tauto | quoted_tac | symbol_tac ].

Lemma whole_parts : forall q n, (0 <= n <= INT_MAX)%Z ->
  (inject_Z n <= Qabs (this q))%Q -> (Qabs (this q) < inject_Z (n + 1))%Q -> whole (Finite q) n.
Proof. intros q n H1 H2 H3. exists q. auto. Qed.
Ltac whole_tac := apply whole_parts; [vm_compute; split; discriminate|vm_compute; discriminate|vm_compute; reflexivity].

Local Notation Fin x := (Finite (Q2Qc x)).
Definition px_terminals : list terminal :=
  ([T_key K_net] ++ marks "{" ++ [T_key K_node_size] ++ marks "=(" ++ [T_number (Fin 80); T_number (Fin 40)] ++ marks ");"
   ++ [T_unquoted (chars "anything")] ++ marks "=((" ++ [T_number (Fin 1)] ++ marks ")" ++ [T_number (Fin 2)] ++ marks ");}"
   ++ [T_key K_node] ++ names ["Y"] ++ marks "{" ++ [T_key K_label] ++ marks "=" ++ texts ["output"] ++ marks ";"
   ++ [T_key K_position] ++ marks "=(" ++ [T_number (Fin 100); T_number (Fin (-207 # 10))] ++ marks ");"
   ++ [T_key K_states] ++ marks "=(" ++ texts ["low"; "high"; "off"] ++ marks ");}"
   ++ [T_key K_discrete; T_key K_node] ++ names ["X"] ++ marks "{" ++ [T_key K_states] ++ marks "=(" ++ texts ["a"; "b"] ++ marks ");"
   ++ [T_key K_label] ++ marks "=" ++ texts ["state"] ++ marks ";}"
   ++ [T_key K_node] ++ names ["X0"] ++ marks "{" ++ [T_key K_label] ++ marks "=" ++ texts ["old state"] ++ marks ";"
   ++ [T_key K_states] ++ marks "=(" ++ texts ["a"; "b"] ++ marks ");"
   ++ [T_key K_persistence] ++ marks "=" ++ texts ["X"] ++ marks ";}"
   ++ [T_key K_potential] ++ marks "(" ++ names ["X0"] ++ marks "){" ++ [T_key K_data] ++ marks "=("
   ++ [T_number (Fin (1 # 4)); T_number (Fin (3 # 4))] ++ marks ");}"
   ++ [T_key K_potential] ++ marks "(" ++ names ["X"] ++ marks "|" ++ names ["X0"] ++ marks "){" ++ [T_key K_data] ++ marks "=(("
   ++ [T_number (Fin (9 # 10)); T_number (Fin (1 # 10))] ++ marks ")("
   ++ [T_number (Fin (2 # 10)); T_number (Fin (8 # 10))] ++ marks "));}"
   ++ [T_key K_potential] ++ marks "(" ++ names ["Y"] ++ marks "|" ++ names ["X"] ++ marks "){" ++ [T_key K_data] ++ marks "=("
   ++ [T_number (Fin (1 # 2)); T_number (Fin (1 # 4)); T_number (Fin (1 # 4)); T_number (Fin (1 # 8));
       T_number (Fin (3 # 8)); T_number (Fin (4 # 8))] ++ marks ");}")%list.

Lemma px_reads : Forall2 reads_as px_tokens px_terminals.
Proof.
  unfold px_tokens, px_terminals. cbv [map app marks names texts list_ascii_of_string].
  assert (EX : exponent_text (chars "e-1") (-1)).
  { apply (exponent (chars "e") true (chars "-") [1]); [auto|reflexivity|discriminate|small]. }
  assert (EX2 : exponent_text (chars "E-1") (-1)).
  { apply (exponent (chars "E") true (chars "-") [1]); [auto|reflexivity|discriminate|small]. }
  repeat (apply Forall2_cons;
    [first [ token_tac
           | plain "" [8; 0] (@nil nat) "" | plain "" [4; 0] (@nil nat) "" | plain "" [1] (@nil nat) "" | plain "" [2] (@nil nat) ""
           | plain "" [1; 0; 0] (@nil nat) ""
           | num true "-" [2; 0] [7] "." (@nil ascii) 0%Z; apply no_exponent
           | plain "" [0] [2; 5] "." | plain "" (@nil nat) [7; 5] "." | plain "" [0] [9] "."
           | num false "" [1] (@nil nat) "" (chars "e-1") (-1)%Z; exact EX
           | num false "" [2] (@nil nat) "" (chars "E-1") (-1)%Z; exact EX2
           | plain "+" [0] [8] "." | plain "" [0] [5] "." | plain "" [0] [1; 2; 5] "." | plain "" [0] [3; 7; 5] "." ]|]).
  apply Forall2_nil.
Qed.

Lemma px_document : document px_net px_looks (80, 40)%Z px_terminals.
Proof.
  assert (F : forall s t, s = t -> document px_net px_looks (80, 40)%Z s -> document px_net px_looks (80, 40)%Z t)
    by (intros; subst; assumption).
  eapply F; [|apply (net_document [F_size 80 40; F_unknown])].
  2:{ apply more_fields; [reflexivity|apply (text_size (Fin 80) (Fin 40)); whole_tac|].
      apply more_fields; [reflexivity|apply (text_other (chars "anything"))|apply no_fields].
      apply (value_numbers [Fin 1; Fin 2]). apply (nested_group [Fin 1; Fin 2] []); [|constructor].
      apply (nested_group [Fin 1] [Fin 2]); repeat constructor. }
  2:{ apply more_nodes_text; [apply (node_of false "Y" [F_label "output"; F_position 100 20; F_states ["low"; "high"; "off"]])|].
      { apply more_fields; [reflexivity|apply text_label|].
        apply more_fields; [reflexivity|apply (text_position (Fin 100) (Fin (-207 # 10))); whole_tac|].
        apply more_fields; [reflexivity|apply text_states; discriminate|apply no_fields]. }
      apply more_nodes_text; [apply (node_of true "X" [F_states ["a"; "b"]; F_label "state"])|].
      { apply more_fields; [reflexivity|apply text_states; discriminate|].
        apply more_fields; [reflexivity|apply text_label|apply no_fields]. }
      apply more_nodes_text; [apply (node_of false "X0" [F_label "old state"; F_states ["a"; "b"]; F_next "X"])|].
      { apply more_fields; [reflexivity|apply text_label|].
        apply more_fields; [reflexivity|apply text_states; discriminate|].
        apply more_fields; [reflexivity|apply text_next|apply no_fields]. }
      apply no_nodes_text. }
  2:{ apply more_potentials_text; [apply potential_of; apply some_data; [discriminate|repeat constructor]|].
      apply more_potentials_text; [apply potential_of; apply some_data; [discriminate|]|].
      { apply (nested_group [Fin (9 # 10); Fin (1 # 10)] [Fin (2 # 10); Fin (8 # 10)]); [repeat constructor|].
        apply (nested_group [Fin (2 # 10); Fin (8 # 10)] []); repeat constructor. }
      apply more_potentials_text; [apply potential_of; apply some_data; [discriminate|repeat constructor]|].
      apply no_potentials_text. }
  reflexivity.
Qed.

(** ** One node, with a symbol that is accepted and one that is not *)
Definition one_lines (s : string) : list string :=
  [ ("node " ++ s ++ " { states = (""a"" ""b""); }")%string; ("potential (" ++ s ++ ") { }")%string ].
Definition other_lines : list string := ["% no network"; "potential (A) { }"].
Lemma one_tokens : text_tokens (join (one_lines "X_1")) (one_node (chars "X_1")).
Proof.
  apply (join_tokens (one_lines "X_1")
    [map chars ["node"; "X_1"; "{"; "states"; "="; "("; """a"""; """b"""; ")"; ";"; "}"]; map chars ["potential"; "("; "X_1"; ")"; "{"; "}"]]).
  cbv [one_lines other_lines append]. repeat (apply Forall2_cons; [cbv [map]; line_tac|]). apply Forall2_nil.
Qed.
Lemma infection_tokens : text_tokens (join (one_lines "Infection")) (one_node (chars "Infection")).
Proof.
  apply (join_tokens (one_lines "Infection")
    [map chars ["node"; "Infection"; "{"; "states"; "="; "("; """a"""; """b"""; ")"; ";"; "}"]; map chars ["potential"; "("; "Infection"; ")"; "{"; "}"]]).
  cbv [one_lines other_lines append]. repeat (apply Forall2_cons; [cbv [map]; line_tac|]). apply Forall2_nil.
Qed.
Lemma other_tokens : text_tokens (join other_lines) (map chars ["potential"; "("; "A"; ")"; "{"; "}"]).
Proof.
  apply (join_tokens other_lines [[]; map chars ["potential"; "("; "A"; ")"; "{"; "}"]]).
  cbv [one_lines other_lines append]. repeat (apply Forall2_cons; [cbv [map]; line_tac|]). apply Forall2_nil.
Qed.
