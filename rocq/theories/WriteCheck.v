(** * Concrete files for C72 and C73 *)
From Coq Require Import String Ascii Permutation QArith.QArith QArith.Qcanon QArith.Qabs.
From Verif Require Import Base BaseProofs StringSpec PotentialModel PotentialSpec PotentialProofs VariableModel JoinTreeModel AssignSpec AssignProofs JoinTreeSpec
  NipModel NipSpec SliceModel SliceSpec LearnSpec ParseModel ParseSpec ParseCheck ParseProofs4 ParseProofs6 ParseProofs8 ParseProofs9 ParseProofs10
  NetLexModel NetGrammarModel NetSpec NetCheck NetGrammarProofs
  WriteModel WriteSpec WriteProofs6 WriteProofs7 WriteProofs8 WriteProofs9 WriteProofs10 WriteProofs11.
Import ListNotations.
Open Scope nat_scope.
Local Open Scope string_scope.
Local Open Scope list_scope.
Local Open Scope res_scope.
Local Notation chars := list_ascii_of_string.
Local Notation len := List.length.

(** ** The hidden Markov model px_net *)
Ltac quotable_tac := split; [cbn; lia|]; repeat (constructor; [repeat split; discriminate|]); constructor.
Ltac symbol_writable_tac :=
  split; [cbn; lia|]; split; [split; [discriminate|]; split; [repeat (constructor; [word_char_tac|]); constructor|];
    split; [reflexivity|]; split; [intros []; discriminate|intros c E; try discriminate E; injection E as <-; reflexivity]|];
  split; [vm_compute; intuition discriminate|discriminate].
Lemma px_printable : printable px_net.
Proof.
  constructor.
  - repeat (constructor; [symbol_writable_tac|]). constructor.
  - intros d Hd. cbn in Hd. repeat (destruct Hd as [<-|Hd]; [cbn; repeat (constructor; [quotable_tac|]); constructor|]). destruct Hd.
  - intros d s Hd. cbn in Hd. repeat (destruct Hd as [<-|Hd]; [cbn; intros E; injection E as <-; quotable_tac|]). destruct Hd.
  - intros d Hd. cbn in Hd. repeat (destruct Hd as [<-|Hd]; [cbn; lia|]). destruct Hd.
  - intros d Hd. cbn in Hd. repeat (destruct Hd as [<-|Hd]; [cbn; lia|]). destruct Hd.
Qed.

Lemma six_from : forall y, Qden (this (y * million)%Qc) = 1%positive -> six_decimals y.
Proof.
  intros y H. exists (Qnum (this (y * million)%Qc)). apply Qc_is_canon. cbn [this Q2Qc]. rewrite Qred_correct.
  destruct (this (y * million)%Qc) as [x d]. cbn [Qnum Qden] in *. subst d. reflexivity.
Qed.
Lemma six_data : forall t d a, net_ok t -> In d (n_potentials t) -> valid (card_in t) a ->
  Forall six_decimals (data (table_of t d)) -> six_decimals (den (family_of t d) (table_of t d) a).
Proof.
  intros t d a NO Hd Ha F. assert (OK := no_decl t NO d Hd). destruct (ParseProofs3.table_of_table t NO d OK) as ((_ & (WF1 & WF2 & _) & D) & _).
  rewrite Forall_forall in F. apply F. unfold den, cell. apply nth_In. rewrite WF2, D. apply flat_lt.
  clear - Ha. induction (family_of t d); constructor; auto.
Qed.
Lemma px_six : forall v a, v < ParseSpec.size px_net -> valid (card_in px_net) a -> six_decimals (factor_of px_net (decl_of px_net v) a).
Proof.
  intros v a Hv Ha. assert (IN : In (decl_of px_net v) (n_potentials px_net)) by (apply decl_of_ok; [exact px_ok|auto]).
  rewrite (proper_factor px_net px_ok px_children_first px_proper) by auto. apply six_data; auto; [exact px_ok|].
  cbn in IN. repeat (destruct IN as [<-|IN]; [repeat (constructor; [apply six_from; vm_compute; reflexivity|]); constructor|]). destruct IN.
Qed.

(** ** A file whose table for C is not written completely

    C depends on A and B, which is impossible in state b if A is in state a. *)
Definition lx_lines : list string :=
  [ "node C { states = (""a"" ""b""); }";
    "node B { states = (""a"" ""b""); }";
    "node A { states = (""a"" ""b""); }";
    "potential (A) { data = (0.5 0.5); }";
    "potential (B | A) { data = (1 0 0.5 0.5); }";
    "potential (C | A B) { data = (0.5 0.5 0.5 0.5 0.5 0.5 0.5 0.5); }" ].
Definition lx_text : list ascii := join lx_lines.
Definition lx_node (s : string) : list string := ["node"; s; "{"; "states"; "="; "("; """a"""; """b"""; ")"; ";"; "}"].
Definition lx_tokens : list (list ascii) := map chars
  (lx_node "C" ++ lx_node "B" ++ lx_node "A" ++
   ["potential"; "("; "A"; ")"; "{"; "data"; "="; "("; "0.5"; "0.5"; ")"; ";"; "}";
    "potential"; "("; "B"; "|"; "A"; ")"; "{"; "data"; "="; "("; "1"; "0"; "0.5"; "0.5"; ")"; ";"; "}";
    "potential"; "("; "C"; "|"; "A"; "B"; ")"; "{"; "data"; "="; "("; "0.5"; "0.5"; "0.5"; "0.5"; "0.5"; "0.5"; "0.5"; "0.5"; ")"; ";"; "}"]).
Definition lx_half : Qc := Q2Qc (1 # 2).
Definition lx_b : list Qc := [Q2Qc 1; Q2Qc 0; lx_half; lx_half].
Definition lx_net : net := mkNet
  [ mkNode "C" None (Some ["a"; "b"]) None; mkNode "B" None (Some ["a"; "b"]) None; mkNode "A" None (Some ["a"; "b"]) None ]
  [ mkDecl "A" None (Some [lx_half; lx_half]); mkDecl "B" (Some ["A"]) (Some lx_b);
    mkDecl "C" (Some ["A"; "B"]) (Some (repeat lx_half 8)) ].
Definition lx_looks : list looks := repeat (mkLooks None 100 100) 3.
Definition lx_states (s : string) : list terminal :=
  [T_key K_node] ++ NetSpec.names [s] ++ marks "{" ++ [T_key K_states] ++ marks "=(" ++ texts ["a"; "b"] ++ marks ");}".
Definition lx_given (s : string) (l : list string) (q : list Qc) : list terminal :=
  [T_key K_potential] ++ marks "(" ++ NetSpec.names [s] ++ marks "|" ++ NetSpec.names l ++ marks "){" ++ [T_key K_data] ++ marks "=("
  ++ map (fun x => T_number (Finite x)) q ++ marks ");}".
Definition lx_terminals : list terminal :=
  lx_states "C" ++ lx_states "B" ++ lx_states "A" ++
  [T_key K_potential] ++ marks "(" ++ NetSpec.names ["A"] ++ marks "){" ++ [T_key K_data] ++ marks "=("
  ++ [T_number (Finite lx_half); T_number (Finite lx_half)] ++ marks ");}"
  ++ lx_given "B" ["A"] lx_b ++ lx_given "C" ["A"; "B"] (repeat lx_half 8).

Lemma lx_text_tokens : text_tokens lx_text lx_tokens.
Proof.
  assert (X : exists toks, Forall2 (fun l t => line_ok (chars l) t) lx_lines toks /\ concat toks = lx_tokens).
  { eexists. split.
    - repeat (apply Forall2_cons; [line_tac|]). apply Forall2_nil.
    - reflexivity. }
  destruct X as (toks & H & E). rewrite <- E. apply join_tokens. exact H.
Qed.
Lemma lx_reads : Forall2 reads_as lx_tokens lx_terminals.
Proof.
  unfold lx_tokens, lx_terminals, lx_states, lx_given, lx_node, lx_b. cbv [map app marks NetSpec.names texts list_ascii_of_string repeat].
  repeat (apply Forall2_cons; [first [token_tac | plain "" [1] (@nil nat) "" | plain "" [0] (@nil nat) "" | plain "" [0] [5] "."]|]).
  apply Forall2_nil.
Qed.
Lemma lx_document : document lx_net lx_looks (80, 60)%Z lx_terminals.
Proof.
  assert (F : forall s t, s = t -> document lx_net lx_looks (80, 60)%Z s -> document lx_net lx_looks (80, 60)%Z t) by (intros; subst; assumption).
  assert (ND : forall s, node_in_text (mkNode s None (Some ["a"; "b"]) None) (mkLooks None 100 100) (lx_states s)).
  { intros s. apply (node_of false s [F_states ["a"; "b"]] (([T_key K_states] ++ marks "=(" ++ texts ["a"; "b"] ++ marks ");") ++ [])).
    apply more_fields; [reflexivity| |apply no_fields]. apply (text_states ["a"; "b"]). discriminate. }
  assert (NS : forall q, nested (map Finite q) (map (fun x => T_number (Finite x)) q)) by (induction q; constructor; auto).
  eapply F; [|apply plain_document].
  2:{ apply more_nodes_text; [apply ND|]. apply more_nodes_text; [apply ND|]. apply more_nodes_text; [apply ND|]. apply no_nodes_text. }
  2:{ apply more_potentials_text; [apply potential_of; apply some_data; [discriminate|apply (NS [lx_half; lx_half])]|].
      apply more_potentials_text; [apply potential_of; apply some_data; [discriminate|apply (NS lx_b)]|].
      apply more_potentials_text; [apply potential_of; apply some_data; [discriminate|apply (NS (repeat lx_half 8))]|].
      apply no_potentials_text. }
  reflexivity.
Qed.

Lemma lx_ok : net_ok lx_net.
Proof.
  constructor.
  - discriminate.
  - split; cbn; repeat constructor; cbn; intuition (try discriminate; lia).
  - intros d Hd. cbn in Hd; repeat (destruct Hd as [<-|Hd]; [split; discriminate|]); destruct Hd.
  - intros l1 d1 l2 d2 l3 E K. exfalso. apply K. assert (I : In d1 (n_nodes lx_net)) by (rewrite E; apply in_elt).
    cbn in I; repeat (destruct I as [<-|I]; [reflexivity|]); destruct I.
  - apply Permutation_sym. apply (Permutation_rev ["C"; "B"; "A"]).
  - intros d Hd. cbn in Hd. destruct Hd as [<-|[<-|[<-|[]]]]; (split; [intros s Hs; cbn in *; tauto|]; split; [repeat constructor; cbn; intuition discriminate|];
      split; [discriminate|]; split; [intros l E; injection E as <-; split; [cbn; lia|repeat constructor; discriminate]|unfold INT_MAX; cbn; lia]).
  - intros d s Hd E. cbn in Hd; repeat (destruct Hd as [<-|Hd]; [discriminate E|]); destruct Hd.
  - intros d1 d2 s Hd H2 E. cbn in Hd; repeat (destruct Hd as [<-|Hd]; [discriminate E|]); destruct Hd.
  - intros d Hd HP. cbn in Hd. destruct Hd as [<-|[<-|[<-|[]]]]; try discriminate HP. exists lx_half. split; [left; reflexivity|reflexivity].
  - cbn; unfold INT_MAX; lia.
Qed.
Lemma lx_children_first : children_first lx_net.
Proof.
  intros u v (d & Hd & <- & Hu). cbn in Hd.
  destruct Hd as [<-|[<-|[<-|[]]]]; cbn in Hu; repeat (destruct Hu as [<-|Hu]; [cbn; lia|]); destruct Hu.
Qed.
Lemma lx_roots : roots_given lx_net.
Proof. intros d Hd. cbn in Hd. destruct Hd as [<-|[<-|[<-|[]]]]; discriminate. Qed.
Lemma lx_two_slices : two_slices lx_net.
Proof. intros u v (H & _). exfalso. apply H. destruct v as [|[|[|[|v]]]]; reflexivity. Qed.
Lemma lx_proper : proper lx_net.
Proof.
  intros d a Hd Ha. assert (A0 := Ha 0). assert (A1 := Ha 1). assert (A2 := Ha 2). cbn in Hd, A0, A1, A2.
  destruct Hd as [<-|[<-|[<-|[]]]]; unfold sumv, upd, den, cell, family_of, child_of, parents_of; cbn;
    destruct (a 2) as [|[|]]; try lia; destruct (a 1) as [|[|]]; try lia; apply Qc_is_canon; vm_compute; reflexivity.
Qed.
Lemma lx_columns : columns_ok lx_net.
Proof. intros d a Hd Ha H. rewrite (lx_proper d a Hd Ha) in H. discriminate H. Qed.
Lemma lx_printable : printable lx_net.
Proof.
  constructor.
  - repeat (constructor; [symbol_writable_tac|]). constructor.
  - intros d Hd. cbn in Hd. repeat (destruct Hd as [<-|Hd]; [cbn; repeat (constructor; [quotable_tac|]); constructor|]). destruct Hd.
  - intros d s Hd. cbn in Hd. repeat (destruct Hd as [<-|Hd]; [discriminate|]). destruct Hd.
  - intros d Hd. cbn in Hd. repeat (destruct Hd as [<-|Hd]; [cbn; lia|]). destruct Hd.
  - intros d Hd. cbn in Hd. repeat (destruct Hd as [<-|Hd]; [cbn; lia|]). destruct Hd.
Qed.
Lemma lx_fits : cliques_fit kz kz lx_net.
Proof. apply small_fits; [apply lx_ok|]. unfold INT_MAX. cbn. lia. Qed.

(** A in state a, B in state b. *)
Definition lx_at (v : nat) : nat := match v with 1 => 1 | _ => 0 end.
Definition lx_lost (r : res (option (list named_variable * model * globals))) : bool :=
  match r with
  | Ok (Some (_, m, _)) => Qeq_bool (this (sumv (card_in lx_net) [0] (family_sum (card_in lx_net) m 0) lx_at)) 0
  | _ => false
  end.
Lemma lx_lost_ok : lx_lost (parse_model kz kz (fresh_globals 0) lx_net) = true.
Proof. vm_compute. reflexivity. Qed.
Lemma lx_refuted : exists contents toks ts t ks size names pages m g m' text toks' ts' t',
  text_tokens contents toks /\ Forall2 reads_as toks ts /\ document t ks size ts /\
  net_ok t /\ children_first t /\ two_slices t /\ proper t /\ roots_given t /\ printable t /\
  load kz kz (fresh_globals 0) contents = Ok (Some (names, pages, size, m, g)) /\
  write_model true true names pages size m = Ok (m', Some text, NO_ERROR) /\
  text_tokens text toks' /\ Forall2 reads_as toks' ts' /\ document t' (map labelled ks) size ts' /\
  same_declarations t t' /\ ~ columns_ok t'.
Proof.
  assert (HC : (0 + Z.of_nat (ParseSpec.size lx_net) <= LONG_MAX)%Z) by (cbn; unfold LONG_MAX; lia).
  destruct (parse_succeeds lx_net lx_ok 0 kz kz HC lx_fits) as (names & m & g & PM & P).
  destruct (load_succeeds kz kz _ lx_text lx_tokens lx_terminals lx_net lx_looks (80, 60)%Z lx_text_tokens lx_reads lx_document names m g PM) as (pages & LOAD).
  destruct (trip_lemma kz kz 0 lx_text lx_tokens lx_terminals lx_net lx_looks (80, 60)%Z lx_text_tokens lx_reads lx_document
    lx_ok lx_children_first lx_two_slices lx_columns lx_roots lx_printable HC names pages (80, 60)%Z m g LOAD)
    as (m' & text & toks' & ts' & t' & W & T1 & T2 & D & NO' & _ & _ & _ & SD & _ & LOST & _).
  exists lx_text, lx_tokens, lx_terminals, lx_net, lx_looks, (80, 60)%Z, names, pages, m, g, m', text, toks', ts', t'.
  do 15 (split; [first [exact lx_text_tokens|exact lx_reads|exact lx_document|exact lx_ok|exact lx_children_first|exact lx_two_slices|exact lx_proper
    |exact lx_roots|exact lx_printable|exact LOAD|exact W|exact T1|exact T2|exact D|exact SD]|]).
  intros CO'.
  assert (V : valid (card_in lx_net) lx_at). { intros [|[|[|[|v]]]]; cbn; lia. }
  assert (Z : forall x, x < 2 -> entry t' 0 (upd lx_at 0 x) = 0%Qc).
  { intros x Hx. apply LOST; [cbn; lia|apply upd_valid; [exact V|cbn; lia]|discriminate|]. unfold possible.
    assert (L := lx_lost_ok). rewrite PM in L. unfold lx_lost in L. apply Qeq_bool_eq in L.
    assert (E : sumv (card_in lx_net) [0] (family_sum (card_in lx_net) m 0) lx_at = 0%Qc) by (apply Qc_is_canon; exact L).
    intros K. apply K. rewrite <- E. cbn [sumv]. apply qsum_map_ext. intros y _.
    apply (sumv_extensional _ _ _ (den_extensional _ _)). intros w. unfold upd. destruct (Nat.eqb w 0); auto. }
  destruct (decl_of_ok t' NO' 0) as (A & B). { rewrite (same_size lx_net t' SD). cbn. lia. }
  apply (CO' (decl_of t' 0) lx_at A).
  - intros v. rewrite (same_card lx_net t' SD). apply V.
  - rewrite B. cbn [sumv]. rewrite (same_card lx_net t' SD). change (card_in lx_net 0) with 2. cbn [seq map].
    fold (entry t' 0 (upd lx_at 0 0)). fold (entry t' 0 (upd lx_at 0 1)). rewrite !Z by lia. reflexivity.
Qed.

(** ** The model of the file px_text can be written *)
Lemma px_loaded : exists names pages m g, load kz kz (fresh_globals 0) px_text = Ok (Some (names, pages, (80, 40)%Z, m, g)) /\
  writable (card_in px_net) m names pages (80, 40)%Z /\ learnable (card_in px_net) m /\ readable (card_in px_net) m pages /\
  factored (card_in px_net) m (fun v => factor_of px_net (decl_of px_net v)) /\
  conditional_factors (card_in px_net) m (fun v => factor_of px_net (decl_of px_net v)).
Proof.
  assert (HC : (0 + Z.of_nat (ParseSpec.size px_net) <= LONG_MAX)%Z) by (cbn; unfold LONG_MAX; lia).
  destruct (parse_succeeds px_net px_ok 0 kz kz HC px_fits) as (names & m & g & PM & P).
  destruct (load_succeeds kz kz _ px_text px_tokens px_terminals px_net px_looks (80, 40)%Z px_text_tokens px_reads px_document names m g PM) as (pages & LOAD).
  destruct (load_parsed kz kz _ px_text px_tokens px_terminals px_net px_looks (80, 40)%Z px_text_tokens px_reads px_document _ _ _ _ _ LOAD)
    as (_ & _ & vl & m0 & g0 & YY & ->).
  destruct (C54_lemma kz kz 0 px_net vl m0 g0 px_ok HC YY) as (LVL & C54).
  assert (NEXT : forall v x, nth_error vl v = Some x -> pv_next x = next_in px_net v) by (intros v x Hx; apply (C54 v x Hx)).
  exists names, (map (fun '(k, v) => page_of k v) (combine px_looks vl)), m, g. split; [exact LOAD|].
  split; [|split; [|split; [|split]]].
  - exact (read_writable px_net px_looks (80, 40)%Z (document_looks _ _ _ _ px_document) px_ok px_children_first px_two_slices px_columns px_roots px_printable names m P vl LVL NEXT).
  - exact (parsed_learnable px_net px_ok (acyclic_children_first px_net px_ok px_children_first) px_two_slices names m P).
  - exact (read_readable px_net px_looks (80, 40)%Z (document_looks _ _ _ _ px_document) px_ok px_printable names m P vl LVL NEXT).
  - apply P.
  - exact (read_conditional px_net px_ok px_children_first px_two_slices px_columns px_roots names m P).
Qed.
