(** * A NET file of one clique and a data file for it *)
From Coq Require Import String Ascii Permutation QArith.QArith QArith.Qcanon.
From Verif Require Import Base StringSpec PotentialModel PotentialSpec AssignSpec VariableModel NipSpec SeriesFileModel SeriesFileSpec ParseModel ParseSpec
  ParseCheck ParseProofs10 NetLexModel NetGrammarModel NetSpec NetCheck NetProofs3 ToolModel ToolSpec.
Import ListNotations.
Open Scope nat_scope.
Local Open Scope string_scope.
Local Open Scope list_scope.
Local Notation chars := list_ascii_of_string.
Local Notation len := List.length.
Local Notation Fin x := (Finite (Q2Qc x)).

Definition jx_net : net := mkNet
  [ mkNode "C" None (Some ["n"; "y"]) None; mkNode "A" None (Some ["n"; "y"]) None; mkNode "B" None (Some ["n"; "y"]) None ]
  [ mkDecl "B" None (Some [Q2Qc (1 # 4); Q2Qc (3 # 4)]);
    mkDecl "A" (Some ["B"]) (Some [Q2Qc (1 # 2); Q2Qc (1 # 2); Q2Qc (1 # 4); Q2Qc (3 # 4)]);
    mkDecl "C" (Some ["A"; "B"]) (Some [Q2Qc (1 # 2); Q2Qc (1 # 2); Q2Qc (1 # 4); Q2Qc (3 # 4); Q2Qc (3 # 4); Q2Qc (1 # 4); Q2Qc (1 # 2); Q2Qc (1 # 2)]) ].
Definition jx_lines : list string :=
  [ "net { }";
    "node C { states = (""n"" ""y""); }"; "node A { states = (""n"" ""y""); }"; "node B { states = (""n"" ""y""); }";
    "potential (B) { data = (0.25 0.75); }";
    "potential (A | B) { data = ((0.5 0.5) (0.25 0.75)); }";
    "potential (C | A B) { data = (((0.5 0.5) (0.25 0.75)) ((0.75 0.25) (0.5 0.5))); }" ].
Definition jx_text : list ascii := join jx_lines.
Definition jx_tokens : list (list ascii) := map chars
  [ "net"; "{"; "}";
    "node"; "C"; "{"; "states"; "="; "("; """n"""; """y"""; ")"; ";"; "}";
    "node"; "A"; "{"; "states"; "="; "("; """n"""; """y"""; ")"; ";"; "}";
    "node"; "B"; "{"; "states"; "="; "("; """n"""; """y"""; ")"; ";"; "}";
    "potential"; "("; "B"; ")"; "{"; "data"; "="; "("; "0.25"; "0.75"; ")"; ";"; "}";
    "potential"; "("; "A"; "|"; "B"; ")"; "{"; "data"; "="; "("; "("; "0.5"; "0.5"; ")"; "("; "0.25"; "0.75"; ")"; ")"; ";"; "}";
    "potential"; "("; "C"; "|"; "A"; "B"; ")"; "{"; "data"; "="; "("; "("; "("; "0.5"; "0.5"; ")"; "("; "0.25"; "0.75"; ")"; ")";
      "("; "("; "0.75"; "0.25"; ")"; "("; "0.5"; "0.5"; ")"; ")"; ")"; ";"; "}" ].
Definition jx_looks : list looks := [mkLooks None 100 100; mkLooks None 100 100; mkLooks None 100 100].
Definition jx_terminals : list terminal :=
  ([T_key K_net] ++ marks "{}"
   ++ [T_key K_node] ++ names ["C"] ++ marks "{" ++ [T_key K_states] ++ marks "=(" ++ texts ["n"; "y"] ++ marks ");}"
   ++ [T_key K_node] ++ names ["A"] ++ marks "{" ++ [T_key K_states] ++ marks "=(" ++ texts ["n"; "y"] ++ marks ");}"
   ++ [T_key K_node] ++ names ["B"] ++ marks "{" ++ [T_key K_states] ++ marks "=(" ++ texts ["n"; "y"] ++ marks ");}"
   ++ [T_key K_potential] ++ marks "(" ++ names ["B"] ++ marks "){" ++ [T_key K_data] ++ marks "=("
   ++ [T_number (Fin (1 # 4)); T_number (Fin (3 # 4))] ++ marks ");}"
   ++ [T_key K_potential] ++ marks "(" ++ names ["A"] ++ marks "|" ++ names ["B"] ++ marks "){" ++ [T_key K_data] ++ marks "=(("
   ++ [T_number (Fin (1 # 2)); T_number (Fin (1 # 2))] ++ marks ")("
   ++ [T_number (Fin (1 # 4)); T_number (Fin (3 # 4))] ++ marks "));}"
   ++ [T_key K_potential] ++ marks "(" ++ names ["C"] ++ marks "|" ++ names ["A"; "B"] ++ marks "){" ++ [T_key K_data] ++ marks "=((("
   ++ [T_number (Fin (1 # 2)); T_number (Fin (1 # 2))] ++ marks ")(" ++ [T_number (Fin (1 # 4)); T_number (Fin (3 # 4))] ++ marks "))(("
   ++ [T_number (Fin (3 # 4)); T_number (Fin (1 # 4))] ++ marks ")(" ++ [T_number (Fin (1 # 2)); T_number (Fin (1 # 2))] ++ marks ")));}")%list.

Lemma jx_text_tokens : text_tokens jx_text jx_tokens.
Proof.
  assert (X : exists toks, Forall2 (fun l t => line_ok (chars l) t) jx_lines toks /\ concat toks = jx_tokens).
  { eexists. split.
    - repeat (apply Forall2_cons; [line_tac|]). apply Forall2_nil.
    - reflexivity. }
  destruct X as (toks & H & E). rewrite <- E. apply join_tokens. exact H.
Qed.
Lemma jx_reads : Forall2 reads_as jx_tokens jx_terminals.
Proof.
  unfold jx_tokens, jx_terminals. cbv [map app marks names texts list_ascii_of_string].
  repeat (apply Forall2_cons;
    [first [ token_tac | plain "" [0] [2; 5] "." | plain "" [0] [7; 5] "." | plain "" [0] [5] "." ]|]).
  apply Forall2_nil.
Qed.
Lemma jx_document : document jx_net jx_looks (80, 60)%Z jx_terminals.
Proof.
  assert (F : forall s t, s = t -> document jx_net jx_looks (80, 60)%Z s -> document jx_net jx_looks (80, 60)%Z t)
    by (intros; subst; assumption).
  eapply F; [|apply (net_document [])].
  2:{ apply no_fields. }
  2:{ do 3 (apply more_nodes_text; [match goal with |- node_in_text (mkNode ?s _ _ _) _ _ => apply (node_of false s [F_states ["n"; "y"]]) end;
        apply more_fields; [reflexivity|apply text_states; discriminate|apply no_fields]|]).
      apply no_nodes_text. }
  2:{ apply more_potentials_text; [apply potential_of; apply some_data; [discriminate|repeat constructor]|].
      apply more_potentials_text; [apply potential_of; apply some_data; [discriminate|]|].
      { apply (nested_group [Fin (1 # 2); Fin (1 # 2)] [Fin (1 # 4); Fin (3 # 4)]); [repeat constructor|].
        apply (nested_group [Fin (1 # 4); Fin (3 # 4)] []); repeat constructor. }
      apply more_potentials_text; [apply potential_of; apply some_data; [discriminate|]|].
      { apply (nested_group [Fin (1 # 2); Fin (1 # 2); Fin (1 # 4); Fin (3 # 4)] [Fin (3 # 4); Fin (1 # 4); Fin (1 # 2); Fin (1 # 2)]).
        - apply (nested_group [Fin (1 # 2); Fin (1 # 2)] [Fin (1 # 4); Fin (3 # 4)]); [repeat constructor|].
          apply (nested_group [Fin (1 # 4); Fin (3 # 4)] []); repeat constructor.
        - apply (nested_group [Fin (3 # 4); Fin (1 # 4); Fin (1 # 2); Fin (1 # 2)] []); [|repeat constructor].
          apply (nested_group [Fin (3 # 4); Fin (1 # 4)] [Fin (1 # 2); Fin (1 # 2)]); [repeat constructor|].
          apply (nested_group [Fin (1 # 2); Fin (1 # 2)] []); repeat constructor. }
      apply no_potentials_text. }
  reflexivity.
Qed.

Lemma jx_ok : net_ok jx_net.
Proof.
  constructor.
  - discriminate.
  - split; cbn; repeat constructor; cbn; intuition (try discriminate; lia).
  - intros d Hd. cbn in Hd; repeat (destruct Hd as [<-|Hd]; [split; discriminate|]); destruct Hd.
  - intros l1 d1 l2 d2 l3 E N. assert (I : In d1 (n_nodes jx_net)) by (rewrite E; apply in_elt).
    cbn in I; repeat (destruct I as [<-|I]; [now elim N|]); destruct I.
  - apply Permutation_sym. apply (Permutation_rev ["C"; "A"; "B"]).
  - intros d Hd. cbn in Hd.
    repeat (destruct Hd as [<-|Hd]; [split; [intros s Hs; cbn in *; tauto|]; split; [repeat constructor; cbn; intuition discriminate|];
      split; [discriminate|]; split; [intros l E; injection E as <-; split; [vm_compute; lia|repeat constructor; discriminate]|vm_compute; discriminate]|]).
    destruct Hd.
  - intros d s Hd. cbn in Hd; repeat (destruct Hd as [<-|Hd]; [discriminate|]); destruct Hd.
  - intros d1 d2 s H1 H2 E1 E2. cbn in H1; repeat (destruct H1 as [<-|H1]; [discriminate E1|]); destruct H1.
  - intros d Hd HP. cbn in Hd. destruct Hd as [<-|[<-|[<-|[]]]]; try discriminate HP.
    exists (Q2Qc (1 # 4)). split; [|reflexivity]. cbn; auto.
  - cbn; unfold INT_MAX; lia.
Qed.
Lemma jx_proper : proper jx_net.
Proof.
  intros d a Hd Ha. assert (A0 : a 0 < 2) by apply Ha. assert (A1 : a 1 < 2) by apply Ha. assert (A2 : a 2 < 2) by apply Ha. cbn in Hd.
  destruct Hd as [<-|[<-|[<-|[]]]]; unfold sumv, upd, den, cell, family_of, child_of, parents_of; cbn;
    destruct (a 2) as [|[|]]; try lia; destruct (a 1) as [|[|]]; try lia; apply Qc_is_canon; vm_compute; reflexivity.
Qed.
Lemma jx_net_file : net_file kz kz 0 jx_text jx_net.
Proof.
  constructor.
  - exists jx_tokens, jx_terminals, jx_looks, (80, 60)%Z. split; [exact jx_text_tokens|]. split; [exact jx_reads|exact jx_document].
  - exact jx_ok.
  - intros u v (d & Hd & <- & Hu). cbn in Hd.
    destruct Hd as [<-|[<-|[<-|[]]]]; cbn in Hu; repeat (destruct Hu as [<-|Hu]; [cbn; lia|]); destruct Hu.
  - exact jx_proper.
  - intros u v (H & _). exfalso. apply H. destruct v as [|[|[|[|v]]]]; reflexivity.
  - intros [|[|[|v]]]; cbn; try (repeat constructor; lia). destruct v; cbn; repeat constructor; lia.
  - apply small_fits; [apply jx_ok|]. unfold INT_MAX. cbn. lia.
  - vm_compute. discriminate.
Qed.
Lemma jx_connected : forall u v, u < ParseSpec.size jx_net -> v < ParseSpec.size jx_net -> u <> v -> connected jx_net u v.
Proof.
  intros u v Hu Hv _. left. exists (nth 2 (n_potentials jx_net) (mkDecl "" None None)). cbn in Hu, Hv. split; [cbn; auto|].
  destruct u as [|[|[|u]]]; try lia; destruct v as [|[|[|v]]]; try lia; cbn; auto.
Qed.
Definition jx_data : list ascii := join ["C"; "y"].
Definition jx_cols : list (nat * nat) := [(0, 0)].
Definition jx_series : series := mkSeries [1; 2] [0] 1 [[1]]%Z.
Lemma jx_data_file : data_file jx_net jx_data jx_cols [jx_series].
Proof.
  exists (map chars ["C"]), (map (map chars) [["y"]; []]).
  split. { split; [vm_compute; intuition discriminate|]. vm_compute. repeat constructor. }
  split. { exists 0. split; [vm_compute; reflexivity|discriminate]. }
  split; [reflexivity|]. split; [repeat constructor; intros []|]. vm_compute. reflexivity.
Qed.
