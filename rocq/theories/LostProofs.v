(** * Memory of files that are not accepted: proofs (C105) *)
From Coq Require Import Permutation String.
From Verif Require Import Base BaseProofs PotentialModel VariableModel HeapProofs JoinTreeModel GraphModel NipModel MemoryModel MemorySpec MemoryProofs MemoryProofs2 MemoryProofs3 MemoryProofs4 MemoryProofs5 MemoryProofs6 MemoryProofs7 MemoryProofs8 MemoryProofs9 MemoryProofs10 MemoryProofs12 MemoryModel3 MemorySpec3 MemoryProofs20 MemoryProofs21 MemoryProofs22 MemoryProofs23 MemoryProofs24 MemoryProofs25 ParseModel ParseSpec NetLexModel NetGrammarModel NetSpec NetGrammarProofs MemoryModel4 MemorySpec4 MemoryProofs26 MemoryProofs27 MemoryProofs28 KeptSpec KeptProofs LostModel LostSpec.
Import ListNotations.
Open Scope nat_scope.
Local Open Scope res_scope.
Local Open Scope list_scope.
Local Notation len := List.length.

Lemma m_header_ok : forall h m L f, owns m L f -> exists m' new, m_header m h = Ok m' /\ owns m' (new ++ L) f /\ len new = strings_in h.
Proof.
  induction h as [|x h IH]; intros m L f O; [exists m, []; auto|].
  destruct x; cbn [m_header]; unfold strings_in; cbn [filter];
    first [ destruct (m_text_ok _ _ _ O) as (m1 & s1 & E1 & O1); rewrite E1; cbn [bind];
            destruct (IH m1 _ _ O1) as (m2 & new & E2 & O2 & N2); exists m2, (new ++ [s1]); split; [exact E2|];
            split; [rewrite <- app_assoc; exact O2|]; rewrite app_length, N2; unfold strings_in; cbn; lia
          | destruct (m_scrap_ok _ _ _ O) as (m1 & E1 & O1); rewrite E1; cbn [bind]; exact (IH m1 _ _ O1) ].
Qed.

Lemma declarations_split : forall a b g g', node_declarations g (a ++ b) = Ok (Some g') ->
  exists g1, node_declarations g a = Ok (Some g1) /\ node_declarations g1 b = Ok (Some g').
Proof.
  induction a as [|d a IH]; intros b g g' E; cbn [app node_declarations] in *; [eauto|].
  destruct (node_declaration g d) as [[g1|]| |]; cbn [bind] in *; try discriminate E. exact (IH b g1 g' E).
Qed.

Definition decl (x : string * list field) := declared (fst x) (snd x).
Definition good (m : memory) (st : statics) (vs : list nat) (g : globals) (lost : list nat) : Prop :=
  exists w t, inv m vs [] (w_vars w) t (led (sblk st ++ lost) ++ []) /\ rep w [] t /\ st_ok st g vs /\
    w_vars w = repeat true (len vs).

Lemma good_more : forall m st vs g lost m' lost', good m st vs g lost ->
  (forall f, owns m (sblk st ++ lost) f -> owns m' (sblk st ++ lost') f) -> good m' st vs g lost'.
Proof.
  intros m st vs g lost m' lost' (w & t & I & R & S & W) H. exists w, t. split; [|split; [exact R|split; [exact S|exact W]]].
  eapply owns_inv; [exact I|]. apply H. exact (inv_owns _ _ _ _ _ _ _ I).
Qed.

Lemma m_attempt_ok : forall a m st vs g lost g', good m st vs g lost ->
  (forall x y, In x (nodes_of a) -> In y (state_lists (snd x)) -> y <> []) ->
  node_declarations g (map decl (nodes_of a)) = Ok (Some g') ->
  exists m' st' vs' lost', m_attempt m st vs g a = Ok (Some (m', st', vs ++ vs', g')) /\ good m' st' (vs ++ vs') g' lost' /\
    len vs' = len (nodes_of a) /\ len lost' = len lost + lost_by a.
Proof.
  intros a m st vs g lost g' G NE E. unfold m_attempt. destruct (take m) as [m0 x0] eqn:E0.
  assert (G0 : good m0 st vs g (x0 :: lost)).
  { eapply good_more; [exact G|]. intros f O. assert (O1 := take_owns _ _ _ O _ _ E0).
    eapply owns_perm; [exact O1|]. perm. }
  destruct a as [|nodes h]; cbn [nodes_of map node_declarations lost_by] in *.
  - injection E as <-. exists m0, st, [], (x0 :: lost). rewrite app_nil_r. split; [reflexivity|]. split; [exact G0|]. split; [reflexivity|]. cbn. lia.
  - destruct G0 as (w & t & I & R & S & W).
    destruct (m_nodes_ok nodes m0 st vs w t g (x0 :: lost) g' I R S NE E) as (m1 & st1 & vs1 & t1 & lost1 & E1 & I1 & R1 & S1 & N1 & N2).
    rewrite E1. cbn [bind].
    destruct (m_header_ok h m1 (sblk st1 ++ lost1) _ (inv_owns _ _ _ _ _ _ _ I1)) as (m2 & new & E2 & O2 & N3). rewrite E2. cbn [bind].
    exists m2, st1, vs1, (new ++ lost1). split; [reflexivity|]. split; [|split; [exact N1|]].
    + eexists _, t1. split; [|split; [exact R1|split; [exact S1|]]].
      * eapply owns_inv; [exact I1|]. eapply owns_perm; [exact O2|]. perm.
      * cbn [w_vars]. rewrite W, app_length, N1, repeat_app. reflexivity.
    + rewrite app_length, N2, N3. cbn [len]. lia.
Qed.

Lemma m_attempts_ok : forall l m st vs g lost g', good m st vs g lost ->
  (forall x y, In x (all_nodes l) -> In y (state_lists (snd x)) -> y <> []) ->
  node_declarations g (map decl (all_nodes l)) = Ok (Some g') ->
  exists m' st' vs' lost', m_attempts m st vs g l = Ok (Some (m', st', vs ++ vs', g')) /\ good m' st' (vs ++ vs') g' lost' /\
    len vs' = len (all_nodes l) /\ len lost' = len lost + list_sum (map lost_by l).
Proof.
  induction l as [|a l IH]; intros m st vs g lost g' G NE E; cbn [m_attempts all_nodes flat_map map] in *.
  - injection E as <-. exists m, st, [], lost. rewrite app_nil_r. split; [reflexivity|]. split; [exact G|]. split; [reflexivity|]. cbn. lia.
  - rewrite map_app in E. destruct (declarations_split _ _ _ _ E) as (g1 & Ea & Eb).
    destruct (m_attempt_ok a m st vs g lost g1 G) as (m1 & st1 & vs1 & lost1 & E1 & G1 & N1 & N2); [|exact Ea|].
    { intros x y Hx. apply NE. apply in_or_app. left. exact Hx. }
    rewrite E1. cbn [bind].
    destruct (IH m1 st1 (vs ++ vs1) g1 lost1 g' G1) as (m2 & st2 & vs2 & lost2 & E2 & G2 & N3 & N4); [|exact Eb|].
    { intros x y Hx. apply NE. apply in_or_app. right. exact Hx. }
    exists m2, st2, (vs1 ++ vs2), lost2. rewrite app_assoc. split; [exact E2|]. split; [exact G2|].
    split; [rewrite !app_length, N1, N3; reflexivity|]. rewrite N4, N2. cbn [list_sum fold_right]. unfold list_sum. lia.
Qed.

Lemma free_variables_ok : forall vs G i m f, len G = len vs -> (forall j, j < len vs -> exists card, var (nth j vs 0) (i + j) card (nth j G [])) ->
  heap_is m (concat G ++ f) -> exists m', free_variables m vs = Ok m' /\ heap_is m' f.
Proof.
  induction vs as [|v vs IH]; intros [|g G] i m f N H HP; try discriminate N; [exists m; auto|].
  cbn [free_variables]. destruct (H 0 ltac:(cbn; lia)) as (card & V). cbn [nth] in V. cbn [concat] in HP. rewrite <- app_assoc in HP.
  destruct (free_variable_ok m _ _ _ _ _ V HP) as (m1 & E1 & H1). rewrite E1. cbn [bind].
  apply (IH G (S i) m1 f); [cbn in N; lia| |exact H1]. intros j Hj. destruct (H (S j) ltac:(cbn; lia)) as (c & Vj). exists c. cbn [nth] in Vj.
  replace (S i + j) with (i + S j) by lia. exact Vj.
Qed.

Lemma nth_repeat_one : forall n j, j < n -> nth j (repeat true n) false = true.
Proof. induction n as [|n IH]; intros [|j] H; cbn; try lia; apply IH; lia. Qed.

Lemma clean_up_ok : forall m st vs g lost, good m st vs g lost -> exists m', clean_up m st vs = Ok m' /\ live m' = len lost.
Proof.
  intros m st vs g lost (w & t & (V & C & D & HP) & R & (SL & SR & SP & SG & SV) & W). unfold clean_up.
  destruct V as (V1 & V2 & V3).
  assert (TC : concat (t_cliques t) = []). { destruct C as (C1 & _). destruct (t_cliques t); [reflexivity|discriminate C1]. }
  assert (TE : t_edges t = []).
  { destruct (t_edges t) as [|e es]; [reflexivity|]. exfalso. inversion D as [|? ? He]. destruct He as (_ & (z & Hx) & _). destruct C as (_ & C2 & _).
    destruct (t_members t); [destruct (e_a e); discriminate Hx|discriminate C2]. }
  unfold blocks_of in HP. rewrite TC, TE in HP. cbn [flat_map] in HP. rewrite !app_nil_r in HP.
  destruct (free_variables_ok vs (t_vars t) 0 m (led (sblk st ++ lost)) V2) as (m1 & E1 & H1); [|exact HP|].
  { intros j Hj. specialize (V3 j Hj). rewrite W in V3. assert (X := nth_repeat_one (len vs) j Hj).
    rewrite X in V3. exact V3. }
  rewrite E1. cbn [bind]. assert (O1 : owns m1 (oblk (st_vars st) ++ rblk (st_relations st) ++ lost) []).
  { unfold owns. rewrite app_nil_r. unfold sblk in H1. rewrite <- app_assoc in H1. exact H1. }
  assert (X : exists m2, match st_vars st with None => Ok m1 | Some ml => m_drop m1 ml end = Ok m2 /\ owns m2 (rblk (st_relations st) ++ lost) []).
  { destruct (st_vars st) as [ml|]; cbn [oblk] in O1; [apply m_drop_ok; exact O1|exists m1; auto]. }
  destruct X as (m2 & E2 & O2). rewrite E2. cbn [bind].
  destruct (m_free_relations_ok (st_relations st) m2 lost [] SR) as (m3 & E3 & O3). { exact O2. }
  exists m3. split; [exact E3|]. rewrite (live_heap _ _ O3). rewrite app_nil_r. unfold led. apply map_length.
Qed.

Lemma decls_decl : forall l, decls_of l = map decl (all_nodes l).
Proof. intros l. unfold decls_of. apply map_ext. intros x. unfold decl. rewrite declared_net. reflexivity. Qed.

Lemma attempts_lost : forall l c, attempts_ok l -> (c + Z.of_nat (len (all_nodes l)) <= LONG_MAX)%Z ->
  exists m st vs g m', m_attempts [] no_statics [] (fresh_globals c) l = Ok (Some (m, st, vs, g)) /\
    len vs = len (all_nodes l) /\ clean_up m st vs = Ok m' /\ live m' = list_sum (map lost_by l).
Proof.
  intros l c (_ & NF & NE) HC.
  destruct (fine_declared c (decls_of l) NF) as (g1 & E1). { unfold decls_of. rewrite map_length. exact HC. }
  rewrite decls_decl in E1. destruct start_ok as (I0 & R0).
  destruct (m_attempts_ok l [] no_statics [] (fresh_globals c) [] g1) as (m & st & vs & lost & E & G & N1 & N2); [|exact NE|exact E1|].
  { exists nothing, (mkTree [] [] [] [] []). split; [exact I0|]. split; [exact R0|]. split; [|reflexivity].
    unfold st_ok. cbn. split; [left; auto|]. split; [exact Logic.I|]. split; [reflexivity|]. split; [reflexivity|congruence]. }
  cbn [app len] in *. destruct (clean_up_ok _ _ _ _ _ G) as (m' & E2 & L2).
  exists m, st, vs, g1, m'. split; [exact E|]. split; [exact N1|]. split; [exact E2|]. rewrite L2, N2. reflexivity.
Qed.

Lemma lost_one : forall l, len l <= list_sum (map lost_by l).
Proof. induction l as [|a l IH]; [cbn; lia|]. assert (1 <= lost_by a) by (destruct a; cbn [lost_by]; lia). cbn [len map list_sum fold_right]. unfold list_sum in IH. lia. Qed.
