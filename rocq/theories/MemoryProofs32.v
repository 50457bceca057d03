(** * Memory of parsing a network (C92) *)
From Coq Require Import Permutation String.
From Verif Require Import Base BaseProofs PotentialModel VariableModel HeapProofs JoinTreeModel GraphModel GraphSpec NipModel MemoryModel MemorySpec MemoryProofs MemoryProofs2 MemoryProofs3 MemoryProofs4 MemoryProofs5 MemoryProofs6 MemoryProofs7 MemoryProofs8 MemoryProofs9 MemoryProofs10 MemoryProofs12 MemoryModel3 MemorySpec3 MemoryProofs20 MemoryProofs21 MemoryProofs22 MemoryProofs23 MemoryProofs24 MemoryProofs25 ParseModel ParseSpec NetGrammarModel NetSpec NetGrammarProofs MemoryModel4 MemorySpec4 MemoryProofs26 MemoryProofs27 MemoryProofs28 MemoryProofs29 MemoryProofs30 MemoryProofs31.
Import ListNotations.
Open Scope nat_scope.
Local Open Scope res_scope.
Local Open Scope list_scope.
Local Notation len := List.length.

Lemma net_nodes : forall s, n_nodes (net_of s) = map (fun x => declared (fst x) (snd x)) (s_nodes s).
Proof. intros s. unfold net_of. cbn [n_nodes]. apply map_ext. intros [a l]. cbn [fst snd]. rewrite declared_net. reflexivity. Qed.

Lemma use_static_ok : forall A m (o : option (mlist * A)) L f, owns m L f -> (match o with Some (ml, _) => incl (mblk ml) L | None => True end) -> use_static m o = Ok tt.
Proof. intros A m [[ml x]|] L f O I; [|reflexivity]. cbn [use_static]. eapply use_list_ok; eassumption. Qed.

Lemma nth_repeat_true : forall n v, v < n -> nth v (repeat true n) false = true.
Proof. induction n as [|n IH]; intros [|v] H; cbn; try lia. apply IH. lia. Qed.
Lemma list_seq : forall (l : list nat), map (fun v => nth v l 0) (seq 0 (len l)) = l.
Proof. induction l as [|a l IH]; [reflexivity|]. cbn [len seq map]. f_equal. rewrite <- seq_shift, map_map. exact IH. Qed.

Lemma C92_state : forall k1 k2 s c names M g, source_ok s -> (c + Z.of_nat (len (s_nodes s)) <= LONG_MAX)%Z ->
  parse_model k1 k2 (fresh_globals c) (net_of s) = Ok (Some (names, M, g)) ->
  exists m x vs leak rest F, m_parse_model k1 k2 (fresh_globals c) s = Ok (Some (m, Some x, names, M, g)) /\ leaked (m_jt M) leak /\
    len vs = len (s_nodes s) /\ holds x vs rest F /\ heap_is m F /\
    ignored s + 11 * len leak <= len rest <= ignored s + 12 * len leak.
Proof.
  intros k1 k2 s c names M g (NO & ST) HC E.
  assert (SZ : size (net_of s) = len (s_nodes s)) by (unfold size; rewrite net_nodes; apply map_length). set (n := len (s_nodes s)) in *.
  destruct (parse_steps (net_of s) NO c ltac:(rewrite SZ; exact HC)) as (g1 & vl0 & gn & gr & vl1 & vl & ps & E1 & E2 & E3 & L0 & E4 & E5 & E6 & E7 & OK & IR & CP & NP & CH).
  assert (HI := no_size _ NO). rewrite SZ in *.
  unfold parse_model, yyparse in E. rewrite E1 in E. cbn [bind] in E. rewrite E2, E3 in E. rewrite E4 in E. cbn [bind] in E. unfold input_action in E. rewrite L0, E5 in E. cbn [bind] in E. rewrite E6 in E. cbn [bind] in E. rewrite E7 in E. cbn [bind] in E.
  unfold m_parse_model.
  (* nodes *)
  destruct start_ok as (I0 & R0).
  destruct (m_nodes_ok (s_nodes s) [] no_statics [] nothing (mkTree [] [] [] [] []) (fresh_globals c) [] g1 I0 R0) as (m1 & st1 & vs & t1 & lost1 & F1 & I1 & R1 & S1 & LV & LL).
  { unfold st_ok. cbn. split; [left; auto|]. split; [exact Logic.I|]. split; [reflexivity|]. split; [reflexivity|congruence]. } { exact ST. } { rewrite net_nodes in E1. exact E1. }
  cbn [app] in F1, I1, S1. cbn [w_vars nothing w_cliques app] in I1, R1. fold n in LV, I1, R1. rewrite F1. cbn [bind]. rewrite E2.
  destruct S1 as (_ & SR & SP & SG & SV). destruct (st_vars st1) as [vars|] eqn:EVARS. 2:{ exfalso. apply SV; [intros ->; cbn in LV; lia|reflexivity]. } clear SV SG.
  set (w1 := mkWorld (repeat true n) []) in *.
  assert (EV1 : forall v, v < n -> exists_var w1 v = true) by (intros v Hv; apply nth_repeat_true; exact Hv).
  assert (O1 := inv_owns _ _ _ _ _ _ _ I1).
  (* the graph *)
  destruct (m_new_graph_ok m1 (new_graph (len vl0)) _ _ O1) as (m2 & G2 & F2 & O2 & MG2). rewrite F2. clear F2.
  (* potentials *)
  destruct (m_potentials_ok (s_pots s) m2 st1 vars vl0 [] Null (gblocks G2 ++ rblk (st_relations st1) ++ lost1) (blocks_of t1 ++ []) [] EVARS) with (y := Live ps) as (m3 & st3 & gl & ps3 & F3 & O3 & P3 & LK3 & V3 & RL3 & PS3).
  { rewrite SP. cbn [pblk concat app]. eapply owns_perm; [exact O2|]. unfold sblk. rewrite EVARS. cbn [oblk]. perm. }
  { unfold pent. rewrite SP. constructor. } { unfold links_ok. rewrite SP. exact Logic.I. } { reflexivity. } { exact E4. }
  rewrite <- PS3 in F3. clear ps3 PS3. rewrite F3. cbn [bind]. clear F3. rewrite <- RL3 in O3, SR. clear RL3 V3.
  (* the actions *)
  unfold m_input_action. set (PB := pblk (st_potentials st3)) in *. set (RB := rblk (st_relations st3)) in *.
  assert (IPB : match st_potentials st3 with Some (ml, _) => incl (mblk ml) PB | None => True end).
  { unfold PB. destruct (st_potentials st3) as [[ml l]|]; [|exact Logic.I]. cbn [pblk]. inc. }
  assert (IRB : match st_relations st3 with Some (ml, _) => incl (mblk ml) RB | None => True end /\ incl (match st_relations st3 with Some (_, texts) => texts | None => [] end) RB).
  { unfold RB. destruct (st_relations st3) as [[ml l]|]; [|split; [exact Logic.I|inc]]. cbn [rblk]. split; inc. }
  assert (UP : forall m L f, owns m L f -> incl PB L -> use_static m (st_potentials st3) = Ok tt).
  { intros m L f O I. eapply use_static_ok; [exact O|]. destruct (st_potentials st3) as [[ml l]|]; [|exact Logic.I]. intros x Hx. apply I, IPB. exact Hx. }
  assert (UR : forall m L f, owns m L f -> incl RB L -> use_static m (st_relations st3) = Ok tt /\ use_all m (match st_relations st3 with Some (_, texts) => texts | None => [] end) = Ok tt).
  { intros m L f O I. destruct IRB as (A & B). split; [eapply use_static_ok; [exact O|]; destruct (st_relations st3) as [[ml l]|]; [|exact Logic.I]; intros x Hx; apply I, A; exact Hx|]. eapply use_all_ok; [exact O|]. intros x Hx. apply I, B. exact Hx. }
  rewrite (use_list_ok m3 vars _ _ O3) by inc. cbn [bind]. rewrite (UP m3 _ _ O3) by inc. cbn [bind].
  destruct (m_vars_to_graph_ok (seq 0 (len vl0)) m3 G2 (mblk vars ++ PB ++ RB ++ lost1) (concat gl ++ blocks_of t1 ++ []) gn) as (m4 & G4 & F4 & O4 & MG4).
  { eapply owns_perm; [exact O3|]. perm. } { rewrite MG2, L0. exact E5. }
  rewrite F4. cbn [bind]. clear F4.
  assert (I4 : inv m4 vs [] (w_vars w1) t1 (led (gblocks G4 ++ mblk vars ++ PB ++ RB ++ lost1) ++ concat gl)).
  { eapply owns_inv; [exact I1|]. eapply owns_frame; [exact O4|]. rewrite app_nil_r. apply Permutation_app_comm. }
  rewrite MG4 in *.
  destruct (m_potentials_to_graph_ok ps m4 G4 vs [] w1 t1 vl0 _ _ gr vl1 I4 R1) as (m5 & G5 & t5 & F5 & I5 & R5 & MG5 & LV1).
  { intros p Hp. apply EV1. apply CH. exact Hp. } { rewrite MG4. exact E6. }
  rewrite F5. cbn [bind]. rewrite E6. cbn [bind]. clear F5. assert (O5 := inv_owns _ _ _ _ _ _ _ I5).
  rewrite (use_list_ok m5 vars _ _ O5) by inc. cbn [bind]. destruct (UR m5 _ _ O5 ltac:(inc)) as (U1 & U2). rewrite U1. cbn [bind]. rewrite U2. cbn [bind]. clear U1 U2.
  rewrite E7. cbn [bind].
  destruct (m_free_relations_ok (st_relations st3) m5 (gblocks G5 ++ mblk vars ++ PB ++ lost1) (blocks_of t5 ++ concat gl) SR) as (m6 & F6 & O6).
  { eapply owns_perm; [exact O5|]. change (match st_relations st3 with Some (ml, texts) => mblk ml ++ texts | None => [] end) with RB. perm. }
  rewrite F6. cbn [bind]. clear F6. assert (I6 := owns_inv _ _ _ _ _ _ _ _ _ I5 O6).
  (* the tree *)
  match type of E with context [graph_to_cliques ?a ?b ?c ?d ?e] => destruct (graph_to_cliques a b c d e) as [[jt er]| |] eqn:EG end; cbn [bind] in E; try discriminate E.
  rewrite <- MG5 in EG, OK, IR.
  destruct (m_graph_to_cliques_ok (k1 vl) (k2 vl) (cardp vl) _ (seq 0 n) m6 vs [] w1 t5 G5 _ _ jt er OK ltac:(destruct n; [lia|discriminate]) IR CP ltac:(rewrite seq_length; exact HI) ltac:(apply forallb_forall; intros v Hv; apply in_seq in Hv; apply EV1; lia) I6 R5 EG)
    as (m7 & array & adr & w7 & t7 & out & lost & F7 & I7 & R7 & MM & CL & LO & NDL & LK1 & LK2).
  rewrite F7. cbn [bind]. clear F7. cbn [app] in I7, R7.
  destruct (building_ok _ _ _ (tree_building _ _) MM) as (ALL & WV); [constructor|].
  assert (EV7 : forall v, v < n -> exists_var w7 v = true) by (intros v Hv; unfold exists_var; rewrite WV; apply (EV1 v Hv)).
  destruct (m_free_graph_ok m7 G5 (array :: mblk vars ++ PB ++ lost1) (blocks_of t7 ++ concat (map snd lost) ++ concat gl)) as (m8 & F8 & O8). { eapply owns_perm; [exact (inv_owns _ _ _ _ _ _ _ I7)|]. perm. }
  rewrite F8. cbn [bind]. clear F8. rewrite (UP m8 _ _ O8) by inc. cbn [bind]. assert (I8 := owns_inv _ _ _ _ _ _ _ _ _ I7 O8).
  match type of E with context [potentials_to_jtree ?a ?b] => destruct (potentials_to_jtree a b) as [[x1|]| |] eqn:EX end; cbn [bind] in E; try discriminate E.
  destruct (m_potentials_to_jtree_ok ps m8 vs adr w7 t7 _ _ _ x1 I8 R7 ltac:(intros p Hp; apply EV7; apply CH; exact Hp) EX) as (m9 & t9 & F9 & I9 & R9 & Q9).
  rewrite F9. cbn [bind]. clear F9.
  destruct (m_free_potentials_ok st3 gl m9 (array :: mblk vars ++ lost1) (blocks_of t9 ++ concat (map snd lost)) LK3 P3) as (m10 & F10 & O10).
  { fold PB. assert (O9 := inv_owns _ _ _ _ _ _ _ I9). eapply owns_perm; [eapply owns_frame; [exact O9|]|]; perm. }
  rewrite F10. cbn [bind]. clear F10.
  (* the end of parse_model *)
  rewrite (use_list_ok m10 vars _ _ O10) by inc. cbn [bind].
  destruct (m_drop_ok m10 vars (array :: lost1) (blocks_of t9 ++ concat (map snd lost))) as (m11 & F11 & O11). { eapply owns_perm; [exact O10|]. perm. }
  rewrite F11. cbn [bind]. clear F11. assert (I11 := owns_inv _ _ _ _ _ _ _ _ _ I9 O11).
  destruct (m_give_priors_ok (seq 0 (len vs)) m11 vs adr w7 t9 _ I11 R9) as (m12 & t12 & F12 & I12 & R12 & Q12). { intros v Hv. apply in_seq in Hv. apply EV7. lia. }
  rewrite list_seq in F12. rewrite F12. cbn [bind]. clear F12. rewrite E. cbn [bind].
  assert (O12 := inv_owns _ _ _ _ _ _ _ I12). destruct (free_owns _ _ _ _ O12) as (m13 & F13 & O13). rewrite F13. cbn [bind]. clear F13. assert (I13 := owns_inv _ _ _ _ _ _ _ _ _ I12 O13).
  destruct (new_model_ok m13 _ (rev adr) vs (sizes_of vl) (proj2 (proj2 (proj2 I13)))) as (m14 & x & gm & F14 & MD & H14). rewrite F14. cbn [bind].
  assert (I14 : inv m14 vs adr (w_vars w7) t12 (gm ++ led lost1 ++ concat (map snd lost))).
  { destruct I13 as (A & B & C & _). split; [exact A|]. split; [exact B|]. split; [exact C|]. eapply heap_perm; [|exact H14]. perm. }
  exists m14, x, vs, (map ends (map zs lost)), (led lost1 ++ concat (map snd lost)), (blocks_of t12 ++ gm ++ led lost1 ++ concat (map snd lost)).
  split; [reflexivity|]. split; [|split; [exact LV|split; [|split; [exact (proj2 (proj2 (proj2 I14)))|]]]].
  - assert (JX := finish_jt _ _ _ _ _ _ E). rewrite JX. eapply leaked_same; [eapply tables_scopes; exact EX|]. cbn [m_jt].
    split; [exact NDL|]. split; [|exact LK2]. intros a b Hab. apply in_map_iff in Hab. destruct Hab as (z & EZ & Hz). unfold ends in EZ. injection EZ as <- <-. exact (LK1 z Hz).
  - exists adr, (w_vars w7), t12, gm, (rev (seq 0 (len adr))). destruct I14 as (A & B & C & _).
    split; [reflexivity|]. split; [exact A|]. split; [exact B|]. split; [exact C|]. split; [rewrite map_rev, list_seq; exact MD|].
    split; [apply NoDup_rev, seq_NoDup|]. split; [apply (all_members w7 adr t12 R12 ALL)|].
    intros v Hv. rewrite WV. cbn [w_vars w1]. apply nth_repeat_true. lia.
  - rewrite app_length, !map_length. unfold led. rewrite map_length, LL. cbn [len].
    fold (ignored s). match goal with |- ?i + 11 * ?l <= _ + ?z <= _ => assert (Q : 11 * l <= z <= 12 * l) by exact (lost_size _ _ _ _ _ CL); revert Q; generalize z l i end. intros z l i Q. lia.
Qed.

Lemma C92_lemma : forall k1 k2 s c names M g, source_ok s -> (c + Z.of_nat (len (s_nodes s)) <= LONG_MAX)%Z ->
  parse_model k1 k2 (fresh_globals c) (net_of s) = Ok (Some (names, M, g)) ->
  exists m x leak m2, m_parse_model k1 k2 (fresh_globals c) s = Ok (Some (m, Some x, names, M, g)) /\ leaked (m_jt M) leak /\
    free_model m (Some x) = Ok m2 /\ ignored s + 11 * len leak <= live m2 <= ignored s + 12 * len leak.
Proof.
  intros k1 k2 s c names M g OK HC E. destruct (C92_state k1 k2 s c names M g OK HC E) as (m & x & vs & leak & rest & F & E1 & LK & _ & HO & H & N).
  destruct (holds_free m x vs rest F [] HO H) as (m2 & E2 & H2). exists m, x, leak, m2. split; [exact E1|]. split; [exact LK|]. split; [exact E2|].
  rewrite (live_heap _ _ H2). exact N.
Qed.

Lemma ignored_once : forall s, said_once s -> ignored s = 0.
Proof.
  intros s H. unfold ignored, said_once in *. revert H. induction (s_nodes s) as [|x l IH]; intros H; [reflexivity|]. cbn [map list_sum fold_right]. unfold list_sum in IH. rewrite IH by (intros y Hy; apply H; right; exact Hy).
  destruct (H x (or_introl eq_refl)) as (A & B & C). unfold ignored_in. destruct (state_lists (snd x)) as [|y [|z q]]; cbn in C |- *; lia.
Qed.
Lemma C92_kept_lemma : forall k1 k2 s c names M g, source_ok s -> said_once s -> (c + Z.of_nat (len (s_nodes s)) <= LONG_MAX)%Z ->
  parse_model k1 k2 (fresh_globals c) (net_of s) = Ok (Some (names, M, g)) ->
  (forall a b z, a < b < len (cls (m_jt M)) -> In z (sps (m_jt M)) -> neighbouring (m_jt M) a b \/ shared (m_jt M) a b < len (s_vars z)) ->
  exists m x m2, m_parse_model k1 k2 (fresh_globals c) s = Ok (Some (m, Some x, names, M, g)) /\ free_model m (Some x) = Ok m2 /\ all_free m2.
Proof.
  intros k1 k2 s c names M g OK ON HC E FAR. destruct (C92_lemma k1 k2 s c names M g OK HC E) as (m & x & leak & m2 & E1 & (_ & LK & _) & E2 & N).
  exists m, x, m2. split; [exact E1|]. split; [exact E2|]. apply live_none. rewrite (ignored_once s ON) in N.
  assert (LE : leak = []). { destruct leak as [|[a b] leak]; [reflexivity|]. exfalso. destruct (LK a b (or_introl eq_refl)) as (AB & NB & z & IS & L). destruct (FAR a b z AB IS) as [Q|Q]; [exact (NB Q)|lia]. }
  rewrite LE in N. cbn in N. lia.
Qed.
