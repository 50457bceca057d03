(** * Memory of parsing: nodes (for C92) *)
From Coq Require Import Permutation String.
From Verif Require Import Base BaseProofs VariableModel HeapProofs GraphModel MemoryModel MemorySpec MemoryProofs MemoryProofs2 MemoryProofs3 MemoryProofs4 MemoryProofs5 MemoryProofs6 MemoryProofs7 MemoryProofs8 MemoryProofs9 MemoryModel3 MemoryProofs20 MemoryProofs23 ParseModel NetGrammarModel NetSpec NetGrammarProofs MemoryModel4 MemorySpec4 MemoryProofs26.
Import ListNotations.
Open Scope nat_scope.
Local Open Scope res_scope.
Local Open Scope list_scope.
Local Notation len := List.length.

Definition rblk (o : option (mlist * list nat)) : list nat := match o with Some (ml, texts) => mblk ml ++ texts | None => [] end.
Definition sblk (st : statics) : list nat := oblk (st_vars st) ++ rblk (st_relations st).
Definition rel_ok (o : option (mlist * list nat)) : Prop := match o with Some (ml, texts) => len (b_nodes ml) = len texts | None => True end.
Definition st_ok (st : statics) (g : globals) (vs : list nat) : Prop :=
  (g_label g = Null /\ st_label st = None \/ g_label g = Freed) /\ rel_ok (st_relations st) /\ st_potentials st = None /\
  match g_parsed g with Null => vs = [] | Live vl => len vl = len vs | Freed => False end /\ (vs <> [] -> st_vars st <> None).

Lemma ablk_len : forall A X, Forall2 (fun (a : nat * list nat) (x : list string) => len (snd a) = len x) A X -> len (ablk A) = list_sum (map (fun x => S (len x)) X).
Proof.
  intros A X F. induction F as [|[a l] x A X E F IH]; [reflexivity|]. cbn [ablk flat_map fst snd app len map list_sum fold_right] in *. rewrite app_length. cbn [Nat.add]. f_equal. unfold list_sum in IH. rewrite <- IH, <- E. reflexivity.
Qed.

Lemma declared_net : forall symbol l, declared symbol l = mkNode symbol (hd_error (NetSpec.labels l)) (last_of (state_lists l)) (hd_error (nexts l)).
Proof. intros. unfold declared. rewrite label_in_ok, states_in_ok, next_of_ok. reflexivity. Qed.

(** What a node declaration that succeeds says about the values. *)
Lemma node_value : forall g d g', node_declaration g d = Ok (Some g') ->
  (nd_label d = None -> g_label g <> Freed) /\ (exists x, nd_states d = Some x /\ x <> []) /\
  (nd_label d = None -> g_label g = Null -> g_label g' = Null) /\ (nd_label d <> None -> g_label g' = Freed) /\
  exists v l, append_to (g_parsed g) v = Ok (Live l) /\ g_parsed g' = Live l.
Proof.
  intros g d g' E. unfold node_declaration in E.
  destruct (nd_label d) as [s|]; cbn [bind] in E; destruct (nd_states d) as [[|x y]|]; cbn [bind] in E; try discriminate E; try (destruct (g_label g); discriminate E).
  - destruct (VariableModel.new_variable _ _ _ _ _ _ _) as [[[v|] c]| |]; cbn [bind] in E; try discriminate E.
    destruct (append_to (g_parsed g) _) as [[|vl|]| |] eqn:EA; cbn [bind] in E; try discriminate E.
    match type of E with bind ?r _ = _ => destruct r as [rel| |] end; cbn [bind] in E; try discriminate E. injection E as <-. cbn.
    split; [discriminate|]. split; [eexists; split; [reflexivity|discriminate]|]. split; [discriminate|]. split; [reflexivity|]. eauto.
  - destruct (g_label g) eqn:EL; cbn [bind] in E; try discriminate E.
    + destruct (VariableModel.new_variable _ _ _ _ _ _ _) as [[[v|] c]| |]; cbn [bind] in E; try discriminate E.
      destruct (append_to (g_parsed g) _) as [[|vl|]| |] eqn:EA; cbn [bind] in E; try discriminate E.
      match type of E with bind ?r _ = _ => destruct r as [rel| |] end; cbn [bind] in E; try discriminate E. injection E as <-. cbn.
      split; [discriminate|]. split; [eexists; split; [reflexivity|discriminate]|]. split; [reflexivity|]. split; [congruence|]. eauto.
    + destruct (VariableModel.new_variable _ _ _ _ _ _ _) as [[[v|] c]| |]; cbn [bind] in E; try discriminate E.
      destruct (append_to (g_parsed g) _) as [[|vl|]| |] eqn:EA; cbn [bind] in E; try discriminate E.
      match type of E with bind ?r _ = _ => destruct r as [rel| |] end; cbn [bind] in E; try discriminate E. injection E as <-. cbn.
      split; [discriminate|]. split; [eexists; split; [reflexivity|discriminate]|]. split; [discriminate|]. split; [congruence|]. eauto.
Qed.

Lemma append_len : forall A (p : pointer (list A)) v l, append_to p v = Ok (Live l) -> match p with Null => len l = 1 | Live l0 => len l = S (len l0) | Freed => False end.
Proof. intros A p v l E. unfold append_to in E. destruct p; try discriminate E; injection E as <-; [reflexivity|]. rewrite app_length. cbn. lia. Qed.

Lemma new_variable_call : forall m vs w t rest symbol name states, inv m vs [] (w_vars w) t rest -> rep w [] t ->
  exists m' v t', MemoryModel.new_variable m (len vs) symbol name (Some states) (len states) = Ok (m', Some v) /\
    inv m' (vs ++ [v]) [] (w_vars w ++ [true]) t' rest /\ rep (mkWorld (w_vars w ++ [true]) (w_cliques w)) [] t'.
Proof.
  intros m vs w t rest symbol name states I R. destruct (run_new_variable m vs [] w t rest symbol name states I R) as (m' & vs' & cl' & t' & E & I' & R').
  unfold run_call in E. destruct (MemoryModel.new_variable m (len vs) symbol name (Some states) (len states)) as [[m1 [v|]]| |]; cbn [bind address] in E; try discriminate E.
  injection E as <- <- <-. exists m1, v, t'. auto.
Qed.

Lemma m_node_ok : forall m st vs w t g symbol l lost g', inv m vs [] (w_vars w) t (led (sblk st ++ lost) ++ []) -> rep w [] t -> st_ok st g vs ->
  (forall x, In x (state_lists l) -> x <> []) -> node_declaration g (declared symbol l) = Ok (Some g') ->
  exists m' st' v t' lost', m_node m st vs g symbol l = Ok (Some (m', st', vs ++ [v], g')) /\
    inv m' (vs ++ [v]) [] (w_vars w ++ [true]) t' (led (sblk st' ++ lost') ++ []) /\ rep (mkWorld (w_vars w ++ [true]) (w_cliques w)) [] t' /\
    st_ok st' g' (vs ++ [v]) /\ len lost' = len lost + ignored_in l.
Proof.
  intros m st vs w t g symbol l lost g' I R (SL & SR & SP & SG & SV) NE E. unfold m_node. assert (O := inv_owns _ _ _ _ _ _ _ I).
  destruct (m_text_ok _ _ _ O) as (m1 & sym & E1 & O1). rewrite E1. cbn [bind].
  destruct (m_fields_ok l m1 _ _ O1 NE) as (m2 & labels & nx & arrays & E2 & O2 & N1 & N2 & F). rewrite E2. cbn [bind].
  destruct (node_value _ _ _ E) as (V1 & (x & V2 & V2') & V3 & V4 & (pv & vl & V5 & V6)). rewrite declared_net in V1, V2, V3, V4. cbn [nd_label nd_states] in V1, V2, V3, V4.
  assert (Q : exists front, state_lists l = front ++ [x]).
  { unfold last_of in V2. destruct (rev (state_lists l)) as [|y r] eqn:ER; [discriminate|]. injection V2 as ->. exists (rev r). rewrite <- (rev_involutive (state_lists l)), ER. reflexivity. }
  destruct Q as (front & Q). rewrite Q in F. apply Forall2_app_inv_r in F. destruct F as (A & B & FA & FB & ->). inversion FB as [|[array names] ? B' ? FN FB']; subst. inversion FB'; subst. clear FB FB'. cbn [snd] in FN.
  rewrite rev_app_distr. cbn [rev app].
  set (nip_label := match labels with a :: _ => Some a | [] => st_label st end).
  (* the label *)
  assert (LAB : exists m3 label ll, (match nip_label with Some a => (m2, a) | None => take m2 end) = (m3, label) /\
     owns m3 (label :: ll ++ nx ++ ablk (A ++ [(array, names)]) ++ sym :: sblk st ++ lost) (blocks_of t ++ []) /\ len ll = len (NetSpec.labels l) - 1 /\
     (g_label g' = Null /\ nip_label = None \/ g_label g' = Freed)).
  { unfold nip_label. destruct labels as [|a ll].
    - destruct (NetSpec.labels l) as [|s0 ls] eqn:EL; [|discriminate N1]. cbn [hd_error] in *. destruct SL as [(G0 & ->)|G0]; [|destruct (V1 eq_refl G0)].
      destruct (take m2) as [m3 a] eqn:ET. assert (K := take_owns _ _ _ O2 _ _ ET). exists m3, a, []. split; [reflexivity|]. split; [exact K|]. split; [reflexivity|]. left. auto.
    - destruct (NetSpec.labels l) as [|s0 ls] eqn:EL; [discriminate N1|]. exists m2, a, ll. split; [reflexivity|]. split; [exact O2|]. split; [cbn in N1 |- *; lia|]. right. apply V4. discriminate. }
  destruct LAB as (m3 & label & ll & EL & O3 & NL & LG). rewrite EL. rewrite E. cbn [bind]. rewrite states_in_ok, V2.
  rewrite (use_all_ok _ m3 _ _ O3). 2:{ unfold ablk. rewrite flat_map_app. cbn [flat_map fst snd]. intros y Hy. cbn [In] in Hy. repeat (rewrite in_app_iff || cbn [In]). tauto. }
  cbn [bind]. assert (I3 := owns_inv _ _ _ _ _ _ _ _ _ I O3).
  destruct (new_variable_call m3 vs w t _ (String.length symbol) (Some (match label_in l with Some s => String.length s | None => 1 end)) (map String.length x) I3 R) as (m4 & v & t4 & E4 & I4 & R4).
  rewrite map_length in E4. rewrite E4. cbn [bind]. assert (O4 := inv_owns _ _ _ _ _ _ _ I4).
  destruct (m_append_ok m4 (st_vars st) (label :: ll ++ nx ++ ablk (A ++ [(array, names)]) ++ sym :: rblk (st_relations st) ++ lost) (blocks_of t4 ++ [])) as (m5 & vars & E5 & O5 & _).
  { eapply owns_perm; [exact O4|]. unfold sblk. perm. }
  rewrite E5. cbn [bind].
  set (old := match st_relations st with Some (_, l0) => l0 | None => [] end).
  assert (REL : exists m6 rel nn, match nx with [] => Ok (m5, st_relations st) | n :: _ => let* (m, ml) := m_append m5 (option_map fst (st_relations st)) in Ok (m, Some (ml, old ++ [n])) end = Ok (m6, rel) /\
     owns m6 (rblk rel ++ nn ++ label :: ll ++ ablk (A ++ [(array, names)]) ++ sym :: mblk vars ++ lost) (blocks_of t4 ++ []) /\ rel_ok rel /\ len nn = len (nexts l) - 1).
  { destruct nx as [|n nn].
    - exists m5, (st_relations st), []. split; [reflexivity|]. split; [cbn [app] in O5 |- *; eapply owns_perm; [exact O5|]; perm|]. split; [exact SR|]. cbn in N2. rewrite <- N2. reflexivity.
    - destruct (m_append_ok m5 (option_map fst (st_relations st)) (n :: old ++ nn ++ label :: ll ++ ablk (A ++ [(array, names)]) ++ sym :: mblk vars ++ lost) (blocks_of t4 ++ [])) as (m6 & ml & E6 & O6 & NM).
      { eapply owns_perm; [exact O5|]. unfold old. destruct (st_relations st) as [[ml texts]|]; cbn [rblk option_map fst oblk app]; perm. }
      rewrite E6. cbn [bind]. exists m6, (Some (ml, old ++ [n])), nn. split; [reflexivity|]. split; [eapply owns_perm; [exact O6|]; cbn [rblk]; perm|]. split; [|cbn in N2; lia].
      cbn [rel_ok]. rewrite NM, app_length. unfold old. destruct (st_relations st) as [[ml0 texts]|]; cbn in *; [rewrite SR; lia|reflexivity]. }
  destruct REL as (m6 & rel & nn & E6 & O6 & RO & NN). match goal with |- context [bind ?r _] => replace r with (Ok (m6, rel)) by (symmetry; exact E6) end. cbn [bind]. clear E6.
  unfold ablk in O6. rewrite flat_map_app in O6. cbn [flat_map fst snd] in O6. rewrite app_nil_r in O6. frl O6. frl O6.
  match type of O6 with owns ?M ?L ?ff => destruct (free_each_ok names M (rblk rel ++ nn ++ ll ++ ablk A ++ array :: mblk vars ++ lost) ff) as (m9 & E9 & O9) end.
  { eapply owns_perm; [exact O6|]. unfold ablk. perm. }
  rewrite E9. cbn [bind]. frl O9.
  eexists _, (mkStatics nip_label (Some vars) rel (st_potentials st)), v, t4, (nn ++ ll ++ ablk A ++ lost). split; [reflexivity|].
  split; [|split; [exact R4|split]].
  - eapply owns_inv; [exact I4|]. eapply owns_perm; [exact O9|]. unfold sblk. cbn [st_vars st_relations oblk]. perm.
  - unfold st_ok. cbn [st_label st_relations st_potentials st_vars]. split; [exact LG|]. split; [exact RO|]. split; [exact SP|]. rewrite V6. split; [|discriminate].
    apply append_len in V5. rewrite app_length. cbn [len]. destruct (g_parsed g) as [|l0|]; [rewrite SG; cbn; lia|lia|destruct V5].
  - unfold ignored_in. rewrite Q, removelast_last, !app_length, NN, NL, (ablk_len _ _ FA). lia.
Qed.

Lemma m_nodes_ok : forall l m st vs w t g lost g', inv m vs [] (w_vars w) t (led (sblk st ++ lost) ++ []) -> rep w [] t -> st_ok st g vs ->
  (forall x y, In x l -> In y (state_lists (snd x)) -> y <> []) ->
  node_declarations g (map (fun x => declared (fst x) (snd x)) l) = Ok (Some g') ->
  exists m' st' vs' t' lost', m_nodes m st vs g l = Ok (Some (m', st', vs ++ vs', g')) /\
    inv m' (vs ++ vs') [] (w_vars w ++ repeat true (len l)) t' (led (sblk st' ++ lost') ++ []) /\ rep (mkWorld (w_vars w ++ repeat true (len l)) (w_cliques w)) [] t' /\
    st_ok st' g' (vs ++ vs') /\ len vs' = len l /\ len lost' = len lost + list_sum (map (fun x => ignored_in (snd x)) l).
Proof.
  induction l as [|[symbol fields] l IH]; intros m st vs w t g lost g' I R S NE E; cbn [map node_declarations m_nodes fst snd] in *.
  - injection E as <-. exists m, st, [], t, lost. cbn [len repeat map list_sum fold_right]. rewrite !app_nil_r. rewrite app_nil_r in I.
    split; [reflexivity|]. split; [exact I|]. split; [destruct w; exact R|]. split; [exact S|]. split; [reflexivity|]. cbn. lia.
  - destruct (node_declaration g (declared symbol fields)) as [[g1|]| |] eqn:E1; cbn [bind] in E; try discriminate E.
    destruct (m_node_ok m st vs w t g symbol fields lost g1 I R S) as (m1 & st1 & v & t1 & lost1 & E2 & I1 & R1 & S1 & N1); auto. { intros x Hx. apply (NE (symbol, fields)); [left; reflexivity|exact Hx]. }
    rewrite E2. cbn [bind].
    destruct (IH m1 st1 (vs ++ [v]) (mkWorld (w_vars w ++ [true]) (w_cliques w)) t1 g1 lost1 g' I1 R1 S1) as (m2 & st2 & vs2 & t2 & lost2 & E3 & I2 & R2 & S2 & N2 & N3); auto.
    { intros x y Hx. apply NE. right. exact Hx. }
    exists m2, st2, (v :: vs2), t2, lost2. rewrite <- app_assoc in E3, I2, S2. cbn [app w_vars w_cliques] in *. rewrite <- app_assoc in I2, R2. cbn [app] in I2, R2.
    split; [exact E3|]. split; [exact I2|]. split; [exact R2|]. split; [exact S2|]. split; [cbn; lia|]. cbn [map snd list_sum fold_right len]. unfold list_sum in N3. lia.
Qed.
