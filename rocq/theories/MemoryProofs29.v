(** * Memory of parsing: the graph and the tables (for C92) *)
From Coq Require Import Permutation String.
From Verif Require Import Base BaseProofs PotentialModel VariableModel HeapProofs GraphModel JoinTreeModel NipModel MemoryModel MemorySpec MemoryProofs MemoryProofs2 MemoryProofs3 MemoryProofs4 MemoryProofs5 MemoryProofs6 MemoryProofs7 MemoryProofs8 MemoryProofs9 MemoryProofs12 MemoryModel3 MemorySpec3 MemoryProofs20 MemoryProofs21 MemoryProofs23 ParseModel NetGrammarModel NetSpec NetGrammarProofs MemoryModel4 MemorySpec4 MemoryProofs26 MemoryProofs28.
Import ListNotations.
Open Scope nat_scope.
Local Open Scope res_scope.
Local Open Scope list_scope.
Local Notation len := List.length.

(** ** A function that works on one variable *)
Lemma rep_same : forall w cl t t', rep w cl t -> t_members t' = t_members t -> t_edges t' = t_edges t -> rep w cl t'.
Proof. intros w cl t t' (A & B) C D. split; [exact A|]. intros k. rewrite C, D. apply B. Qed.

Lemma on_variable : forall m vs cl w t rest v (f : memory -> option nat -> res memory), inv m vs cl (w_vars w) t rest -> rep w cl t ->
  exists_var w v = true ->
  (forall m f' a id card g, MemoryProofs2.var a id card g -> heap_is m (g ++ f') -> exists m' g', f m (Some a) = Ok m' /\ MemoryProofs2.var a id card g' /\ heap_is m' (g' ++ f')) ->
  exists m' t', f m (Some (nth v vs 0)) = Ok m' /\ inv m' vs cl (w_vars w) t' rest /\ rep w cl t' /\ v < len vs /\ t_members t' = t_members t.
Proof.
  intros m vs cl w t rest v f INV R EV F. assert (HV := proj1 INV). unfold exists_var in EV.
  destruct (live_has vs (w_vars w) (t_vars t) v HV EV) as (_ & LV).
  assert (X := proj2 (proj2 HV) v LV). rewrite EV in X. destruct X as (card & X).
  destruct (F m _ _ _ _ _ X (take_var _ _ _ _ _ _ v INV LV)) as (m' & g' & E & V' & H').
  destruct (change_var m vs cl (w_vars w) t rest v g' INV LV m' (w_vars w)) as (t' & INV' & Q1 & Q2 & Q3 & Q4); [exact (proj1 HV)|reflexivity| |exact H'|].
  { rewrite EV. eauto. }
  exists m', t'. split; [exact E|]. split; [exact INV'|]. split; [|auto]. eapply rep_same; eassumption.
Qed.

(** ** The graph *)
Lemma m_vars_to_graph_ok : forall l m G L f g, owns m (gblocks G ++ L) f -> vars_to_graph (mg G) l = Ok (Some g) ->
  exists m' G', m_vars_to_graph m G l = Ok (Some (m', G')) /\ owns m' (gblocks G' ++ L) f /\ mg G' = g.
Proof.
  induction l as [|v l IH]; intros m G L f g O E; cbn [vars_to_graph m_vars_to_graph] in *.
  - injection E as <-. eauto.
  - destruct (graph_add_node (mg G) v) as [[g1 e1]| |] eqn:E1; cbn [bind] in E; try discriminate E.
    destruct (m_add_node_ok m G v L f g1 e1 O E1) as (m1 & G1 & E2 & O1 & <-). rewrite E2. cbn [bind]. destruct (is_err e1); [discriminate E|]. eapply IH; eassumption.
Qed.

Lemma m_arcs_ok : forall n i parents child m G L f g, owns m (gblocks G ++ L) f ->
  loop_up n i (fun i r => match r with None => Ok None | Some g => let* u := rd parents i in let* (g, e) := graph_add_child g u child in if is_err e then Ok None else Ok (Some g) end) (Some (mg G)) = Ok (Some g) ->
  exists m' G', m_arcs m G (firstn n (skipn i parents)) child = Ok (Some (m', G')) /\ owns m' (gblocks G' ++ L) f /\ mg G' = g.
Proof.
  induction n as [|n IH]; intros i parents child m G L f g O E; cbn [loop_up firstn] in *.
  - injection E as <-. exists m, G. auto.
  - destruct (rd parents i) as [u| |] eqn:ER; cbn [bind] in E; try discriminate E. unfold rd in ER. destruct (nth_error parents i) as [u'|] eqn:EN; [|discriminate ER]. injection ER as ->.
    rewrite (in_skipn _ _ _ EN). cbn [m_arcs].
    destruct (graph_add_child (mg G) u child) as [[g1 e1]| |] eqn:E1; cbn [bind] in E; try discriminate E.
    destruct (m_add_child_ok m G u child L f g1 e1 O E1) as (m1 & G1 & E2 & O1 & <-). rewrite E2. cbn [bind]. destruct (is_err e1) eqn:IE; cbn [bind] in E.
    + exfalso. clear - E. revert i E. induction n as [|n IH]; intros i E; cbn [loop_up] in E; [discriminate E|]. cbn [bind] in E. exact (IH _ E).
    + eapply IH; eassumption.
Qed.

Lemma m_potentials_to_graph_ok : forall ps m G vs cl w t vl L f gr vl', inv m vs cl (w_vars w) t (led (gblocks G ++ L) ++ f) -> rep w cl t ->
  (forall p, In p ps -> exists_var w (pp_child p) = true) ->
  potentials_to_graph (mg G) vl ps = Ok (Some (gr, vl')) ->
  exists m' G' t', m_potentials_to_graph m G vs ps = Ok (Some (m', G')) /\ inv m' vs cl (w_vars w) t' (led (gblocks G' ++ L) ++ f) /\ rep w cl t' /\ mg G' = gr /\ len vl' = len vl.
Proof.
  induction ps as [|p ps IH]; intros m G vs cl w t vl L f gr vl' I R EV E; cbn [potentials_to_graph m_potentials_to_graph] in *.
  - injection E as <- <-. exists m, G, t. auto.
  - match type of E with bind ?r _ = _ => destruct r as [[g1|]| |] eqn:E1 end; cbn [bind] in E; try discriminate E.
    unfold for_up in E1. rewrite Nat.sub_0_r in E1. destruct (m_arcs_ok _ 0 _ _ m G _ _ g1 (inv_owns _ _ _ _ _ _ _ I) E1) as (m1 & G1 & E2 & O1 & <-). cbn [skipn] in E2. rewrite E2. cbn [bind].
    assert (I1 := owns_inv _ _ _ _ _ _ _ _ _ I O1).
    destruct (on_variable m1 vs cl w t _ (pp_child p) (fun m v => MemoryModel.set_parents m v (map (nth_error vs) (firstn (dimensionality (pp_data p) - 1) (pp_parents p)))) I1 R) as (m2 & t2 & E3 & I2 & R2 & LV & _).
    { apply EV. left. reflexivity. } { intros. eapply set_parents_ok; eassumption. }
    rewrite (rd_nth _ vs _ 0 LV). cbn [bind]. rewrite E3. cbn [bind].
    match type of E with bind ?r _ = _ => destruct r as [pl| |] end; cbn [bind] in E; try discriminate E.
    destruct (rd vl (pp_child p)) as [x| |]; cbn [bind] in E; try discriminate E.
    destruct (wr vl (pp_child p) _) as [vl1| |] eqn:EW; cbn [bind] in E; try discriminate E.
    destruct (IH m2 G1 vs cl w t2 vl1 L f gr vl' I2 R2) as (m3 & G3 & t3 & E4 & I3 & R3 & M3 & N3); [intros q Hq; apply EV; right; exact Hq|exact E|].
    exists m3, G3, t3. do 4 (split; [assumption|]). unfold wr in EW. destruct (Nat.ltb _ _); [|discriminate EW]. injection EW as <-. rewrite N3. apply set_nth_length.
Qed.

(** ** The tables *)
Lemma m_potentials_to_jtree_ok : forall ps m vs cl w t x L f x', inv m vs cl (w_vars w) t (led L ++ f) -> rep w cl t ->
  (forall p, In p ps -> exists_var w (pp_child p) = true) ->
  potentials_to_jtree x ps = Ok (Some x') ->
  exists m' t', m_potentials_to_jtree m vs x ps = Ok (Some (m', x')) /\ inv m' vs cl (w_vars w) t' (led L ++ f) /\ rep w cl t' /\ t_members t' = t_members t.
Proof.
  induction ps as [|p ps IH]; intros m vs cl w t x L f x' I R EV E; cbn [potentials_to_jtree m_potentials_to_jtree] in *.
  - injection E as <-. exists m, t. auto.
  - assert (EV' : forall q, In q ps -> exists_var w (pp_child q) = true) by (intros q Hq; apply EV; right; exact Hq).
    destruct (find_family x (pp_child p)) as [[x1 o]| |]; cbn [bind] in E |- *; try discriminate E.
    destruct (m_scrap_ok _ _ _ (inv_owns _ _ _ _ _ _ _ I)) as (m1 & E1 & O1). rewrite E1. cbn [bind]. assert (I1 := owns_inv _ _ _ _ _ _ _ _ _ I O1).
    destruct o as [c|]; [|eapply IH; eassumption]. destruct (Nat.ltb 1 (dimensionality (pp_data p))).
    + destruct (init_clique x1 c (pp_child p) (pp_data p) false) as [[x2 e]| |]; cbn [bind] in E |- *; try discriminate E.
      destruct (m_scrap_ok _ _ _ (inv_owns _ _ _ _ _ _ _ I1)) as (m2 & E2 & O2). rewrite E2. cbn [bind]. assert (I2 := owns_inv _ _ _ _ _ _ _ _ _ I1 O2).
      destruct (is_err e); [discriminate E|]. eapply IH; eassumption.
    + destruct (on_variable m1 vs cl w t _ (pp_child p) MemoryModel.set_prior I1 R) as (m2 & t2 & E3 & I2 & R2 & LV & Q2).
      { apply EV. left. reflexivity. } { intros. eapply set_prior_ok; eassumption. }
      rewrite (rd_nth _ vs _ 0 LV). cbn [bind]. rewrite E3. cbn [bind]. destruct (store_prior x1 (pp_child p) (data (pp_data p))) as [x2| |]; cbn [bind] in E |- *; try discriminate E.
      destruct (IH m2 vs cl w t2 x2 L f x' I2 R2 EV' E) as (m3 & t3 & E4 & I3 & R3 & Q3). exists m3, t3. do 3 (split; [assumption|]). congruence.
Qed.

(** ** Priors of the other roots *)
Lemma give_prior_ok : forall m f v id card g, MemoryProofs2.var v id card g -> heap_is m (g ++ f) ->
  exists m' g', (match Some v with Some v => m_give_prior m v | None => UB end) = Ok m' /\ MemoryProofs2.var v id card g' /\ heap_is m' (g' ++ f).
Proof.
  intros m f v id card g V H. unfold m_give_prior. assert (V' := V). destruct V' as (sym & name & sn & strs & lik & prior & np & parents & mapping & b & E & _).
  assert (IN : In (v, var_block id sym name card sn lik prior np parents mapping) (g ++ f)) by (rewrite E; left; reflexivity).
  rewrite (ptr_ok m _ v _ V_parents parents H IN) by reflexivity. cbn [bind]. rewrite (ptr_ok m _ v _ V_prior prior H IN) by reflexivity. cbn [bind].
  destruct parents as [a|]; [exists m, g; auto|]. destruct prior as [a|]; [exists m, g; auto|]. eapply set_prior_ok; eassumption.
Qed.
Lemma m_give_priors_ok : forall l m vs cl w t rest, inv m vs cl (w_vars w) t rest -> rep w cl t -> (forall v, In v l -> exists_var w v = true) ->
  exists m' t', m_give_priors m (map (fun v => nth v vs 0) l) = Ok m' /\ inv m' vs cl (w_vars w) t' rest /\ rep w cl t' /\ t_members t' = t_members t.
Proof.
  induction l as [|v l IH]; intros m vs cl w t rest I R EV; cbn [map m_give_priors]; [exists m, t; auto|].
  destruct (on_variable m vs cl w t rest v (fun m v => match v with Some v => m_give_prior m v | None => UB end) I R) as (m1 & t1 & E1 & I1 & R1 & _ & Q1).
  { apply EV. left. reflexivity. } { intros. eapply give_prior_ok; eassumption. }
  rewrite E1. cbn [bind]. destruct (IH m1 vs cl w t1 rest I1 R1) as (m2 & t2 & E2 & I2 & R2 & Q2); [intros u Hu; apply EV; right; exact Hu|]. exists m2, t2. do 3 (split; [assumption|]). congruence.
Qed.

(** ** The tables do not change which cliques share which variables *)
Definition same_scopes (a b : jtree) : Prop := map c_vars (cls b) = map c_vars (cls a) /\ sps b = sps a.
Lemma scopes_refl : forall a, same_scopes a a.
Proof. split; reflexivity. Qed.
Lemma scopes_trans : forall a b c, same_scopes a b -> same_scopes b c -> same_scopes a c.
Proof. intros a b c (A & B) (C & D). split; congruence. Qed.
Lemma put_clique_scopes : forall jt i c jt', put_clique jt i c = Ok jt' -> option_map c_vars (nth_error (cls jt) i) = Some (c_vars c) -> same_scopes jt jt'.
Proof.
  intros jt i c jt' E V. unfold put_clique, wr in E. destruct (Nat.ltb i (len (cls jt))); cbn [bind] in E; [|discriminate E]. injection E as <-. split; [|reflexivity]. cbn [cls].
  revert i V. induction (cls jt) as [|d l IH]; intros [|i] V; cbn [set_nth map nth_error option_map] in *; try discriminate V; [congruence|]. f_equal. apply IH. exact V.
Qed.
Lemma find_family_jt : forall x v x' o, find_family x v = Ok (x', o) -> m_jt x' = m_jt x.
Proof.
  intros x v x' o E. unfold find_family in E. destruct (rd (m_vars x) v) as [r| |]; cbn [bind] in E; try discriminate E. destruct (v_family r); [injection E as <- <-; reflexivity|].
  binv E a. binv E b. binv E c. binv E d. injection E as <- <-. unfold put_var in K2. binv K2 l. injection K2 as <-. reflexivity.
Qed.
Lemma init_clique_scopes : forall x c v p b x' e, init_clique x c v p b = Ok (x', e) -> same_scopes (m_jt x) (m_jt x').
Proof.
  intros x c v p b x' e E. unfold init_clique in E. binv E r. binv E k. binv E mp. binv E q. destruct q as [t err]. binv E jt.
  assert (A : same_scopes (m_jt x) jt). { eapply put_clique_scopes; [exact K3|]. unfold rd in K0. destruct (nth_error (cls (m_jt x)) c); [|discriminate K0]. injection K0 as ->. reflexivity. }
  destruct (is_err err); [injection E as <- <-; exact A|]. destruct b; [injection E as <- <-; exact A|]. cbn [set_jt m_jt] in E. binv E k2. binv E q. destruct q as [t2 err2]. binv E jt2. injection E as <- <-.
  cbn [set_jt m_jt]. eapply scopes_trans; [exact A|]. eapply put_clique_scopes; [exact K6|]. unfold rd in K4. destruct (nth_error (cls jt) c); [|discriminate K4]. injection K4 as ->. reflexivity.
Qed.
Lemma tables_scopes : forall ps x x', potentials_to_jtree x ps = Ok (Some x') -> same_scopes (m_jt x) (m_jt x').
Proof.
  induction ps as [|p ps IH]; intros x x' E; cbn [potentials_to_jtree] in E; [injection E as <-; apply scopes_refl|].
  destruct (find_family x (pp_child p)) as [[x1 o]| |] eqn:E1; cbn [bind] in E; try discriminate E. apply find_family_jt in E1.
  destruct o as [c|]; [|rewrite <- E1; apply IH; exact E]. destruct (Nat.ltb 1 (dimensionality (pp_data p))).
  - destruct (init_clique x1 c (pp_child p) (pp_data p) false) as [[x2 e]| |] eqn:E2; cbn [bind] in E; try discriminate E. apply init_clique_scopes in E2. destruct (is_err e); [discriminate E|].
    rewrite E1 in E2. eapply scopes_trans; [exact E2|]. apply IH. exact E.
  - binv E x2. unfold store_prior in K. binv K r. binv K l. unfold put_var in K. binv K l2. injection K as <-. rewrite <- E1. exact (IH _ _ E).
Qed.
Lemma finish_jt : forall vl x g names x' g', finish vl x g = Ok (Some (names, x', g')) -> m_jt x' = m_jt x.
Proof.
  intros vl x g names x' g' E. unfold finish in E. binv E q. destruct q as [prev out]. binv E q. destruct q as [ic oc]. injection E as <- <- <-. reflexivity.
Qed.
Lemma leaked_same : forall a b leak, same_scopes a b -> leaked a leak -> leaked b leak.
Proof.
  intros a b leak (V & S) (A & B & C).
  assert (LN : len (cls b) = len (cls a)) by (rewrite <- (map_length c_vars (cls b)), V; apply map_length).
  assert (SH : forall i j, shared b i j = shared a i j).
  { intros i j. assert (Q : forall k, option_map c_vars (nth_error (cls b) k) = option_map c_vars (nth_error (cls a) k)) by (intros k; rewrite <- !nth_error_map, V; reflexivity).
    unfold shared. assert (Qi := Q i). assert (Qj := Q j). destruct (nth_error (cls b) i), (nth_error (cls a) i); try discriminate Qi; [|reflexivity].
    destruct (nth_error (cls b) j), (nth_error (cls a) j); try discriminate Qj; [|reflexivity]. injection Qi as ->. injection Qj as ->. reflexivity. }
  split; [exact A|]. unfold neighbouring in *. rewrite S, LN. split.
  - intros i j H. destruct (B i j H) as (P1 & P2 & s & P3 & P4). split; [exact P1|]. split; [exact P2|]. exists s. rewrite SH. auto.
  - intros i j H NB (s & P3 & P4). rewrite SH in P4. apply (C i j H NB). eauto.
Qed.
