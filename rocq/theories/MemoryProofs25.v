(** * Memory of building a join tree: the whole (for C91) *)
From Coq Require Import Permutation Sorted.
From Verif Require AssignProofs JoinTreeProofs2.
From Verif Require Import Base BaseProofs PotentialModel PotentialSpec VariableModel VariableProofs HeapModel HeapSpec HeapProofs HeapProofs2 JoinTreeModel JoinTreeSpec ReorderProofs GatherProofs GraphModel GraphSpec GraphProofs GraphProofs2 GraphProofs3 GraphProofs5 GraphProofs7 MemoryModel MemorySpec MemoryProofs MemoryProofs2 MemoryProofs3 MemoryProofs4 MemoryProofs5 MemoryProofs6 MemoryProofs7 MemoryProofs8 MemoryProofs9 MemoryModel3 MemorySpec3 MemoryProofs19 MemoryProofs20 MemoryProofs21 MemoryProofs22 MemoryProofs23 MemoryProofs24.
Import ListNotations.
Open Scope nat_scope.
Local Open Scope res_scope.

(** ** Counting blocks *)
Lemma live_heap : forall m f, heap_is m f -> live m = length f.
Proof.
  intros m f (ND & H). unfold live.
  set (used := filter (fun a => match nth_error m a with Some (Some _) => true | _ => false end) (seq 0 (length m))).
  assert (E1 : length (filter (fun b : option block => match b with Some _ => true | None => false end) m) = length used).
  { unfold used. clear. induction m as [|b m IH] using rev_ind; [reflexivity|]. rewrite filter_app, app_length, IH, app_length. cbn [length].
    rewrite Nat.add_1_r, seq_S, filter_app, app_length. cbn [filter]. f_equal.
    - f_equal. apply filter_ext_in. intros a Ha. apply in_seq in Ha. rewrite nth_error_app1 by lia. reflexivity.
    - cbn [Nat.add]. rewrite nth_error_app2, Nat.sub_diag by lia. destruct b; reflexivity. }
  rewrite E1, <- (map_length fst f). apply Permutation_length. apply NoDup_Permutation; [apply NoDup_filter, seq_NoDup|exact ND|].
  intros a. unfold used. rewrite filter_In, in_seq, in_map_iff. split.
  - intros (_ & Q). destruct (nth_error m a) as [[b|]|] eqn:EN; try discriminate. exists (a, b). split; [reflexivity|]. apply H. exact EN.
  - intros ((a', b) & <- & I). cbn [fst]. apply H in I. rewrite I. split; [|reflexivity]. split; [lia|]. cbn. apply nth_error_Some. congruence.
Qed.
Lemma sep_size : forall s a b g, sep s a b g -> 11 <= length g <= 12.
Proof.
  intros s a b g (old & new & vars & d & gp & gn & gv & -> & (c1 & t1 & n1 & x1 & l1 & bc1 & bt1 & bx1 & ->) & (c2 & t2 & n2 & x2 & l2 & bc2 & bt2 & bx2 & ->) & HV).
  unfold addresses in HV. apply Permutation_length in HV. rewrite map_length in HV. cbn [length app]. destruct vars; cbn in HV; lia.
Qed.
Lemma lost_size : forall card cl base out lost, Forall (cand_ok card cl base out) lost -> 11 * length lost <= length (concat (map snd lost)) <= 12 * length lost.
Proof.
  intros card cl base out lost H. induction H as [|z lost (p & _ & SP & _) H IH]; [cbn; lia|]. cbn [map concat length]. rewrite app_length. apply sep_size in SP. lia.
Qed.

(** ** Graphs *)
Lemma put_nodes_ok : forall nodes m G L f g e, owns m (gblocks G ++ L) f -> add_nodes (mg G) nodes = Ok (g, e) -> e = NO_ERROR ->
  exists m' G', put_nodes m G nodes = Ok (m', G') /\ owns m' (gblocks G' ++ L) f /\ mg G' = g.
Proof.
  induction nodes as [|v nodes IH]; intros m G L f g e O E EN; cbn [add_nodes put_nodes] in *.
  - injection E as <- <-. exists m, G. auto.
  - binv E p. destruct p as [g1 e1]. destruct (m_add_node_ok m G v L f g1 e1 O K) as (m1 & G1 & E1 & O1 & <-). rewrite E1. cbn [bind].
    destruct (is_err e1) eqn:IE. { injection E as _ ->. rewrite EN in IE. discriminate. } eapply IH; eassumption.
Qed.
Lemma put_arcs_ok : forall arcs m G L f g e, owns m (gblocks G ++ L) f -> add_arcs (mg G) arcs = Ok (g, e) -> e = NO_ERROR ->
  exists m' G', put_arcs m G arcs = Ok (m', G') /\ owns m' (gblocks G' ++ L) f /\ mg G' = g.
Proof.
  induction arcs as [|[u v] arcs IH]; intros m G L f g e O E EN; cbn [add_arcs put_arcs] in *.
  - injection E as <- <-. exists m, G. auto.
  - binv E p. destruct p as [g1 e1]. destruct (m_add_child_ok m G u v L f g1 e1 O K) as (m1 & G1 & E1 & O1 & <-). rewrite E1. cbn [bind].
    destruct (is_err e1) eqn:IE. { injection E as _ ->. rewrite EN in IE. discriminate. } eapply IH; eassumption.
Qed.
Lemma all_addresses_ok : forall l, all_addresses (map Some l) = Ok l.
Proof. induction l as [|a l IH]; [reflexivity|]. cbn [map all_addresses address bind]. rewrite IH. reflexivity. Qed.

(** ** The number of common variables *)
Lemma new_potential_dim : forall l n p, PotentialModel.new_potential l (Z.of_nat n) None = Ok (Some p) -> dimensionality p = n.
Proof.
  intros l n p E. unfold PotentialModel.new_potential in E. destruct (Z.ltb_spec (Z.of_nat n) 0); [discriminate E|]. rewrite Nat2Z.id in E. binv E q. destruct q as [ds cs]. binv E d. injection E as <-.
  unfold dimensionality. cbn [dims]. apply (for_up_back _ (fun _ s => length (snd s) = n)) in K; [exact K|lia|apply repeat_length|].
  intros i [d1 c1] [d2 c2] Hi L E. cbn [snd] in *. binv E c. binv E d'. binv E c'. injection E as <- <-. rewrite (wr_len _ _ _ _ _ K3). exact L.
Qed.
Lemma new_sepset_key : forall card out a b s ca cb, nth_error out a = Some ca -> nth_error out b = Some cb ->
  c_vars ca <> [] -> c_vars cb <> [] -> dimensionality (c_p ca) = length (c_vars ca) -> dimensionality (c_p cb) = length (c_vars cb) ->
  JoinTreeModel.new_sepset card (mkJT out []) a b = Ok (Some s) ->
  skey s = (- Z.of_nat (length (filter (fun v => existsb (Nat.eqb v) (c_vars cb)) (c_vars ca))))%Z.
Proof.
  intros card out a b s ca cb NA NB EA EB DA DB E. unfold JoinTreeModel.new_sepset in E. cbn [cls] in E. unfold rd in E. rewrite NA, NB in E. cbn [bind] in E.
  assert (A : forall l : list nat, l <> [] -> arr l = Some l) by (intros [|]; [congruence|auto]). rewrite !A, DA, DB, VariableProofs.isect_ok in E by assumption. cbn [bind] in E.
  match type of E with (if ?c then _ else _) = _ => destruct c; [discriminate E|] end. binv E l. binv E o. destruct o as [o|]; [|discriminate E]. injection E as <-.
  apply new_potential_dim in K0. unfold skey, sepset_primary_cost. cbn [s_old]. rewrite K0. reflexivity.
Qed.

Lemma pairs_nodup : forall out t, NoDup (pairs out t).
Proof.
  intros out. induction t as [|t IH]; [constructor|]. rewrite pairs_S. apply AssignProofs.NoDup_app_intro; [exact IH| |].
  - apply FinFun.Injective_map_NoDup; [intros x y Q; congruence|apply seq_NoDup].
  - intros [x y] H1 H2. apply in_map_iff in H2. destruct H2 as (j & Q & _). injection Q as <- _. unfold pairs in H1. apply in_flat_map in H1. destruct H1 as (i & Hi & H1).
    apply in_seq in Hi. apply in_map_iff in H1. destruct H1 as (j' & Q & _). injection Q as -> _. lia.
Qed.

(** ** The calls of the tree *)
Lemma meanings_app : forall a b w, meanings w (a ++ b) = match meanings w a with Some w' => meanings w' b | None => None end.
Proof. induction a as [|c a IH]; intros b w; [reflexivity|]. cbn [app meanings]. destruct (meaning w c); [apply IH|reflexivity]. Qed.
Lemma meanings_cliques : forall new w, Forall (fun c => forallb (exists_var w) (c_vars c) = true) new ->
  meanings w (map (fun c => NewClique (c_vars c)) new) = Some (with_cliques w new).
Proof.
  induction new as [|c new IH]; intros w H; cbn [map meanings].
  - unfold with_cliques. cbn. rewrite app_nil_r. destruct w; reflexivity.
  - inversion H as [|? ? H1 H2]; subst. cbn [meaning]. rewrite H1. rewrite IH by exact H2. unfold with_cliques. cbn. rewrite <- app_assoc. reflexivity.
Qed.
Lemma clique_at : forall w new i, i < length new -> clique_of (with_cliques w new) (length (w_cliques w) + i) = Some (c_vars (nth i new no_clique), []).
Proof.
  intros w new i Hi. unfold clique_of, with_cliques. cbn [w_cliques]. rewrite nth_error_app2 by lia. replace (length (w_cliques w) + i - length (w_cliques w)) with i by lia.
  rewrite nth_error_map, (nth_error_nth' new no_clique Hi). reflexivity.
Qed.
Lemma sepsets_loop_kept : forall fuel num ins h jt jt' e, create_sepsets_loop fuel num ins h jt = Ok (jt', e) ->
  map c_vars (cls jt') = map c_vars (cls jt) /\ map c_p (cls jt') = map c_p (cls jt).
Proof.
  induction fuel as [|fuel IH]; intros num ins h jt jt' e E; cbn [create_sepsets_loop] in E; destruct (negb (Nat.ltb ins (num - 1))); try discriminate E; try (injection E as <- <-; auto; fail).
  binv E p. destruct p as [[s|] h1]; [|injection E as <- <-; auto]. binv E j1. binv E q. destruct q as [j2 b]. apply unmark_kept in K0. apply connected_kept in K1. destruct (kept_trans _ _ _ K0 K1) as (_ & A & B).
  destruct b.
  - apply IH in E. destruct E. split; congruence.
  - binv E j3. apply confirm_kept in K2. destruct K2 as (_ & C & D). cbn [cls] in C, D. apply IH in E. destruct E. split; congruence.
Qed.
Lemma create_sepsets_kept : forall card out num jt e, create_sepsets card (mkJT out []) num = Ok (jt, e) ->
  map c_vars (cls jt) = map c_vars out /\ map c_p (cls jt) = map c_p out.
Proof.
  intros card out num jt e E. unfold create_sepsets in E. binv E h. destruct h as [h|]; [apply sepsets_loop_kept in E; exact E|]. injection E as <- <-. auto.
Qed.

Lemma m_graph_to_cliques_ok : forall k1 k2 card iface gvs m vs cl w t G L f jt e, graph_ok (mg G) gvs -> gvs <> [] -> (forall u, ~ arc (mg G) u u) ->
  (forall v, 0 < card v) -> (Z.of_nat (length gvs * (length gvs - 1)) <= INT_MAX)%Z -> forallb (exists_var w) gvs = true ->
  inv m vs cl (w_vars w) t (led (gblocks G ++ L) ++ f) -> rep w cl t ->
  graph_to_cliques k1 k2 card iface (mg G) = Ok (jt, e) ->
  exists m' array adr w' t' out lost, m_graph_to_cliques k1 k2 card iface (nth_error vs) m G = Ok (m', array, map Some (rev adr), jt, e) /\
    inv m' vs (cl ++ adr) (w_vars w') t' (led (array :: gblocks G ++ L) ++ concat (map snd lost) ++ f) /\ rep w' (cl ++ adr) t' /\
    meanings w (tree_calls (length (w_cliques w)) jt) = Some w' /\
    Forall (cand_ok card (cl ++ adr) (length cl) out) lost /\ length out = length (cls jt) /\
    NoDup (map ends (map zs lost)) /\
    (forall x, In x (map zs lost) -> s_first x < s_second x < length (cls jt) /\ ~ neighbouring jt (s_first x) (s_second x) /\
       exists s, In s (sps jt) /\ length (s_vars s) <= shared jt (s_first x) (s_second x)) /\
    (forall a b, a < b < length (cls jt) -> ~ neighbouring jt a b -> (exists s, In s (sps jt) /\ length (s_vars s) < shared jt a b) ->
       In (a, b) (map ends (map zs lost))).
Proof.
  intros k1 k2 card iface gvs m vs cl w t G L f jt e OK NE IR HC HI EV INV R E.
  destruct (to_cliques_lemma k1 k2 card iface (mg G) gvs OK NE IR HC HI) as (gt & _ & _ & _ & _ & _ & TOC). destruct (TOC jt e E) as (EE & GT & _ & LE & GE0 & MEM & _). clear TOC.
  destruct (joined_ok iface (mg G) gvs OK IR) as (gu & EJ & OKu & ARCS).
  unfold graph_to_cliques in E. unfold m_graph_to_cliques. assert (O := inv_owns _ _ _ _ _ _ _ INV). rewrite (use_graph_ok m G _ _ O). cbn [bind].
  binv E gm. cbn [bind] in EJ |- *. destruct (m_new_graph_ok m gm _ _ O) as (m1 & Gm & E1 & O1 & <-). rewrite E1.
  binv E gi. cbn [bind] in EJ |- *. destruct (m_new_graph_ok m1 gi _ _ O1) as (m2 & Gi & E2 & O2 & <-). rewrite E2.
  destruct (m_free_graph_ok m2 Gm (gblocks Gi ++ gblocks G ++ L) (blocks_of t ++ f)) as (m3 & E3 & O3). { eapply owns_perm; [exact O2|]. perm. } rewrite E3. cbn [bind].
  rewrite (use_graph_ok m3 Gi _ _ O3). cbn [bind]. binv E gu'. injection EJ as ->. cbn [bind].
  destruct (m_new_graph_ok m3 gu _ _ O3) as (m4 & Gu & E4 & O4 & <-). rewrite E4.
  destruct (m_free_graph_ok m4 Gi (gblocks Gu ++ gblocks G ++ L) (blocks_of t ++ f)) as (m5 & E5 & O5). { eapply owns_perm; [exact O4|]. perm. } rewrite E5. cbn [bind].
  binv E q. destruct q as [out gq]. 
  assert (KV : map c_vars (cls jt) = map c_vars out /\ map c_p (cls jt) = map c_p out).
  { exact (create_sepsets_kept _ _ _ _ _ E). }
  destruct KV as (KV & KP).
  assert (LO : length out = length (cls jt)). { rewrite <- (map_length c_vars out), <- KV. apply map_length. }
  assert (VARS : forall c, In c out -> forallb (exists_var w) (c_vars c) = true).
  { intros c Hc. apply forallb_forall. intros v Hv. rewrite forallb_forall in EV. apply EV.
    assert (IC : In (c_vars c) (map c_vars (cls jt))). { rewrite KV. apply in_map. exact Hc. }
    apply in_map_iff in IC. destruct IC as (c' & EQ & IC). apply (In_nth _ _ no_clique) in IC. destruct IC as (i & Hi & EN).
    destruct (MEM i Hi) as (MI & _). apply MI. unfold JoinTreeSpec.clq. rewrite (nth_indep _ _ no_clique Hi), EN, EQ. exact Hv. }
  assert (I5 : inv m5 vs cl (w_vars w) t (led (gblocks Gu ++ gblocks G ++ L) ++ f)) by (eapply owns_inv; [exact INV|exact O5]).
  assert (IRu : forall u, ~ arc (mg Gu) u u). { intros u A. apply ARCS in A. tauto. }
  destruct (m_triangulate_ok k1 k2 card vs gvs m5 cl w t Gu (gblocks G ++ L) f out gq OKu NE IRu I5 R K2) as (m6 & array & t6 & new & adr & G6 & E6 & EO & LA & I6 & R6).
  { apply Forall_forall. exact VARS. }
  rewrite E6. cbn [bind]. clear K2.
  assert (LC : length (w_cliques w) = length cl) by exact (proj1 R).
  assert (LN : length new = length out) by (rewrite EO, rev_length; reflexivity).
  assert (TH : there (length cl) out (with_cliques w new) t6).
  { intros k Hk. unfold pos. assert (X := clique_at w new (length out - 1 - k) ltac:(lia)). rewrite LC in X. destruct R6 as (_ & R6). rewrite R6 in X.
    destruct (nth (length cl + (length out - 1 - k)) (t_members t6) None) as [mem|]; [|discriminate X]. injection X as -> _. eexists. split; [reflexivity|].
    apply VARS. assert (Li : length out - 1 - k < length new) by lia. revert Li. generalize (length out - 1 - k). intros i Li. rewrite EO. apply in_rev. rewrite rev_involutive. apply nth_In. exact Li. }
  destruct (m_create_sepsets_ok card vs (cl ++ adr) (length cl) out m6 (with_cliques w new) t6 (map Some (rev adr)) (array :: gblocks G6 ++ gblocks G ++ L) f jt e I6 R6 TH) as (m7 & w7 & t7 & lost & rest & E7 & I7 & R7 & C7 & _ & _ & MM & ONE & TWO).
  { intros k Hk. unfold rd. rewrite nth_error_map. rewrite (nth_error_nth' (rev adr) 0) by (rewrite rev_length; lia). cbn [option_map]. rewrite rev_nth by lia. unfold pos.
    rewrite app_nth2 by lia. do 3 f_equal. lia. }
  { exact E. }
  rewrite E7. cbn [bind]. destruct (m_free_graph_ok m7 G6 (array :: gblocks G ++ L) (blocks_of t7 ++ concat (map snd lost) ++ f)) as (m8 & E8 & O8).
  { eapply owns_perm; [exact (inv_owns _ _ _ _ _ _ _ I7)|]. perm. }
  rewrite E8. cbn [bind]. exists m8, array, adr, w7, t7, out, lost. split; [reflexivity|].
  split; [eapply owns_inv; [exact I7|exact O8]|]. split; [exact R7|]. split.
  { unfold tree_calls. rewrite meanings_app.
    assert (EQ : map (fun c => NewClique (c_vars c)) (rev (cls jt)) = map (fun c => NewClique (c_vars c)) new).
    { rewrite <- (map_map c_vars NewClique), <- (map_map c_vars NewClique). f_equal. rewrite map_rev, KV, EO, map_rev, rev_involutive. reflexivity. }
    rewrite EQ, meanings_cliques. 2:{ apply Forall_forall. intros c Hc. apply VARS. rewrite EO. apply in_rev. rewrite rev_involutive. exact Hc. }
    rewrite <- LO, LC. exact MM. }
  split; [exact C7|]. split; [exact LO|].
  (* what is lost *)
  destruct (Nat.lt_ge_cases (length out) 2) as [SM|BG].
  { rewrite (ONE ltac:(lia)). split; [constructor|]. split; [intros x []|]. intros a b Hab. lia. }
  destruct (TWO BG) as (PP & KEY). destruct EE as [EE|(_ & EE)]; [|lia]. destruct (KEY EE) as (s0 & IS0 & Q1 & Q2). clear KEY TWO ONE.
  destruct GT as (SH & _ & LS & GC & GS).
  assert (SKEY : forall s, In s (sps jt) -> skey s = (- Z.of_nat (length (s_vars s)))%Z).
  { intros s Hs. apply (In_nth _ _ s) in Hs. destruct Hs as (i & Hi & EN). destruct (GS i Hi) as (Q & _ & _). unfold JoinTreeSpec.sep in Q. rewrite (nth_indep _ _ s Hi), EN in Q.
    unfold skey, sepset_primary_cost. rewrite Q. unfold dimensionality, ones. cbn [dims]. rewrite map_length. reflexivity. }
  assert (NKEY : forall a b s, a < length out -> b < length out -> JoinTreeModel.new_sepset card (mkJT out []) a b = Ok (Some s) -> skey s = (- Z.of_nat (shared jt a b))%Z).
  { intros a b s Ha Hb ES.
    assert (AT : forall i, i < length out -> exists c c', nth_error out i = Some c /\ nth_error (cls jt) i = Some c' /\ c_vars c' = c_vars c /\ c_vars c <> [] /\ dimensionality (c_p c) = length (c_vars c)).
    { intros i Hi. destruct (nth_error out i) as [c|] eqn:EN; [|apply nth_error_None in EN; lia]. destruct (nth_error (cls jt) i) as [c'|] eqn:EN'; [|apply nth_error_None in EN'; lia].
      exists c, c'. split; [reflexivity|]. split; [reflexivity|].
      assert (V1 : c_vars c' = c_vars c). { assert (X := f_equal (fun l => nth_error l i) KV). cbn beta in X. rewrite !nth_error_map, EN, EN' in X. cbn in X. congruence. }
      assert (V2 : c_p c' = c_p c). { assert (X := f_equal (fun l => nth_error l i) KP). cbn beta in X. rewrite !nth_error_map, EN, EN' in X. cbn in X. congruence. }
      assert (EC : JoinTreeSpec.clq jt i = c') by (unfold JoinTreeSpec.clq; apply nth_error_nth; exact EN').
      split; [exact V1|]. destruct SH as (_ & SH & _). destruct (SH i ltac:(lia)) as (_ & _ & NE' & _). rewrite EC, V1 in NE'. split; [exact NE'|].
      destruct (GC i ltac:(lia)) as (PC & _). rewrite EC, V1, V2 in PC. rewrite PC. unfold dimensionality, ones. cbn [dims]. apply map_length. }
    destruct (AT a Ha) as (ca & ca' & A1 & A2 & A3 & A4 & A5). destruct (AT b Hb) as (cb & cb' & B1 & B2 & B3 & B4 & B5).
    rewrite (new_sepset_key card out a b s ca cb A1 B1 A4 B4 A5 B5 ES). unfold shared. rewrite A2, B2, A3, B3. reflexivity. }
  assert (ND : NoDup (map ends (sps jt ++ map zs lost ++ rest))) by (eapply Permutation_NoDup; [exact PP|apply pairs_nodup]).
  rewrite !map_app in ND. assert (NDL : NoDup (map ends (map zs lost))) by (apply NoDup_right in ND; apply NoDup_left in ND; exact ND).
  split; [exact NDL|]. split.
  - intros x Hx.
    assert (RX : In (ends x) (pairs out (length out - 1))). { eapply Permutation_in; [apply Permutation_sym; exact PP|]. apply in_map. apply in_or_app. right. apply in_or_app. left. exact Hx. }
    unfold ends in RX. apply pairs_in in RX. split; [lia|]. split.
    + intros (s & Hs & F1 & F2). assert (ES : ends s = ends x) by (unfold ends; congruence).
      destruct (JoinTreeProofs2.NoDup_app_inv _ _ _ ND) as (_ & _ & DIS). apply (DIS (ends s)); [apply in_map; exact Hs|]. apply in_or_app. left. rewrite ES. apply in_map. exact Hx.
    + exists s0. split; [exact IS0|]. assert (Q := Q1 x (or_intror Hx)). apply in_map_iff in Hx. destruct Hx as (z & <- & Hz). rewrite Forall_forall in C7. destruct (C7 z Hz) as (p & _ & _ & RG & NS).
      rewrite (NKEY (s_first (zs z)) (s_second (zs z)) (zs z) ltac:(lia) ltac:(lia) NS), (SKEY _ IS0) in Q. lia.
  - intros a b Hab NB (s & Hs & LT).
    assert (IP : In (a, b) (map ends (sps jt ++ map zs lost ++ rest))). { eapply Permutation_in; [exact PP|]. apply pairs_in. lia. }
    apply in_map_iff in IP. destruct IP as (y & EY & IY). apply in_app_or in IY. destruct IY as [IY|IY].
    { destruct NB. exists y. unfold ends in EY. injection EY as E1' E2'. auto. }
    apply in_app_or in IY. destruct IY as [IY|IY]. { rewrite <- EY. apply in_map. exact IY. }
    exfalso. destruct (Q2 y IY) as (QL & NS). unfold ends in EY. injection EY as E1' E2'. rewrite E1', E2' in NS. rewrite (NKEY a b y ltac:(lia) ltac:(lia) NS) in QL.
    assert (Q := Q1 s (or_introl Hs)). rewrite (SKEY _ Hs) in Q. rewrite (SKEY _ IS0) in Q, QL. lia.
Qed.

(** ** The whole program *)
Lemma C91_lemma : forall k1 k2 card iface calls w nodes arcs, meanings nothing calls = Some w ->
  NoDup nodes -> nodes <> [] -> (forall v, In v nodes -> exists_var w v = true) ->
  (forall u v, In (u, v) arcs -> In u nodes /\ In v nodes /\ u <> v) -> (forall v, 0 < card v) ->
  (Z.of_nat (length nodes * (length nodes - 1)) <= INT_MAX)%Z ->
  forall g jt e, graph_from nodes arcs = Ok (g, NO_ERROR) -> graph_to_cliques k1 k2 card iface g = Ok (jt, e) ->
  exists st m vs cl array w' leak, run_calls start calls = Ok st /\
    join_tree k1 k2 card iface st nodes arcs = Ok (m, vs, cl, array, jt, e) /\
    meanings w (tree_calls (length (w_cliques w)) jt) = Some w' /\
    (forall a mem nb, clique_of w' a = Some (mem, nb) -> has_neighbours m (nth a cl 0) (map (fun b => nth b cl 0) nb)) /\
    leaked jt leak /\
    forall more w2, meanings w' more = Some w2 ->
      exists m2 vs2 cl2 m3, run_calls (m, vs, cl) more = Ok (m2, vs2, cl2) /\ free m2 (Some array) = Ok m3 /\
        (nothing_left w2 -> 11 * length leak <= live m3 <= 12 * length leak).
Proof.
  intros k1 k2 card iface calls w nodes arcs HM ND NE EV AR HC HI g jt e EG ET.
  destruct (graph_from_ok nodes arcs ND ltac:(intros u v Q; destruct (AR u v Q) as (? & ? & _); auto)) as (g' & EG' & OK & ARC). rewrite EG in EG'. injection EG' as <-.
  assert (IR : forall u, ~ arc g u u). { intros u Q. apply ARC in Q. destruct (AR u u Q) as (_ & _ & X). congruence. }
  destruct (program_ok calls w HM) as (m & vs & cl & t & E & INV & R).
  exists (m, vs, cl). unfold join_tree, graph_from in *.
  assert (INV0 : inv m vs cl (w_vars w) t (led [] ++ [])) by exact INV. assert (O := inv_owns _ _ _ _ _ _ _ INV0).
  destruct (m_new_graph_ok m (new_graph (length nodes)) _ _ O) as (m1 & G1 & E1 & O1 & M1). rewrite E1.
  binv EG q. destruct q as [g2 e2]. rewrite <- M1 in K. assert (EN2 : e2 = NO_ERROR). { destruct (is_err e2) eqn:IE; [injection EG as _ ->; discriminate IE|]. destruct e2; try discriminate IE; reflexivity. }
  subst e2. cbn [is_err] in EG. destruct (put_nodes_ok nodes m1 G1 _ _ g2 NO_ERROR O1 K eq_refl) as (m2 & G2 & E2 & O2 & M2). rewrite E2. cbn [bind]. rewrite <- M2 in EG.
  destruct (put_arcs_ok arcs m2 G2 _ _ g NO_ERROR O2 EG eq_refl) as (m3 & G3 & E3 & O3 & M3). rewrite E3. cbn [bind]. subst g.
  assert (I3 := owns_inv _ _ _ _ _ _ _ _ _ INV0 O3).
  destruct (m_graph_to_cliques_ok k1 k2 card iface nodes m3 vs cl w t G3 [] [] jt e OK NE IR HC HI ltac:(apply forallb_forall; exact EV) I3 R ET) as
    (m4 & array & adr & w4 & t4 & out & lost & E4 & I4 & R4 & MM & CL & LO & NDL & LK1 & LK2).
  rewrite E4. cbn [bind]. assert (O4 := inv_owns _ _ _ _ _ _ _ I4).
  destruct (m_free_graph_ok m4 G3 [array] (blocks_of t4 ++ concat (map snd lost) ++ [])) as (m5 & E5 & O5). { eapply owns_perm; [exact O4|]. perm. }
  rewrite E5. cbn [bind]. rewrite all_addresses_ok. cbn [bind]. rewrite rev_involutive.
  assert (I5 := owns_inv _ _ _ _ _ _ _ _ _ I4 O5).
  exists m5, vs, (cl ++ adr), array, w4, (map ends (map zs lost)). split; [exact E|]. split; [reflexivity|]. split; [exact MM|]. split; [|split].
  - intros a mem nb CA. destruct (rep_some w4 _ t4 a mem nb R4 CA) as (MA & ->). eapply inv_neighbours; eassumption.
  - split; [exact NDL|]. split; [|exact LK2]. intros a b Hab. apply in_map_iff in Hab. destruct Hab as (x & EX & Hx). unfold ends in EX. injection EX as <- <-. exact (LK1 x Hx).
  - intros more w2 HW. destruct (run_calls_ok more m5 vs (cl ++ adr) w4 w2 t4 _ I5 R4 HW) as (m6 & vs6 & cl6 & t6 & E6 & I6 & R6).
    assert (O6 := inv_owns _ _ _ _ _ _ _ I6). destruct (free_owns _ _ _ _ O6) as (m7 & E7 & O7).
    exists m6, vs6, cl6, m7. split; [exact E6|]. split; [exact E7|]. intros (NV & NC).
    assert (I7 := owns_inv _ _ _ _ _ _ _ _ _ I6 O7).
    assert (H7 : heap_is m7 (led [] ++ concat (map snd lost) ++ [])).
    { apply (inv_empty m7 _ _ _ t6 _ I7 NV). intros k. destruct R6 as (_ & R6). assert (X := NC k). rewrite R6 in X. destruct (nth k (t_members t6) None); [discriminate|reflexivity]. }
    apply live_heap in H7. rewrite H7. cbn [led map app]. rewrite app_nil_r, !map_length. apply (lost_size _ _ _ _ _ CL).
Qed.

Lemma live_none : forall m, live m = 0 -> all_free m.
Proof.
  intros m. unfold live, all_free. induction m as [|b m IH]; intros H; [constructor|]. cbn [filter] in H. destruct b; [discriminate|]. constructor; [reflexivity|]. apply IH. exact H.
Qed.
Lemma C91_kept_lemma : forall k1 k2 card iface calls w nodes arcs, meanings nothing calls = Some w ->
  NoDup nodes -> nodes <> [] -> (forall v, In v nodes -> exists_var w v = true) ->
  (forall u v, In (u, v) arcs -> In u nodes /\ In v nodes /\ u <> v) -> (forall v, 0 < card v) ->
  (Z.of_nat (length nodes * (length nodes - 1)) <= INT_MAX)%Z ->
  forall g jt e, graph_from nodes arcs = Ok (g, NO_ERROR) -> graph_to_cliques k1 k2 card iface g = Ok (jt, e) ->
  (forall a b s, a < b < length (cls jt) -> In s (sps jt) -> neighbouring jt a b \/ shared jt a b < length (s_vars s)) ->
  exists st m vs cl array w', run_calls start calls = Ok st /\
    join_tree k1 k2 card iface st nodes arcs = Ok (m, vs, cl, array, jt, e) /\
    meanings w (tree_calls (length (w_cliques w)) jt) = Some w' /\
    forall more w2, meanings w' more = Some w2 -> nothing_left w2 ->
      exists m2 vs2 cl2 m3, run_calls (m, vs, cl) more = Ok (m2, vs2, cl2) /\ free m2 (Some array) = Ok m3 /\ all_free m3.
Proof.
  intros k1 k2 card iface calls w nodes arcs HM ND NE EV AR HC HI g jt e EG ET FAR.
  destruct (C91_lemma k1 k2 card iface calls w nodes arcs HM ND NE EV AR HC HI g jt e EG ET) as (st & m & vs & cl & array & w' & leak & E1 & E2 & E3 & _ & (_ & LK & _) & MORE).
  exists st, m, vs, cl, array, w'. do 3 (split; [assumption|]). intros more w2 HW NL. destruct (MORE more w2 HW) as (m2 & vs2 & cl2 & m3 & E4 & E5 & N). exists m2, vs2, cl2, m3. do 2 (split; [assumption|]).
  apply live_none. assert (LE : leak = []). { destruct leak as [|[a b] leak]; [reflexivity|]. exfalso. destruct (LK a b (or_introl eq_refl)) as (AB & NB & s & IS & L). destruct (FAR a b s AB IS) as [Q|Q]; [exact (NB Q)|lia]. }
  specialize (N NL). rewrite LE in N. cbn in N. lia.
Qed.
