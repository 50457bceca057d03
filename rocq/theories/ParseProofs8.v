(** * Proofs about parse_model: assembly *)
From Coq Require Import Permutation Sorted String Field.
From Verif Require Import Base BaseProofs PotentialModel PotentialSpec PotentialProofs
  PotentialProofs2 PotentialProofs3 PotentialProofs4 VariableModel VariableProofs JoinTreeModel
  AssignSpec AssignProofs JoinTreeSpec JoinTreeProofs JoinTreeProofs2 JoinTreeProofs3
  JoinTreeProofs4 JoinTreeProofs5 JoinTreeProofs6 JoinTreeProofs7 NipModel NipSpec NipProofs
  NipProofs2 NipProofs3 NipProofs4 GatherProofs SliceModel SliceSpec SliceProofs4 LearnModel LearnSpec LearnProofs LearnProofs2
  LearnProofs3 GraphModel GraphSpec GraphTheory GraphProofs ReorderProofs GraphProofs7 GraphProofs8 HeapProofs ParseModel
  ParseSpec ParseProofs ParseProofs2 ParseProofs3 ParseProofs4 ParseProofs5 ParseProofs6 ParseProofs7.
Import ListNotations.
Open Scope nat_scope.
Local Open Scope res_scope.
Local Notation len := List.length.

Add Field Qcfield_parse8 : Qcft.

Definition iface_of (vl : list pvar) (v : nat) : nat :=
  match nth_error vl v with Some x => pv_iface x | None => 0 end.

Lemma parts_of_graph : forall vs arcs g, graph_from vs arcs = Ok (g, NO_ERROR) ->
  exists g1, add_nodes (new_graph (len vs)) vs = Ok (g1, NO_ERROR) /\ add_arcs g1 arcs = Ok (g, NO_ERROR).
Proof.
  intros vs arcs g H. unfold graph_from in H. destruct (add_nodes (new_graph (len vs)) vs) as [[g1 e]| |]; cbn [bind] in H; try discriminate H.
  destruct (is_err e) eqn:E.
  - injection H as -> ->. discriminate E.
  - exists g1. split; auto. destruct e; auto; discriminate E.
Qed.

Lemma perm_filter : forall A (g : A -> bool) a b, Permutation a b -> Permutation (filter g a) (filter g b).
Proof.
  intros A g a b P. induction P; cbn [filter].
  - constructor.
  - destruct (g x); [now apply perm_skip|auto].
  - destruct (g x), (g y); try apply Permutation_refl. constructor.
  - eapply perm_trans; eauto.
Qed.

Section Net.
Variable t : net.
Hypothesis NO : net_ok t.
Variable c0 : Z.
Local Notation card := (card_in t).
Local Notation n := (size t).

Lemma n_pos : 0 < n.
Proof. assert (H := no_nodes t NO). unfold size. destruct (n_nodes t); [congruence|cbn; lia]. Qed.
Lemma pots_ne : n_potentials t <> [].
Proof.
  intros E. assert (P := Permutation_length (children_perm t NO)). rewrite E, seq_length in P. cbn in P. assert (H := n_pos). lia.
Qed.
Lemma arcs_parent : forall u v, In (u, v) (arcs_of t) <-> parent t u v.
Proof.
  intros u v. unfold arcs_of, parent. rewrite in_flat_map. split.
  - intros (d & Hd & H). apply in_map_iff in H. destruct H as (w & E & H). injection E as <- <-. exists d. auto.
  - intros (d & Hd & <- & H). exists d. split; auto. apply in_map_iff. eauto.
Qed.
Lemma child_lt : forall d, In d (n_potentials t) -> child_of t d < n.
Proof. intros d Hd. apply (family_lt t (vl0 t c0) (vl0_ok t NO c0) d); [apply (no_decl t NO); auto|left; auto]. Qed.
Lemma parent_lt : forall u v, parent t u v -> u < n /\ v < n /\ u <> v.
Proof.
  intros u v (d & Hd & <- & H). assert (OK := no_decl t NO d Hd).
  split; [apply (family_lt t (vl0 t c0) (vl0_ok t NO c0) d); auto; right; auto|]. split; [now apply child_lt|].
  intros ->. assert (ND := family_nodup t d OK). inversion ND; subst. contradiction.
Qed.

Lemma steps : (c0 + Z.of_nat n <= LONG_MAX)%Z ->
  exists vl gr g1 ps, final_ok t c0 vl /\ graph_from (seq 0 n) (arcs_of t) = Ok (gr, NO_ERROR) /\
    graph_ok gr (seq 0 n) /\ (forall u v, arc gr u v <-> parent t u v) /\
    Forall2 (pot_means t) (n_potentials t) ps /\
    forall k1 k2, yyparse k1 k2 (fresh_globals c0) t =
      let* (jt, _) := graph_to_cliques (k1 vl) (k2 vl) (cardp vl) (iface_of vl) gr in
      let* r := potentials_to_jtree (m_init vl jt) ps in
      match r with None => Ok None | Some m => Ok (Some (vl, m, g1)) end.
Proof.
  intros HC. assert (V0 := vl0_ok t NO c0).
  destruct (node_declarations_ok (n_nodes t) c0 Null [] [] Null) as (lab & E1); auto.
  { apply (no_states t NO). } { apply (no_labels t NO). }
  cbn [app] in E1. change (len (@nil pvar)) with 0 in E1. fold (vl0 t c0) in E1.
  assert (EP : ptr (vl0 t c0) = Live (vl0 t c0)).
  { assert (L : len (vl0 t c0) = n) by apply V0. clear - L NO. destruct (vl0 t c0); auto. cbn in L. assert (H := n_pos). lia. }
  rewrite EP in E1.
  destruct (potential_declarations_first t NO (vl0 t c0) V0 (n_potentials t) pots_ne (no_decl t NO)) as (ps & F & E2).
  destruct (graph_from_ok (seq 0 n) (arcs_of t) (seq_NoDup _ _)) as (gr & EG & OG & AG).
  { intros u v H. apply arcs_parent, parent_lt in H. rewrite !in_seq. lia. }
  destruct (parts_of_graph _ _ _ EG) as (gn & EN & EA). rewrite seq_length in EN.
  destruct (potentials_to_graph_ok t (n_potentials t) ps F gn gr (vl0 t c0)) as (vl1 & E3 & L1 & Q1 & _); auto.
  { intros d Hd. rewrite (proj1 V0). now apply child_lt. } { now apply children_nodup. }
  assert (P1 : forall v, v < n -> pv vl1 v = set_parents (pv (vl0 t c0) v) (parents_of t (decl_of t v))).
  { intros v Hv. destruct (decl_of_ok t NO v Hv) as (A & B). rewrite <- B at 1 2. now apply Q1. }
  destruct (interface_ok t NO c0 vl1) as (vl & E4 & FV); auto.
  { split; [rewrite L1; apply V0|]. intros v x E. assert (Hv : v < n). { rewrite <- (proj1 V0), <- L1. apply nth_error_Some. congruence. }
    assert (x = pv vl1 v) as -> by (unfold pv; symmetry; now apply nth_error_nth). rewrite P1 by auto.
    apply (proj2 V0 v (pv (vl0 t c0) v)). unfold pv. apply nth_error_nth'. now rewrite (proj1 V0). }
  eexists vl, gr, _, ps. split; auto. split; auto. split; auto. split.
  { intros u v. rewrite AG. apply arcs_parent. }
  split; auto. intros k1 k2. unfold yyparse, fresh_globals.
  change (mkGlobals c0 Null Null Null Null) with (mkGlobals c0 Null (ptr []) (ptr []) Null).
  rewrite E1. cbn [bind g_parsed g_potentials g_relations]. rewrite E2. cbn [bind]. unfold input_action.
  rewrite (proj1 V0). rewrite (vars_to_graph_ok _ _ _ EN). cbn [bind]. rewrite E3. cbn [bind g_relations]. rewrite E4. cbn [bind].
  reflexivity.
Qed.

(** The rest of parse_model. *)
Lemma parse_finish : forall k1 k2 g, parse_model k1 k2 g t =
  let* r := yyparse k1 k2 g t in
  match r with None => Ok None | Some (vl, m, g) => finish vl m g end.
Proof. reflexivity. Qed.

Section Vars.
Variable vl : list pvar.
Hypothesis FV : final_ok t c0 vl.
Variable gr : graph.
Hypothesis OG : graph_ok gr (seq 0 n).
Hypothesis AG : forall u v, arc gr u v <-> parent t u v.
Variable ps : list parsed_potential.
Hypothesis F : Forall2 (pot_means t) (n_potentials t) ps.
Variables k1 k2 : list nat -> Z.

Lemma iface_pv : forall v, v < n -> iface_of vl v = pv_iface (pv vl v).
Proof.
  intros v Hv. unfold iface_of, pv. rewrite (nth_error_nth' _ pv0) by (rewrite (vl_len t c0 vl FV); auto). reflexivity.
Qed.
Definition orphan v := match parents_of t (decl_of t v) with [] => true | _ => false end.

Lemma filter_perm : forall (f : pot_decl -> bool) (h : pot_decl -> Qc),
  qprod (map h (filter f (n_potentials t))) =
  qprod (map (fun v => h (decl_of t v)) (filter (fun v => f (decl_of t v)) (seq 0 n))).
Proof.
  intros f h.
  assert (E : n_potentials t = map (decl_of t) (map (child_of t) (n_potentials t))).
  { rewrite map_map. rewrite <- (map_id (n_potentials t)) at 1. apply map_ext_in. intros d Hd. symmetry. now apply decl_of_child. }
  rewrite E. rewrite ParseProofs7.filter_map, map_map. apply qprod_perm, Permutation_map.
  apply perm_filter. now apply children_perm.
Qed.

Lemma build : forall jt e, graph_to_cliques k1 k2 (cardp vl) (iface_of vl) gr = Ok (jt, e) ->
  exists m', potentials_to_jtree (m_init vl jt) ps = Ok (Some m') /\
  forall g, exists m g', finish vl m' g = Ok (Some (map pv_named vl, m, g')) /\ parsed t (map pv_named vl) m.
Proof.
  intros jt e E.
  assert (EC : forall v, cardp vl v = card v) by (apply (cardp_in t vl (proj1 FV))).
  assert (NE : seq 0 n <> []). { assert (H := n_pos). destruct n; [lia|discriminate]. }
  assert (IR : forall v, ~ arc gr v v). { intros v H. apply AG, parent_lt in H. lia. }
  assert (HC : forall v, 0 < cardp vl v). { intros v. rewrite EC. now apply card_in_pos. }
  assert (HI : (Z.of_nat (len (seq 0 n) * (len (seq 0 n) - 1)) <= INT_MAX)%Z). { rewrite seq_length. apply (no_size t NO). }
  destruct (to_cliques_lemma k1 k2 (cardp vl) (iface_of vl) gr (seq 0 n) OG NE IR HC HI) as (gt & _ & _ & _ & _ & _ & W).
  destruct (W jt e E) as (_ & GT & RI & _ & P0 & _). clear W.
  destruct (C25_lemma k1 k2 (cardp vl) (iface_of vl) gr (seq 0 n) OG NE IR HC HI jt e E) as (FA & (io & Hio & OC) & (ii & Hii & IC) & _ & SC).
  apply (good_tree_ext _ card _ EC) in GT.
  destruct (m_init_ok t NO c0 vl FV jt GT RI) as (MO & JO & KO).
  { intros i v Hi Hv. apply SC in Hv; auto. apply in_seq in Hv. lia. }
  { intros v Hv. destruct (FA v) as (i & Hi & I & P); [apply in_seq; lia|]. exists i. split; auto. split; auto. intros u Hu. apply P, AG. auto. }
  assert (LV : len (m_vars (m_init vl jt)) = n). { unfold m_init. cbn [m_vars]. rewrite map_length. apply (vl_len t c0 vl FV). }
  destruct (potentials_to_jtree_ok t NO (n_potentials t) ps F (incl_refl _) (children_nodup t NO) (m_init vl jt) MO eq_refl)
    as (m' & E5 & MO' & SS & J & JF & PR & _ & LE).
  { intros i Hi. apply GT. auto. }
  { intros d Hd. rewrite LV. assert (Hv := child_lt d Hd). split; auto. rewrite (m_init_var t c0 vl FV) by auto. cbn [vrec_of v_parents].
    destruct (proj2 FV _ Hv) as (_ & -> & _). now rewrite decl_of_child. }
  exists m'. split; auto. intros g.
  assert (LV' : len (m_vars m') = n). { destruct SS as (_ & _ & -> & _). exact LV. }
  assert (PA : forall v, v < n -> v_parents (var m' v) = parents_of t (decl_of t v)).
  { intros v Hv. destruct SS as (_ & _ & _ & SV & _). destruct (SV v) as (_ & -> & _). rewrite (m_init_var t c0 vl FV) by auto. cbn [vrec_of v_parents].
    now destruct (proj2 FV _ Hv) as (_ & -> & _). }
  assert (PRV : forall v, v < n -> parents_of t (decl_of t v) = [] -> exists l, v_prior (var m' v) = Some l /\ vector_ok card v l /\
     forall a, valid card a -> at_state l v a = factor_of t (decl_of t v) a).
  { intros v Hv HP. destruct (decl_of_ok t NO v Hv) as (A & B). specialize (PR (decl_of t v) A). rewrite B in PR. apply PR. unfold rooted. now rewrite HP. }
  assert (EV : map (fun x => match v_parents x, v_prior x with
                            | [], None => set_prior x (Some (repeat 0%Qc (v_card x)))
                            | _, _ => x
                            end) (m_vars m') = m_vars m').
  { rewrite <- (map_id (m_vars m')) at 2. apply map_ext_in. intros x Hx. apply (In_nth _ _ (mkVar 1 [] None false [] None None false 0)) in Hx.
    destruct Hx as (v & Hv & Ex). fold (var m' v) in Ex. rewrite LV' in Hv. subst x.
    destruct (v_parents (var m' v)) eqn:EP; auto. rewrite PA in EP by auto. destruct (PRV v Hv EP) as (l & -> & _). reflexivity. }
  assert (CV : forall i, c_vars (clq (m_jt m') i) = c_vars (clq jt i)) by apply SS.
  assert (LC : len (cls (m_jt m')) = len (cls jt)) by apply SS.
  assert (OS : forall v, In v (olds t vl) <-> v < n /\ old_outgoing t v) by (apply (olds_in t c0 vl FV)).
  assert (FC : exists ic oc,
    (if Nat.ltb 0 (len (olds t vl)) then
      let* ic := find_clique (m_jt m') (olds t vl) (len (olds t vl)) in
      let* oc := find_clique (m_jt m') (map (nx t) (olds t vl)) (len (olds t vl)) in
      match ic, oc with
      | Some i, Some o => Ok (i, o)
      | _, _ => UB
      end
    else Ok (0, 0)) = Ok (ic, oc) /\ ic < len (cls jt) /\ incl (olds t vl) (c_vars (clq jt ic)) /\
      oc < len (cls jt) /\ incl (map (nx t) (olds t vl)) (c_vars (clq jt oc))).
  { destruct (Nat.ltb_spec 0 (len (olds t vl))) as [L|L].
    - destruct (find_clique_ok card (m_jt m') (olds t vl) (mo_shape _ _ MO')) as (r1 & R1 & Q1).
      destruct (find_clique_ok card (m_jt m') (map (nx t) (olds t vl)) (mo_shape _ _ MO')) as (r2 & R2 & Q2).
      rewrite map_length in R2. rewrite R1. cbn [bind]. rewrite R2. cbn [bind].
      destruct r1 as [i|].
      2:{ exfalso. apply (Q1 ii); [rewrite LC; auto|]. rewrite CV. intros v Hv. apply OS in Hv. apply IC; [apply in_seq; lia|].
          rewrite <- flag_old_ok, iface_pv by lia. apply (oldb_iff t c0 vl FV); tauto. }
      destruct r2 as [o|].
      2:{ exfalso. apply (Q2 io); [rewrite LC; auto|]. rewrite CV. intros v Hv. apply in_map_iff in Hv. destruct Hv as (u & <- & Hu).
          assert (EN := olds_next t c0 vl FV u Hu). apply OS in Hu. destruct (next_in_lt t NO c0 _ _ EN) as (_ & LX & _).
          apply OC; [apply in_seq; lia|]. rewrite <- flag_ok, iface_pv by auto. apply (outb_iff t c0 vl FV); auto. exists u. tauto. }
      exists i, o. destruct Q1 as (Q1 & Q1' & _), Q2 as (Q2 & Q2' & _). rewrite LC in Q1, Q2. rewrite CV in Q1', Q2'.
      split; auto.
    - assert (N : olds t vl = []) by (destruct (olds t vl); [auto|cbn in L; lia]). rewrite N. exists 0, 0. split; auto.
      cbn. repeat split; auto; intros x []. }
  destruct FC as (ic & oc & EF & Hic & Iic & Hoc & Ioc).
  assert (ORP : forall v, v < n -> match nth_error (m_vars m') v with
                  | Some x => match v_parents x with [] => true | _ => false end
                  | None => true end = orphan v).
  { intros v Hv. rewrite (nth_error_nth' _ (mkVar 1 [] None false [] None None false 0)) by (rewrite LV'; auto). fold (var m' v).
    rewrite PA by auto. reflexivity. }
  assert (EFA : filter (fun v => match nth_error (m_vars m') v with
                  | Some x => match v_parents x with [] => true | _ => false end
                  | None => true end) (seq 0 n) = filter orphan (seq 0 n)).
  { apply filter_ext_in. intros v Hv. apply in_seq in Hv. apply ORP. lia. }
  assert (EFB : filter (fun v => negb match nth_error (m_vars m') v with
                  | Some x => match v_parents x with [] => true | _ => false end
                  | None => true end) (seq 0 n) = filter (fun v => negb (orphan v)) (seq 0 n)).
  { apply filter_ext_in. intros v Hv. apply in_seq in Hv. rewrite ORP by lia. reflexivity. }
  eexists _, _. split.
  { unfold finish. rewrite EV. rewrite (size_olds t NO c0 vl FV). rewrite (fill_ok t NO c0 vl FV). cbn [bind]. rewrite EF. cbn [bind].
    rewrite LV', EFA, EFB. reflexivity. }
  match goal with |- parsed _ _ ?m => set (mm := m) end.
  assert (VM : forall v, var mm v = var m' v) by reflexivity.
  assert (PRI : forall v, In v (filter orphan (seq 0 n)) -> v < n /\ parents_of t (decl_of t v) = []).
  { intros v H. apply filter_In in H. destruct H as (H & B). apply in_seq in H. split; [lia|]. unfold orphan in B.
    destruct (parents_of t (decl_of t v)); [auto|discriminate]. }
  assert (MM : model_ok card mm).
  { destruct MO' as [M1 M2 M3 M4 M5 M6 M7 M8]. constructor; auto. split.
    - apply NoDup_filter, seq_NoDup.
    - intros v Hv. apply PRI in Hv. destruct Hv as (Hv & HP). split; [change (v < len (m_vars m')); rewrite LV'; auto|].
      destruct (PRV v Hv HP) as (l & E1 & E2 & E3). exists l. rewrite VM. split; auto. split; auto.
      destruct (decl_of_ok t NO v Hv) as (A & _). destruct (root_positive t NO _ A HP) as (a & Va & Pa).
      rewrite <- E3 in Pa by auto. exists (at_state l v a). split; auto. apply nth_In. destruct E2 as (-> & _). apply Va. }
  assert (NV : forall v nv, nth_error (map pv_named vl) v = Some nv -> v < n /\ nv = pv_named (mkvar (c0 + Z.of_nat v) (node t v))).
  { intros v nv Q. assert (Hv : v < n). { rewrite <- (vl_len t c0 vl FV), <- (map_length pv_named vl). apply nth_error_Some. congruence. }
    split; auto. rewrite nth_error_map in Q. rewrite (nth_error_nth' _ pv0) in Q by (rewrite (vl_len t c0 vl FV); auto).
    cbn in Q. injection Q as <-. fold (pv vl v). destruct (proj2 FV v Hv) as (-> & _). now rewrite vl0_pv. }
  constructor.
  - constructor; auto.
    + apply (news_nodup t NO c0 vl FV).
    + unfold mm, olds. cbn [m_prev]. apply NoDup_filter, seq_NoDup.
    + unfold mm. cbn [m_out m_prev]. rewrite map_map. apply map_ext_in. intros v Hv. apply (olds_next t c0 vl FV) in Hv.
      destruct (next_in_lt t NO c0 _ _ Hv) as (_ & _ & Q & _). auto.
    + unfold mm. cbn [m_out m_jt m_out_clique]. rewrite LC, CV. auto.
    + unfold mm. cbn [m_prev m_jt m_in_clique]. rewrite LC, CV. auto.
    + intros v Hv. apply PRI in Hv. destruct Hv as (Hv & _). rewrite VM. destruct SS as (_ & _ & _ & SV & _). destruct (SV v) as (_ & _ & -> & _).
      rewrite (m_init_var t c0 vl FV) by auto. cbn [vrec_of v_old]. fold (oldb vl v). unfold mm. cbn [m_prev].
      apply eq_true_iff_eq. rewrite existsb_exists, (oldb_iff t c0 vl FV) by auto. split.
      * intros O. exists v. rewrite Nat.eqb_refl. split; auto. apply OS. auto.
      * intros (w & Hw & Q). apply Nat.eqb_eq in Q. subst w. now apply OS in Hw.
  - exact LV'.
  - split; [change (len (m_vars mm)) with (len (m_vars m')); rewrite map_length, LV'; apply (vl_len t c0 vl FV)|].
    intros v nv Q. apply NV in Q. destruct Q as (_ & ->). cbn. split; [discriminate|]. split; auto. eexists. split; [reflexivity|]. apply map_length.
  - apply (list_ext_nth _ EmptyString).
    { rewrite !map_length, symbols_length. apply (vl_len t c0 vl FV). }
    intros v Hv. rewrite !map_length in Hv. rewrite map_map. rewrite (nth_map _ _ _ _ _ pv0) by auto. fold (pv vl v).
    rewrite (vl_len t c0 vl FV) in Hv. destruct (proj2 (proj1 FV) v (pv vl v)) as (Q & _).
    { unfold pv. apply nth_error_nth'. rewrite (vl_len t c0 vl FV). auto. }
    unfold symbol_of. now rewrite Q.
  - intros v nv Q. apply NV in Q. destruct Q as (_ & ->). intros FS. cbn. rewrite <- (map_id (states (node t v))) at 2. apply map_ext_in.
    intros s Hs. apply variable_text_short. rewrite Forall_forall in FS. apply FS. auto.
  - intros v Hv. rewrite VM. auto.
  - intros v Hv. rewrite VM. destruct (LE v) as (-> & ->). rewrite (m_init_lik t c0 vl FV) by auto. split; auto.
    rewrite (m_init_var t c0 vl FV) by auto. reflexivity.
  - intros a Ha. destruct (J a Ha) as (J1 & J2). destruct (JO a Ha) as (O1 & O2).
    change (original mm a) with (original m' a). change (m_jt mm) with (m_jt m'). rewrite J1, J2. change (m_jt (m_init vl jt)) with jt. rewrite O1, O2.
    split; auto. rewrite filter_perm. rewrite Qcmult_1_l. f_equal. f_equal. apply filter_ext. intros v. unfold rooted.
    destruct (parents_of t (decl_of t v)); auto.
  - intros k a Hk Ha. change (m_jt mm) with (m_jt m') in *. rewrite LC in Hk. rewrite JF by auto. change (m_jt (m_init vl jt)) with jt.
    rewrite KO by auto. rewrite filter_perm. rewrite Qcmult_1_l. change (len (m_vars mm)) with (len (m_vars m')). rewrite LV'.
    f_equal. f_equal. unfold housed. apply filter_ext_in. intros v Hv. apply in_seq in Hv. 
    change (home mm v) with (home m' v). rewrite (home_structure _ _ _ SS). destruct (decl_of_ok t NO v) as (_ & ->); [lia|]. f_equal.
    unfold has_parents, rooted. rewrite VM, PA by lia. destruct (parents_of t (decl_of t v)); auto.
  - intros v Hv HP. rewrite VM. destruct (PRV v Hv HP) as (l & Q1 & _ & Q2). eauto.
  - reflexivity.
  - unfold mm. cbn [m_children]. apply filter_ext. intros v. unfold orphan. destruct (parents_of t (decl_of t v)); auto.
  - exact OS.
  - unfold mm. cbn [m_out m_prev]. rewrite map_map. apply map_ext_in. intros v Hv. symmetry. now apply (olds_next t c0 vl FV).
  - intros v Hv. rewrite VM. destruct SS as (_ & _ & _ & SV & _). destruct (SV v) as (_ & _ & -> & _).
    rewrite (m_init_var t c0 vl FV) by auto. cbn [vrec_of v_old]. fold (oldb vl v). now apply (oldb_iff t c0 vl FV).
  - intros l HL HJ. change (m_jt mm) with (m_jt m').
    destruct (C25_find_lemma k1 k2 (cardp vl) (iface_of vl) gr (seq 0 n) OG NE IR HC HI jt e l E HL) as (i & _ & Hi & I).
    { intros u v Hu Hv D. assert (Lu : u < n) by (apply HL, in_seq in Hu; lia). assert (Lv : v < n) by (apply HL, in_seq in Hv; lia).
      destruct (HJ u v Hu Hv D) as [(d & Hd & Fu & Fv)|[(Ou & Ov)|(Ou & Ov)]].
      - assert (PP : forall w, In w (parents_of t d) -> arc gr w (child_of t d)). { intros w Hw. apply AG. exists d. auto. }
        destruct Fu as [<-|Fu], Fv as [<-|Fv]; [congruence| | |].
        + right; left. auto.
        + left. auto.
        + right; right; left. eauto.
      - do 3 right; left. split; rewrite <- flag_old_ok, iface_pv by auto; now apply (oldb_iff t c0 vl FV).
      - do 4 right. split; rewrite <- flag_ok, iface_pv by auto; now apply (outb_iff t c0 vl FV). }
    exists i. rewrite LC, CV. auto.
  - change (m_jt mm) with (m_jt m'). intros i j. rewrite LC, !CV.
    destruct (C26_lemma k1 k2 (cardp vl) (iface_of vl) gr (seq 0 n) OG NE IR HC HI) as (gt' & _ & _ & _ & _ & W).
    destruct (W jt e E) as (_ & _ & AC). intros Hi Hj D I. apply D. now apply AC.
  - intros v Hv. rewrite VM. left. destruct SS as (_ & _ & _ & SV & _). destruct (SV v) as (_ & _ & _ & ->).
    rewrite (m_init_var t c0 vl FV) by auto. reflexivity.
Qed.

Lemma cliques_built : (forall gt c, triangulated k1 k2 (iface_of vl) gr = Ok gt -> NoDup c -> incl c (seq 0 n) -> complete gt c -> fits card c) ->
  exists jt e, graph_to_cliques k1 k2 (cardp vl) (iface_of vl) gr = Ok (jt, e).
Proof.
  intros H. assert (EC : forall v, cardp vl v = card v) by (apply (cardp_in t vl (proj1 FV))).
  apply (succeeds_lemma k1 k2 (cardp vl) (iface_of vl) gr (seq 0 n)); auto.
  - assert (Q := n_pos). destruct n; [lia|discriminate].
  - intros v Q. apply AG, parent_lt in Q. lia.
  - intros v. rewrite EC. now apply card_in_pos.
  - rewrite seq_length. apply (no_size t NO).
  - intros gt c Q1 Q2 Q3 Q4. unfold fits. rewrite (map_ext _ _ EC). apply (H gt c); auto.
Qed.
End Vars.

Lemma parse_lemma : forall k1 k2 r, (c0 + Z.of_nat n <= LONG_MAX)%Z ->
  parse_model k1 k2 (fresh_globals c0) t = Ok r ->
  exists names m g, r = Some (names, m, g) /\ parsed t names m.
Proof.
  intros k1 k2 r HC H. destruct (steps HC) as (vl & gr & g1 & ps & FV & _ & OG & AG & F & E).
  rewrite parse_finish, E in H.
  destruct (graph_to_cliques (k1 vl) (k2 vl) (cardp vl) (iface_of vl) gr) as [[jt e]| |] eqn:EG; cbn [bind] in H; try discriminate H.
  destruct (build vl FV gr OG AG ps F _ _ jt e EG) as (m' & E5 & Q). rewrite E5 in H. cbn [bind] in H.
  destruct (Q g1) as (m & g' & E6 & P). rewrite E6 in H. injection H as <-. eauto.
Qed.
Lemma parse_succeeds : forall k1 k2, (c0 + Z.of_nat n <= LONG_MAX)%Z -> cliques_fit k1 k2 t ->
  exists names m g, parse_model k1 k2 (fresh_globals c0) t = Ok (Some (names, m, g)) /\ parsed t names m.
Proof.
  intros k1 k2 HC CF. destruct (steps HC) as (vl & gr & g1 & ps & FV & EGR & OG & AG & F & E).
  destruct (cliques_built vl FV gr OG AG (k1 vl) (k2 vl)) as (jt & e & EG).
  { intros gt c. apply (CF vl (iface_of vl) gr gt c EGR). intros v Hv. rewrite <- flag_old_ok, <- flag_ok, iface_pv by auto.
    destruct (proj2 FV v Hv) as (_ & _ & _ & _ & _ & A & B). auto. }
  destruct (build vl FV gr OG AG ps F _ _ jt e EG) as (m' & E5 & Q). destruct (Q g1) as (m & g' & E6 & P).
  exists (map pv_named vl), m, g'. split; auto. rewrite parse_finish, E, EG. cbn [bind]. rewrite E5. cbn [bind]. exact E6.
Qed.
End Net.
