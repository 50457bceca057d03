(** * Proofs about yyparse and parse_model *)
From Coq Require Import Permutation Sorted String Field.
From Verif Require Import Base BaseProofs PotentialModel PotentialSpec PotentialProofs
  PotentialProofs2 PotentialProofs3 PotentialProofs4 VariableModel VariableProofs JoinTreeModel
  AssignSpec AssignProofs JoinTreeSpec JoinTreeProofs JoinTreeProofs2 JoinTreeProofs3
  JoinTreeProofs4 JoinTreeProofs5 JoinTreeProofs6 JoinTreeProofs7 NipModel NipSpec NipProofs
  NipProofs2 NipProofs3 NipProofs4 GatherProofs SliceModel SliceSpec SliceProofs4 LearnModel LearnSpec LearnProofs LearnProofs2
  LearnProofs3 GraphModel GraphSpec GraphTheory GraphProofs ReorderProofs GraphProofs7 GraphProofs8 HeapProofs ParseModel
  ParseSpec ParseProofs ParseProofs2 ParseProofs3 ParseProofs4 ParseProofs5.
Import ListNotations.
Open Scope nat_scope.
Local Open Scope res_scope.
Local Notation len := List.length.

Add Field Qcfield_parse6 : Qcft.

Section Net.
Variable t : net.
Hypothesis NO : net_ok t.
Local Notation card := (card_in t).
Local Notation n := (size t).

(** ** Declarations and children *)
Lemma map_number_symbols : map (number t) (symbols t) = seq 0 n.
Proof.
  apply (list_ext_nth _ 0). { now rewrite map_length, seq_length, symbols_length. }
  intros i Hi. rewrite map_length in Hi. rewrite (nth_map _ _ _ _ _ EmptyString) by auto.
  rewrite seq_nth by (now rewrite <- symbols_length). unfold number. rewrite position_nth; auto. apply (no_symbols t NO).
Qed.
Lemma children_perm : Permutation (map (child_of t) (n_potentials t)) (seq 0 n).
Proof.
  rewrite <- map_number_symbols. unfold child_of. rewrite <- (map_map pd_child (number t)).
  apply Permutation_map. apply (no_decls t NO).
Qed.
Lemma children_nodup : NoDup (map (child_of t) (n_potentials t)).
Proof. eapply Permutation_NoDup; [symmetry; apply children_perm|apply seq_NoDup]. Qed.
Lemma decl_of_child : forall d, In d (n_potentials t) -> decl_of t (child_of t d) = d.
Proof.
  intros d Hd. unfold decl_of. assert (ND := children_nodup). revert Hd ND.
  induction (n_potentials t) as [|x l IH]; intros Hd ND; [destruct Hd|]. cbn [find]. inversion ND; subst.
  destruct (Nat.eqb_spec (child_of t x) (child_of t d)) as [E|N].
  - destruct Hd as [->|Hd]; auto. exfalso. apply H1. rewrite E. now apply in_map.
  - destruct Hd as [->|Hd]; [congruence|]. now apply IH.
Qed.
Lemma decl_of_ok : forall v, v < n -> In (decl_of t v) (n_potentials t) /\ child_of t (decl_of t v) = v.
Proof.
  intros v Hv. assert (I : In v (map (child_of t) (n_potentials t))).
  { eapply Permutation_in; [symmetry; apply children_perm|]. apply in_seq. lia. }
  apply in_map_iff in I. destruct I as (d & E & Hd). rewrite <- E, decl_of_child by auto. auto.
Qed.
Lemma parent_iff : forall u v, parent t u v <-> v < n /\ In u (parents_of t (decl_of t v)).
Proof.
  intros u v. split.
  - intros (d & Hd & <- & H). rewrite decl_of_child by auto. split; auto.
    assert (I := in_map (child_of t) _ _ Hd). eapply Permutation_in in I; [|apply children_perm]. apply in_seq in I. lia.
  - intros (Hv & H). destruct (decl_of_ok v Hv) as (A & B). exists (decl_of t v). auto.
Qed.

(** ** Variables after each step *)
Variable c0 : Z.
Definition vl0 := mkvars c0 (n_nodes t).
Lemma vl0_nth : forall v, v < n -> nth_error vl0 v = Some (mkvar (c0 + Z.of_nat v) (node t v)).
Proof.
  intros v Hv. unfold vl0. rewrite mkvars_nth. unfold node. unfold size in Hv. rewrite (nth_error_nth' _ (mkNode EmptyString None (Some [EmptyString]) None) Hv). reflexivity.
Qed.
Lemma vl0_ok : vars_ok t vl0.
Proof.
  split; [apply mkvars_length|]. intros v x E.
  assert (Hv : v < n). { unfold size. rewrite <- (mkvars_length (n_nodes t) c0). apply nth_error_Some. unfold vl0 in E. congruence. }
  rewrite vl0_nth in E by auto. injection E as <-. cbn. split; [|reflexivity]. f_equal.
  assert (EN : nd_symbol (node t v) = nth v (symbols t) EmptyString).
  { unfold node, symbols. symmetry. apply nth_map. exact Hv. }
  rewrite EN. apply variable_text_short. destruct (no_symbols t NO) as (_ & F). rewrite Forall_forall in F. apply F. apply nth_In. now rewrite symbols_length.
Qed.
Lemma vl0_pv : forall v, v < n -> pv vl0 v = mkvar (c0 + Z.of_nat v) (node t v).
Proof. intros v Hv. unfold pv. apply nth_error_nth. now apply vl0_nth. Qed.

(** The final variables. *)
Definition final_ok (vl : list pvar) : Prop :=
  vars_ok t vl /\ forall v, v < n ->
    pv_named (pv vl v) = pv_named (pv vl0 v) /\
    pv_parents (pv vl v) = parents_of t (decl_of t v) /\
    pv_next (pv vl v) = next_in t v /\
    (forall u, pv_previous (pv vl v) = Some u <-> next_in t u = Some v) /\
    (Nat.testbit (pv_iface (pv vl v)) 0 = true <-> incoming t v) /\
    (Nat.testbit (pv_iface (pv vl v)) 1 = true <-> outgoing t v) /\
    (Nat.testbit (pv_iface (pv vl v)) 2 = true <-> old_outgoing t v).

Lemma next_in_rel : forall u s, In (u, s) (mkrels 0 (n_nodes t)) <-> u < n /\ nd_next (node t u) = Some s.
Proof.
  intros u s. rewrite mkrels_in. rewrite Nat.sub_0_r. split.
  - intros (d & _ & E & H). assert (Hu : u < n) by (apply nth_error_Some; congruence). split; auto.
    unfold node. now rewrite (nth_error_nth _ _ _ E).
  - intros (Hu & H). exists (node t u). split; [lia|]. split; auto. apply nth_error_nth'. exact Hu.
Qed.
Lemma next_in_lt : forall u v, next_in t u = Some v -> u < n /\ v < n /\ card u = card v /\ exists s, In (u, s) (mkrels 0 (n_nodes t)) /\ number t s = v.
Proof.
  intros u v H. unfold next_in in H. destruct (Nat.lt_ge_cases u n) as [Hu|Hu].
  2:{ unfold node in H. rewrite nth_overflow in H by (exact Hu). discriminate. }
  destruct (nd_next (node t u)) as [s|] eqn:E; [|discriminate]. injection H as <-.
  destruct (no_next t NO (node t u) s) as (A & B); auto. { unfold node. apply nth_In. exact Hu. }
  split; auto. split. { apply (search_ok t vl0 vl0_ok s A). } split; [symmetry; exact B|].
  exists s. split; auto. apply next_in_rel. auto.
Qed.
Lemma next_in_inj : forall u u' v, next_in t u = Some v -> next_in t u' = Some v -> u = u'.
Proof.
  intros u u' v H H'. destruct (next_in_lt u v H) as (Hu & _ & _ & s & A & B).
  destruct (next_in_lt u' v H') as (Hu' & _ & _ & s' & A' & B').
  apply next_in_rel in A, A'. destruct A as (_ & A), A' as (_ & A').
  assert (I : In (node t u) (n_nodes t)) by (apply nth_In; exact Hu).
  assert (I' : In (node t u') (n_nodes t)) by (apply nth_In; exact Hu').
  assert (s = s') as <-.
  { apply (number_inj t); [apply (no_next t NO _ _ I A)|apply (no_next t NO _ _ I' A')|congruence]. }
  assert (E := no_next_once t NO _ _ s I I' A A').
  assert (ND := proj1 (no_symbols t NO)). apply (NoDup_nth (symbols t) EmptyString) ; auto; rewrite ?symbols_length; auto.
  unfold symbols. rewrite !(nth_map _ _ _ _ _ (mkNode EmptyString None (Some [EmptyString]) None)) by auto.
  fold (node t u) (node t u'). now rewrite E.
Qed.

Lemma interface_ok : forall vl1, vars_ok t vl1 ->
  (forall v, v < n -> pv vl1 v = set_parents (pv vl0 v) (parents_of t (decl_of t v))) ->
  exists vl, interface_to_vars (ptr (mkrels 0 (n_nodes t))) vl1 = Ok (Some vl) /\ final_ok vl.
Proof.
  intros vl1 V1 H1.
  assert (RL : forall u s, In (u, s) (mkrels 0 (n_nodes t)) -> u < n /\ In s (symbols t) /\ card u = card (number t s)).
  { intros u s H. apply next_in_rel in H. destruct H as (Hu & H). assert (I : In (node t u) (n_nodes t)) by (apply nth_In; exact Hu).
    destruct (no_next t NO _ _ I H) as (A & B). auto. }
  assert (N2 : NoDup (map (fun r => number t (snd r)) (mkrels 0 (n_nodes t)))).
  { assert (G : forall l, NoDup (map fst l) -> incl l (mkrels 0 (n_nodes t)) -> NoDup (map (fun r => number t (snd r)) l)).
    { induction l as [|[u s] l IH]; intros N I; cbn; [constructor|]. inversion N; subst. constructor.
      - intros W. apply in_map_iff in W. destruct W as ([u' s'] & E & W). cbn in E.
        assert (A : next_in t u = Some (number t s)).
        { unfold next_in. destruct (proj1 (next_in_rel u s)) as (_ & ->); [apply I; left; auto|reflexivity]. }
        assert (A' : next_in t u' = Some (number t s)).
        { unfold next_in. destruct (proj1 (next_in_rel u' s')) as (_ & ->); [apply I; right; auto|]. cbn. now rewrite E. }
        assert (u = u') as <- by (eapply next_in_inj; eauto). apply H2. apply (in_map fst) in W. exact W.
      - apply IH; auto. intros x Hx. apply I. right. auto. }
    apply G; [apply mkrels_fst|apply incl_refl]. }
  destruct (relations_ok t (mkrels 0 (n_nodes t)) vl1 V1 (mkrels_fst _ _) N2 RL) as (vl2 & E2 & V2 & Q).
  assert (NX : forall v, pv_next (pv vl2 v) = next_in t v).
  { intros v. destruct (Q v) as (_ & _ & _ & A & B & _). destruct (nd_next (node t v)) as [s|] eqn:E.
    - destruct (Nat.lt_ge_cases v n) as [Hv|Hv].
      + rewrite (A s) by (apply next_in_rel; auto). unfold next_in. now rewrite E.
      + unfold node in E. rewrite nth_overflow in E by exact Hv. discriminate.
    - rewrite B.
      + unfold next_in. rewrite E. cbn [option_map]. destruct (Nat.lt_ge_cases v n) as [Hv|Hv].
        * rewrite H1 by auto. rewrite vl0_pv by auto. reflexivity.
        * unfold pv. rewrite nth_overflow; [reflexivity|]. rewrite (proj1 V1). exact Hv.
      + intros W. apply in_map_iff in W. destruct W as ([u s] & Eu & W). cbn in Eu. subst u. apply next_in_rel in W. destruct W. congruence. }
  assert (PX : forall v u, v < n -> pv_previous (pv vl2 v) = Some u <-> next_in t u = Some v).
  { intros v u Hv. destruct (Q v) as (_ & _ & _ & _ & _ & A & B). split.
    - intros H. destruct (in_dec Nat.eq_dec v (map (fun r => number t (snd r)) (mkrels 0 (n_nodes t)))) as [I|I].
      + apply in_map_iff in I. destruct I as ([u' s] & E & I). cbn in E. rewrite (A u' s I E) in H. injection H as <-.
        apply next_in_rel in I. unfold next_in. destruct I as (_ & ->). cbn. now rewrite E.
      + rewrite B in H by auto. rewrite H1 in H by auto. rewrite vl0_pv in H by auto. discriminate.
    - intros H. destruct (next_in_lt u v H) as (_ & _ & _ & s & I & E). apply (A u s); auto. }
  assert (PP : forall v, v < n -> pv_parents (pv vl2 v) = parents_of t (decl_of t v)).
  { intros v Hv. destruct (Q v) as (_ & -> & _). rewrite H1 by auto. reflexivity. }
  assert (LV : len vl2 = n) by apply V2.
  destruct (classify_all vl2) as (vl3 & E3 & S3 & B3).
  { intros v u Hv H. rewrite LV in *. rewrite PP in H by auto. destruct (decl_of_ok v Hv) as (A & _).
    apply (family_lt t vl0 vl0_ok (decl_of t v)); [apply (no_decl t NO); auto|]. right. auto. }
  { intros v w Hv H. rewrite LV in *. rewrite NX in H. apply next_in_lt in H. tauto. }
  assert (BZ : forall v k, v < n -> ~ bit vl2 v k).
  { intros v k Hv H. unfold bit in H. destruct (Q v) as (_ & _ & EI & _). rewrite EI in H. rewrite H1, vl0_pv in H by auto. cbn [set_parents mkvar pv_iface] in H. rewrite Nat.bits_0 in H. discriminate H. }
  assert (BIT : forall vl, same_static vl2 vl ->
     (forall v k, v < n -> bit vl v k <-> exists j, j < n /\ marks vl2 j v k) -> final_ok vl).
  { intros vl S B. split.
    - split; [rewrite (proj1 S); exact LV|]. intros v x E.
      assert (Hv : v < len vl) by (apply nth_error_Some; congruence).
      assert (x = pv vl v) as -> by (unfold pv; symmetry; now apply nth_error_nth).
      destruct (proj2 S v) as (-> & _). apply (proj2 V2). unfold pv. apply nth_error_nth'. rewrite <- (proj1 S). exact Hv.
    - intros v Hv. destruct (proj2 S v) as (-> & -> & -> & ->). destruct (Q v) as (EN & _).
      split; [rewrite EN, H1 by auto; reflexivity|]. split; [now apply PP|]. split; [apply NX|]. split; [intros u; now apply PX|].
      assert (PJ : forall j u, j < n -> In u (pv_parents (pv vl2 j)) <-> parent t u j).
      { intros j u Hj. rewrite PP by auto. rewrite parent_iff. tauto. }
      assert (PL : forall u w, parent t u w -> w < n) by (intros u w W; apply parent_iff in W; tauto).
      split; [|split].
      + fold (bit vl v 0). rewrite B by auto. unfold marks, marks1, marks2, old_parent. unfold incoming. split.
        * intros (j & Hj & [(u & w & I & EN2 & [[_ K]|[[_ K]|[-> _]]])|((u & I & EN2) & I2 & EN3 & _)]); try discriminate.
          -- left. exists u. rewrite <- PJ by auto. split; auto. rewrite <- NX. congruence.
          -- right. rewrite <- NX. split; auto. exists j, u. rewrite <- !PJ by auto. rewrite <- NX. auto.
        * intros [(u & I & EN2)|(EN2 & w & u & I & I2 & EN3)].
          -- exists v. split; auto. left. rewrite <- NX in EN2. destruct (pv_next (pv vl2 u)) as [w|] eqn:EW; [|congruence].
             exists u, w. rewrite PJ by auto. auto 10.
          -- assert (Hw := PL _ _ I). exists w. split; auto. right. rewrite <- NX in *. split; [|split].
             ++ exists u. rewrite PJ by auto. auto.
             ++ rewrite PJ by auto. auto.
             ++ auto.
      + fold (bit vl v 1). rewrite B by auto. unfold marks, marks1, marks2, old_parent. unfold outgoing, old_outgoing. split.
        * intros (j & Hj & [(u & w & I & EN2 & [[_ K]|[[-> _]|[_ K]]])|(_ & _ & _ & K)]); try discriminate.
          exists u. rewrite <- NX. split; auto. split; [congruence|]. exists j. apply PJ; auto.
        * intros (u & EN2 & _ & w & I). assert (Hw := PL _ _ I). exists w. split; auto. left. exists u, v. rewrite PJ by auto. rewrite NX. auto 10.
      + fold (bit vl v 2). rewrite B by auto. unfold marks, marks1, marks2, old_parent. unfold old_outgoing. split.
        * intros (j & Hj & [(u & w & I & EN2 & [[-> _]|[[_ K]|[_ K]]])|(_ & _ & _ & K)]); try discriminate.
          rewrite <- NX. split; [congruence|]. exists j. apply PJ; auto.
        * intros (EN2 & w & I). assert (Hw := PL _ _ I). exists w. split; auto. left. rewrite <- NX in EN2.
          destruct (pv_next (pv vl2 v)) as [x|] eqn:EW; [|congruence]. exists v, x. rewrite PJ by auto. auto 10. }
  destruct (mkrels 0 (n_nodes t)) as [|r rs] eqn:ER.
  - cbn in E2. injection E2 as <-. exists vl1. split; [reflexivity|]. apply BIT; [apply same_static_refl|].
    intros v k Hv. split; [intros W; exfalso; eapply BZ; eauto|].
    assert (NN : forall u, next_in t u = None).
    { intros u. destruct (next_in t u) as [w|] eqn:E; auto. destruct (next_in_lt u w E) as (_ & _ & _ & s & I & _). rewrite ER in I. destruct I. }
    intros (j & _ & [(u & w & _ & EN2 & _)|((u & _ & EN2) & _)]); rewrite NX, NN in EN2; congruence.
  - unfold interface_to_vars, ptr. rewrite E2. cbn [bind]. rewrite E3. cbn [bind]. exists vl3. split; auto.
    apply BIT; auto. intros v k Hv. rewrite B3, LV. split; [|auto]. intros [W|W]; auto. exfalso. eapply BZ; eauto.
Qed.
End Net.
