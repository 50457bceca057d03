(** * Proofs: the written file is a proper file *)
From Coq Require Import String Ascii Permutation QArith.QArith QArith.Qcanon Field.
From Verif Require Import Base BaseProofs StringSpec PotentialModel PotentialSpec PotentialProofs VariableModel JoinTreeModel
  AssignSpec AssignProofs JoinTreeSpec JoinTreeProofs NipModel NipSpec NipProofs SliceModel SliceSpec LearnSpec
  ParseModel ParseSpec ParseProofs3
  NetLexModel NetGrammarModel NetSpec WriteModel WriteSpec WriteProofs WriteProofs4 WriteProofs6.
From Verif Require LearnProofs5 FactorProofs.
Import ListNotations.
Open Scope nat_scope.
Local Notation len := List.length.

Add Field Qcfield_write7 : Qcft.

(** ** Rounding *)
Lemma Z_le_Qc : forall a b : Z, (Q2Qc (inject_Z a) <= Q2Qc (inject_Z b))%Qc -> (a <= b)%Z.
Proof. intros a b H. unfold Qcle in H. cbn [this Q2Qc] in H. rewrite !Qred_correct in H. unfold Qle, inject_Z in H. cbn in H. lia. Qed.
Lemma million_pos : (0 < million)%Qc. Proof. reflexivity. Qed.
Lemma million_nz : million <> 0%Qc. Proof. discriminate. Qed.
Lemma two_units : forall x y k, (y * million = Q2Qc (inject_Z k))%Qc -> ((x - y) * (million + million) <= 1)%Qc -> (0 <= x)%Qc -> (0 <= k)%Z.
Proof.
  intros x y k E H Hx. assert (A : (Q2Qc (inject_Z (- (2 * k))) <= Q2Qc (inject_Z 1))%Qc).
  { replace (Q2Qc (inject_Z 1)) with 1%Qc by (apply Qc_is_canon; reflexivity).
    eapply Qcle_trans; [|exact H]. replace (- (2 * k))%Z with ((-1) * k + (-1) * k)%Z by ring. rewrite Q2Qc_add, !Q2Qc_mul, <- E.
    replace (Q2Qc (inject_Z (-1))) with (- (1))%Qc by (apply Qc_is_canon; reflexivity).
    apply Qcle_minus_iff.
    replace ((x - y) * (million + million) + - (- (1) * (y * million) + - (1) * (y * million)))%Qc with (x * (million + million))%Qc by ring.
    replace 0%Qc with (0 * (million + million))%Qc by ring. apply Qcmult_le_compat_r; auto. discriminate. }
  apply Z_le_Qc in A. lia.
Qed.
Lemma rounded_nonneg : forall x y, (0 <= x)%Qc -> rounded x y -> (0 <= y)%Qc.
Proof.
  intros x y Hx ((k & E) & _ & H). assert (K := two_units x y k E H Hx). apply (Qcmult_lt_0_le_reg_r _ _ million million_pos).
  rewrite E. replace (0 * million)%Qc with (Q2Qc (inject_Z 0)) by (apply Qc_is_canon; reflexivity). now apply Qc_le_Z.
Qed.
Lemma rounded_six : forall x y, six_decimals x -> rounded x y -> y = x.
Proof.
  intros x y (j & Ej) ((k & E) & H1 & H2).
  assert (A : forall a b p q, (p * million = Q2Qc (inject_Z a))%Qc -> (q * million = Q2Qc (inject_Z b))%Qc ->
    ((p - q) * (million + million) <= 1)%Qc -> (a <= b)%Z).
  { intros a b p q Ea Eb H. replace ((p - q) * (million + million))%Qc with (p * million + p * million - (q * million + q * million))%Qc in H by ring.
    rewrite Ea, Eb in H. replace 1%Qc with (Q2Qc (inject_Z 1)) in H by (apply Qc_is_canon; reflexivity).
    assert (K : (Q2Qc (inject_Z (2 * a)) <= Q2Qc (inject_Z (1 + 2 * b)))%Qc).
    { replace (1 + 2 * b)%Z with (1 + (b + b))%Z by ring. replace (2 * a)%Z with (a + a)%Z by ring. rewrite !Q2Qc_add.
      apply Qcle_minus_iff in H. apply Qcle_minus_iff.
      match type of H with (0 <= ?x)%Qc => match goal with |- (0 <= ?z)%Qc => replace z with x by ring end end. exact H. }
    apply Z_le_Qc in K. lia. }
  assert (K : k = j). { assert (B1 := A k j y x E Ej H1). assert (B2 := A j k x y Ej E H2). lia. }
  subst k. rewrite <- Ej in E. apply (f_equal (fun z => z / million)%Qc) in E.
  replace (y * million / million)%Qc with y in E by (field; exact million_nz).
  replace (x * million / million)%Qc with x in E by (field; exact million_nz). exact E.
Qed.
Lemma six_zero : six_decimals 0. Proof. exists 0%Z. apply Qc_is_canon. reflexivity. Qed.

Lemma small_sum : forall l, Forall (fun x => (x * (million + million) <= 1)%Qc) l ->
  (qsum l * (million + million) <= Q2Qc (inject_Z (Z.of_nat (len l))))%Qc.
Proof.
  induction l as [|x l IH]; intros H; [discriminate|]. inversion H as [|? ? H1 H2]; subst. cbn [qsum List.length].
  replace (Z.of_nat (S (len l))) with (1 + Z.of_nat (len l))%Z by lia. rewrite Q2Qc_add.
  replace ((x + qsum l) * (million + million))%Qc with (x * (million + million) + qsum l * (million + million))%Qc by ring.
  apply Qcplus_le_compat; auto.
Qed.

(** ** The file *)
Lemma filter_perm_split : forall A (f : A -> bool) l, Permutation (filter (fun x => negb (f x)) l ++ filter f l) l.
Proof.
  induction l as [|x l IH]; [constructor|]. cbn [filter]. destruct (f x); cbn [negb app].
  - apply Permutation_sym, Permutation_cons_app, Permutation_sym. exact IH.
  - now constructor.
Qed.
Lemma nth_seq_map : forall A (l : list A) d, map (fun i => nth i l d) (seq 0 (len l)) = l.
Proof.
  intros A l d. apply (list_ext_nth _ d); [now rewrite map_length, seq_length|].
  intros i Hi. rewrite map_length, seq_length in Hi. rewrite (nth_map _ _ _ _ _ 0) by (rewrite seq_length; auto). now rewrite seq_nth by auto.
Qed.

Section Described.
Variable card : nat -> nat.
Variable m : model.
Variable names : list named_variable.
Variable pages : list page.
Variable size : Z * Z.
Variable t : net.
Hypothesis HW : writable card m names pages size.
Hypothesis HL : learnable card m.
Hypothesis HD : describes card m names pages t.
Local Notation n := (len (m_vars m)).
Let HM : model_ok card m := so_model _ _ (le_slices _ _ HL).
Let C0 : forall v, 0 < card v := shape_card card _ (mo_shape _ _ HM).

Lemma d_names : len names = n.
Proof. apply (wb_names _ _ _ _ _ HW). Qed.
Lemma d_size : ParseSpec.size t = n.
Proof. rewrite <- (symbols_length t), (ds_symbols _ _ _ _ _ HD), map_length. apply d_names. Qed.
Lemma d_node : forall v, v < n -> exists nv p, nth_error names v = Some nv /\ nth_error pages v = Some p /\
  nd_label (node t v) = pg_name p /\ pg_name p <> None /\ nd_states (node t v) = Some (states_of nv) /\ len (states_of nv) = card v /\ next_in t v = pg_next p.
Proof.
  intros v Hv. destruct (nth_error names v) as [nv|] eqn:E1.
  2:{ apply nth_error_None in E1. rewrite d_names in E1. lia. }
  destruct (wb_pages _ _ _ _ _ HW) as (LP & FP). destruct (nth_error pages v) as [p|] eqn:E2.
  2:{ apply nth_error_None in E2. lia. }
  destruct (ds_node _ _ _ _ _ HD v nv p E1 E2) as (A & B & C). exists nv, p. split; auto. split; auto. split; auto.
  split. { destruct (FP p (nth_error_In _ _ E2)) as ((s & -> & _) & _). discriminate. }
  split; auto. split; auto. destruct (wb_names _ _ _ _ _ HW) as (_ & K). destruct (K v nv E1) as (_ & _ & l & EL & LL).
  unfold states_of. now rewrite EL.
Qed.
Lemma d_card : forall v, v < n -> card_in t v = card v.
Proof. intros v Hv. destruct (d_node v Hv) as (nv & p & _ & _ & _ & _ & E & L & _). unfold card_in, states. now rewrite E. Qed.
Lemma d_nodup : NoDup (symbols t).
Proof. rewrite (ds_symbols _ _ _ _ _ HD). apply (wb_symbols _ _ _ _ _ HW). Qed.
Lemma d_number : forall s, In s (symbols t) -> ParseSpec.number t s < n /\ nth (ParseSpec.number t s) (symbols t) EmptyString = s.
Proof.
  intros s Hs. unfold ParseSpec.number. destruct (ParseProofs3.position_in s _ Hs) as (v & -> & L & E). rewrite symbols_length, d_size in L. auto.
Qed.
Lemma d_perm : Permutation (map (child_of t) (n_potentials t)) (seq 0 n).
Proof.
  rewrite (ds_order _ _ _ _ _ HD). destruct (wb_kinds _ _ _ _ _ HW) as (-> & ->). apply filter_perm_split.
Qed.
Lemma d_child : forall d, In d (n_potentials t) -> child_of t d < n.
Proof. intros d Hd. apply (in_map (child_of t)) in Hd. apply (Permutation_in _ d_perm) in Hd. apply in_seq in Hd. lia. Qed.
Lemma d_decls : Permutation (map pd_child (n_potentials t)) (symbols t).
Proof.
  replace (map pd_child (n_potentials t)) with (map (fun v => nth v (symbols t) EmptyString) (map (child_of t) (n_potentials t))).
  - rewrite d_perm. rewrite <- d_size, <- (symbols_length t), nth_seq_map. reflexivity.
  - rewrite map_map. apply map_ext_in. intros d Hd. apply d_number. apply (ds_parents _ _ _ _ _ HD d Hd). left. auto.
Qed.
Lemma d_family : forall d, In d (n_potentials t) -> family_of t d = family m (child_of t d).
Proof. intros d Hd. unfold family_of, family. f_equal. apply (ds_parents _ _ _ _ _ HD d Hd). Qed.
Lemma d_cards : forall d, In d (n_potentials t) -> map (card_in t) (family_of t d) = map card (family_of t d).
Proof.
  intros d Hd. apply map_ext_in. intros u Hu. apply d_card. rewrite d_family in Hu by auto. apply (LearnProofs5.family_lt card m HL (child_of t d)); auto.
  now apply d_child.
Qed.
Lemma d_table : forall d, In d (n_potentials t) -> table card (family_of t d) (table_of t d) /\ (Z.of_nat (cells_of t d) <= INT_MAX)%Z.
Proof.
  intros d Hd. assert (Hc := d_child d Hd). assert (NF := le_family _ _ HL _ Hc).
  assert (CZ : (Z.of_nat (cells_of t d) <= INT_MAX)%Z).
  { unfold cells_of. rewrite d_cards, d_family by auto. destruct (mo_var _ _ HM _ Hc) as (_ & _ & (k & Hk & HI) & _).
    assert (TC := shape_clq card _ _ (mo_shape _ _ HM) Hk). destruct TC as (NC & (_ & _ & MX) & DC). rewrite DC in MX.
    assert (LE := LearnProofs5.prod_incl card (family m (child_of t d)) _ C0 NF NC HI). lia. }
  split; auto. rewrite d_family by auto. split; auto. unfold table_of. rewrite d_family by auto.
  assert (EC : map (card_in t) (family m (child_of t d)) = map card (family m (child_of t d))) by (rewrite <- d_family by auto; now apply d_cards).
  assert (EL : cells_of t d = prod (map card (family m (child_of t d)))) by (unfold cells_of; now rewrite d_cards, d_family by auto).
  split; [|cbn [dims]; auto]. split; [|split]; cbn [dims data].
  - rewrite EC. apply Forall_forall. intros x Hx. apply in_map_iff in Hx. destruct Hx as (y & <- & _). auto.
  - rewrite EC, <- EL. destruct (ds_table _ _ _ _ _ HD d Hd) as ((l & -> & L) & _). rewrite firstn_length. lia.
  - rewrite EC, <- EL. exact CZ.
Qed.

Lemma family_sum_nonneg : forall v a, v < n -> valid card a -> (0 <= family_sum card m v a)%Qc.
Proof.
  intros v a Hv Ha. unfold family_sum. cbv zeta. apply sumv_nonneg; auto. intros b Hb.
  assert (HCl := proj1 (proj2 (mo_shape _ _ HM))). destruct (FactorProofs.home_ok card m HL v Hv) as (K & _).
  destruct (HCl _ K) as (_ & TO & _). eapply den_nonneg; eauto. now apply (mo_orig _ _ HM).
Qed.
Lemma distribution_nonneg : forall v a, v < n -> valid card a -> (0 <= distribution card m v a)%Qc.
Proof.
  intros v a Hv Ha. unfold distribution. destruct (has_parents m v) eqn:EP.
  - apply Qc_div_nonneg; [now apply family_sum_nonneg|]. apply sumv_nonneg; auto. intros; now apply family_sum_nonneg.
  - assert (IN : In v (m_indep m)). { apply (le_roots _ _ HL); auto. unfold has_parents in EP. destruct (v_parents (var m v)); [auto|discriminate]. }
    destruct (proj2 (mo_indep _ _ HM) v IN) as (_ & l & E & (LL & F) & _). rewrite E. unfold at_state. rewrite Forall_forall in F. apply F, nth_In.
    rewrite LL. apply Ha.
Qed.
Lemma d_nonneg : forall d, In d (n_potentials t) -> Forall (fun x => (0 <= x)%Qc) (data (table_of t d)).
Proof.
  intros d Hd. apply Forall_forall. intros x Hx. destruct (d_table d Hd) as (T & _).
  destruct (den_in_data card (family_of t d) (table_of t d) x) as (a & Va & <-); auto.
  eapply rounded_nonneg; [|apply (ds_table _ _ _ _ _ HD d Hd); auto]. apply distribution_nonneg; auto. now apply d_child.
Qed.
Lemma d_data : forall d l, In d (n_potentials t) -> pd_data d = Some l -> data (table_of t d) = l /\ len l = cells_of t d.
Proof.
  intros d l Hd E. destruct (ds_table _ _ _ _ _ HD d Hd) as ((l' & E' & L) & _). assert (l' = l) by congruence. subst l'.
  split; auto. unfold table_of. cbn [data]. rewrite E. apply firstn_all2. lia.
Qed.

Hypothesis HR : readable card m pages.

Lemma d_in : forall d, In d (n_nodes t) -> exists v, v < n /\ node t v = d.
Proof.
  intros d Hd. apply (In_nth _ _ (mkNode EmptyString None (Some [EmptyString]) None)) in Hd. destruct Hd as (v & L & E).
  exists v. split; auto. unfold ParseSpec.size in *. rewrite <- d_size. exact L.
Qed.
Lemma d_next : forall v s, v < n -> nd_next (node t v) = Some s -> exists p, nth_error pages v = Some p /\ pg_next p = Some (ParseSpec.number t s).
Proof.
  intros v s Hv E. destruct (d_node v Hv) as (nv & p & _ & E2 & _ & _ & _ & _ & N). exists p. split; auto.
  rewrite <- N. unfold next_in. now rewrite E.
Qed.
Lemma d_known : forall v s, v < n -> nd_next (node t v) = Some s -> In s (symbols t).
Proof.
  intros v s Hv E. apply (ds_known _ _ _ _ _ HD (node t v)); auto. unfold node. apply nth_In. fold (ParseSpec.size t). rewrite d_size. auto.
Qed.

Lemma written_net_ok : net_ok t.
Proof.
  assert (Hn : 0 < n) by (assert (K := rb_some _ _ _ HR); destruct (m_vars m); [congruence|cbn; lia]).
  constructor.
  - intros K. assert (S := d_size). unfold ParseSpec.size in S. rewrite K in S. cbn in S. lia.
  - split; [exact d_nodup|]. rewrite (ds_symbols _ _ _ _ _ HD). destruct (wb_symbols _ _ _ _ _ HW) as (_ & F).
    revert F. apply Forall_impl. intros s (A & _). exact A.
  - intros d Hd. destruct (d_in d Hd) as (v & Hv & <-). destruct (d_node v Hv) as (nv & p & _ & _ & _ & _ & E & L & _).
    unfold states. rewrite E. split; [discriminate|]. apply nonempty_len. rewrite L. auto.
  - intros l1 d1 l2 d2 l3 E _. assert (IN : In d2 (n_nodes t)) by (rewrite E; apply in_or_app; right; right; apply in_or_app; right; left; auto).
    destruct (d_in d2 IN) as (v & Hv & <-). destruct (d_node v Hv) as (nv & p & _ & _ & A & B & _). now rewrite A.
  - exact d_decls.
  - intros d Hd. destruct (ds_parents _ _ _ _ _ HD d Hd) as (I & P & N). destruct (d_table d Hd) as (T & CZ).
    split; auto. split.
    + assert (ND : NoDup (map (ParseSpec.number t) (pd_child d :: rev (given_symbols d)))) by (exact (proj1 T)).
      apply NoDup_map_inv in ND. inversion ND as [|? ? A B]; subst. constructor; [now rewrite in_rev|].
      rewrite <- (rev_involutive (given_symbols d)). now apply NoDup_rev.
    + split. { intros K. assert (Q : pd_parents d = None); [|congruence]. apply N. rewrite <- P. unfold parents_of, given_symbols. now rewrite K. }
      split; auto. intros l E. destruct (d_data d l Hd E) as (E2 & L). split; [lia|]. rewrite <- E2. now apply d_nonneg.
  - intros d s Hd E. destruct (d_in d Hd) as (v & Hv & <-). assert (IN := d_known v s Hv E). split; auto.
    destruct (d_next v s Hv E) as (p & E2 & NX). destruct (d_number s IN) as (Lt & _). rewrite d_card by auto.
    rewrite (rb_next _ _ _ HR v p _ E2 NX). symmetry. now apply d_card.
  - intros d1 d2 s H1 H2 E1 E2. destruct (d_in d1 H1) as (v & Hv & <-). destruct (d_in d2 H2) as (w & Hw & <-).
    destruct (d_next v s Hv E1) as (p & A1 & A2). destruct (d_next w s Hw E2) as (q & B1 & B2).
    now rewrite (rb_once _ _ _ HR v p w q _ A1 B1 A2 B2).
  - intros d Hd EP. destruct (ds_parents _ _ _ _ _ HD d Hd) as (_ & _ & N). apply N in EP. assert (Hc := d_child d Hd).
    set (v := child_of t d) in *. destruct (d_table d Hd) as (T & _).
    assert (IN : In v (m_indep m)) by now apply (le_roots _ _ HL).
    destruct (proj2 (mo_indep _ _ HM) v IN) as (_ & l & E & (LL & F) & _). assert (S1 := wb_priors _ _ _ _ _ HW v l IN E).
    assert (FM : family_of t d = [v]). { rewrite d_family by auto. fold v. unfold family. now rewrite EP. }
    assert (DL : forall i, i < card v -> rounded (nth i l 0%Qc) (nth i (data (table_of t d)) 0%Qc)).
    { intros i Hi. assert (Va : valid card (upd (fun _ => 0) v i)) by (apply upd_valid; auto; intros w; apply C0).
      assert (R := proj2 (ds_table _ _ _ _ _ HD d Hd) _ Va). fold v in R. unfold distribution in R.
      assert (HP : has_parents m v = false) by (unfold has_parents; now rewrite EP). rewrite HP, E in R.
      unfold at_state in R. rewrite upd_same in R. unfold den, cell in R. destruct T as (_ & _ & D). rewrite D, FM in R.
      cbn [map] in R. rewrite upd_same in R. replace (flat [card v] [i]) with i in R by (cbn; lia). exact R. }
    assert (LD : len (data (table_of t d)) = card v).
    { destruct T as (_ & (_ & W & _) & D). rewrite W, D, FM. cbn. lia. }
    assert (NN := d_nonneg d Hd). rewrite Forall_forall in NN.
    destruct (Exists_dec (fun x => (0 < x)%Qc) (data (table_of t d))) as [X|X].
    { intros x. destruct (Qclt_le_dec 0 x); [left; auto|right; now apply Qcle_not_lt]. }
    + apply Exists_exists in X. exact X.
    + exfalso. assert (Z : forall x, In x (data (table_of t d)) -> x = 0%Qc).
      { intros x Hx. apply Qcle_antisym; auto. destruct (Qclt_le_dec 0 x); auto. exfalso. apply X. apply Exists_exists. eauto. }
      assert (SM : Forall (fun x => (x * (million + million) <= 1)%Qc) l).
      { apply Forall_forall. intros x Hx. apply (In_nth _ _ 0%Qc) in Hx. destruct Hx as (i & Hi & <-). rewrite LL in Hi.
        destruct (DL i Hi) as (_ & _ & R). rewrite (Z (nth i (data (table_of t d)) 0%Qc)) in R by (apply nth_In; lia).
        replace (nth i l 0 - 0)%Qc with (nth i l 0)%Qc in R by ring. exact R. }
      apply small_sum in SM. rewrite S1, LL in SM. assert (RC := rb_cards _ _ _ HR v Hc).
      replace (1 * (million + million))%Qc with (Q2Qc (inject_Z 2000000)) in SM by (apply Qc_is_canon; reflexivity).
      apply Z_le_Qc in SM. lia.
  - rewrite d_size. apply (rb_size _ _ _ HR).
Qed.
End Described.
