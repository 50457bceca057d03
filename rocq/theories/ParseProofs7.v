(** * Proofs about yyparse and parse_model: the model *)
From Coq Require Import Permutation Sorted String Field.
From Verif Require Import Base BaseProofs PotentialModel PotentialSpec PotentialProofs
  PotentialProofs2 PotentialProofs3 PotentialProofs4 VariableModel VariableProofs JoinTreeModel
  AssignSpec AssignProofs JoinTreeSpec JoinTreeProofs JoinTreeProofs2 JoinTreeProofs3
  JoinTreeProofs4 JoinTreeProofs5 JoinTreeProofs6 JoinTreeProofs7 NipModel NipSpec NipProofs
  NipProofs2 NipProofs3 NipProofs4 GatherProofs SliceModel SliceSpec SliceProofs4 LearnModel LearnSpec LearnProofs LearnProofs2
  LearnProofs3 GraphModel GraphSpec GraphTheory GraphProofs ReorderProofs GraphProofs7 GraphProofs8 HeapProofs ParseModel
  ParseSpec ParseProofs ParseProofs2 ParseProofs3 ParseProofs4 ParseProofs5 ParseProofs6.
Import ListNotations.
Open Scope nat_scope.
Local Open Scope res_scope.
Local Notation len := List.length.

Add Field Qcfield_parse7 : Qcft.

Lemma good_tree_ext : forall c c' jt, (forall v, c v = c' v) -> good_tree c jt -> good_tree c' jt.
Proof.
  intros c c' jt E ((A & B & C) & H2 & H3 & H4 & H5).
  assert (EO : forall vs, ones c vs = ones c' vs). { intros vs. unfold ones. now rewrite (map_ext c c' E). }
  split; [split; [intros v; rewrite <- E; auto|]; split|].
  - intros i Hi. destruct (B i Hi) as (B1 & B2 & B3). split; [eapply table_ext; eauto|]. split; [eapply table_ext; eauto|]. auto.
  - intros s Hs. destruct (C s Hs) as (C1 & C2 & C3). split; [eapply table_ext; eauto|]. split; [eapply table_ext; eauto|]. auto.
  - split; auto. split; auto. split.
    + intros i Hi. rewrite <- EO. auto.
    + intros s Hs. rewrite <- EO. auto.
Qed.

Lemma one_den : forall card vs a, table card vs (ones card vs) -> valid card a -> den vs (ones card vs) a = 1%Qc.
Proof.
  intros card vs a T Ha. assert (D := JoinTreeProofs6.ones_den card vs _ a T Ha).
  unfold JoinTreeProofs6.ones, ones in *. cbn in D. now rewrite repeat_length in D.
Qed.
Lemma one_nonneg : forall card vs, nonneg (ones card vs).
Proof.
  intros card vs. unfold nonneg, ones. cbn. apply Forall_forall. intros x Hx. apply repeat_spec in Hx. subst x. discriminate.
Qed.

Section Net.
Variable t : net.
Hypothesis NO : net_ok t.
Variable c0 : Z.
Local Notation card := (card_in t).
Local Notation n := (size t).

Section Vars.
Variable vl : list pvar.
Hypothesis FV : final_ok t c0 vl.

Definition m_init (jt : jtree) : model := mkModel (map vrec_of vl) jt [] [] [] [] 0 0.
Lemma vl_len : len vl = n.
Proof. apply (proj1 (proj1 FV)). Qed.
Lemma m_init_var : forall jt v, v < n -> var (m_init jt) v = vrec_of (pv vl v).
Proof.
  intros jt v Hv. unfold var, m_init. cbn [m_vars].
  rewrite (nth_indep _ _ (vrec_of pv0)) by (rewrite map_length, vl_len; auto). apply map_nth.
Qed.
Lemma m_init_lik : forall jt v, v < n -> v_lik (var (m_init jt) v) = repeat 1%Qc (card v).
Proof.
  intros jt v Hv. rewrite m_init_var by auto. cbn [vrec_of v_lik]. destruct (proj2 FV v Hv) as (-> & _).
  rewrite vl0_pv by auto. reflexivity.
Qed.

Lemma m_init_ok : forall jt, good_tree card jt -> running_intersection jt ->
  (forall i v, i < len (cls jt) -> In v (c_vars (clq jt i)) -> v < n) ->
  (forall v, v < n -> exists i, i < len (cls jt) /\ In v (c_vars (clq jt i)) /\ forall u, parent t u v -> In u (c_vars (clq jt i))) ->
  model_ok card (m_init jt) /\
  (forall a, valid card a -> joint jt a = 1%Qc /\ original (m_init jt) a = 1%Qc) /\
  forall i a, i < len (cls jt) -> valid card a -> den (c_vars (clq jt i)) (c_orig (clq jt i)) a = 1%Qc.
Proof.
  intros jt (G1 & G2 & G3 & G4 & G5) RI SC FA. split; [|split].
  - assert (LM : len (m_vars (m_init jt)) = n) by (unfold m_init; cbn [m_vars]; rewrite map_length; apply vl_len).
    constructor; change (m_jt (m_init jt)) with jt; auto.
    + split.
      * intros i Hi. destruct (G4 i Hi) as (-> & _). apply one_nonneg.
      * intros s Hs. destruct (G5 s Hs) as (_ & -> & _). apply one_nonneg.
    + intros i Hi. destruct (G4 i Hi) as (_ & -> & _). apply one_nonneg.
    + intros i v Hi Hv. rewrite LM. eapply SC; eauto.
    + intros v Hv. rewrite LM in Hv.
      split; [|split; [|split; [|split]]].
      * rewrite m_init_var by auto. cbn. destruct (proj2 FV v Hv) as (-> & _). rewrite vl0_pv by auto. reflexivity.
      * rewrite m_init_lik by auto. split; [apply repeat_length|]. apply Forall_forall. intros x Hx. apply repeat_spec in Hx. subst x. discriminate.
      * destruct (FA v Hv) as (i & Hi & I & P). exists i. split; auto. intros u [<-|Hu]; auto. apply P. apply parent_iff; auto. split; auto.
        rewrite m_init_var in Hu by auto. cbn in Hu. destruct (proj2 FV v Hv) as (_ & E & _). now rewrite E in Hu.
      * rewrite m_init_var by auto. discriminate.
      * rewrite m_init_var by auto. discriminate.
    + split; [constructor|intros v []].
  - intros a Ha. destruct G1 as (_ & T1 & T2). split.
    + unfold joint. rewrite !NipProofs.qprod_ones; [field; discriminate|..].
      * intros s Hs. apply in_seq in Hs. unfold psi. destruct (G5 s) as (_ & E & _); [lia|]. rewrite E. apply one_den; auto. rewrite <- E. apply T2. lia.
      * intros i Hi. apply in_seq in Hi. unfold phi. destruct (G4 i) as (E & _); [lia|]. rewrite E. apply one_den; auto. rewrite <- E. apply T1. lia.
    + unfold original. apply NipProofs.qprod_ones. intros i Hi. apply in_seq in Hi. cbn [m_init m_jt] in *. destruct (G4 i) as (_ & E & _); [lia|]. rewrite E. apply one_den; auto. rewrite <- E. apply T1. lia.
  - intros i a Hi Ha. destruct G1 as (_ & T1 & T2). destruct (G4 i) as (_ & E & _); [lia|]. rewrite E. apply one_den; auto. rewrite <- E. apply T1. lia.
Qed.

(** ** The interfaces *)
Definition oldb (v : nat) : bool := if_old_outgoing (pv_iface (pv vl v)).
Definition outb (v : nat) : bool := if_outgoing (pv_iface (pv vl v)).
Definition nx (v : nat) : nat := match next_in t v with Some w => w | None => 0 end.
Definition olds := filter oldb (seq 0 n).

Lemma oldb_iff : forall v, v < n -> (oldb v = true <-> old_outgoing t v).
Proof. intros v Hv. destruct (proj2 FV v Hv) as (_ & _ & _ & _ & _ & _ & H). exact H. Qed.
Lemma outb_iff : forall v, v < n -> (outb v = true <-> outgoing t v).
Proof. intros v Hv. destruct (proj2 FV v Hv) as (_ & _ & _ & _ & _ & H & _). exact H. Qed.
Lemma olds_in : forall v, In v olds <-> v < n /\ old_outgoing t v.
Proof.
  intros v. unfold olds. rewrite filter_In, in_seq. split.
  - intros (H & B). split; [lia|]. apply oldb_iff; auto. lia.
  - intros (H & B). split; [lia|]. apply oldb_iff; auto.
Qed.
Lemma old_next : forall v, old_outgoing t v -> next_in t v = Some (nx v).
Proof. intros v (H & _). unfold nx. destruct (next_in t v); congruence. Qed.
Lemma olds_next : forall v, In v olds -> next_in t v = Some (nx v).
Proof. intros v H. apply olds_in in H. now apply old_next. Qed.
Lemma next_nodup : forall l, NoDup l -> (forall v, In v l -> next_in t v = Some (nx v)) -> NoDup (map nx l).
Proof.
  induction l as [|v l IH]; intros N H; cbn; [constructor|]. inversion N; subst. constructor.
  - intros W. apply in_map_iff in W. destruct W as (u & E & Hu).
    assert (u = v); [|now subst u]. apply (next_in_inj t NO c0 u v (nx v)).
    + rewrite <- E. apply H. right. auto.
    + apply H. left. auto.
  - apply IH; auto. intros u Hu. apply H. right. auto.
Qed.
Lemma news_nodup : NoDup (map nx olds).
Proof. apply next_nodup; [unfold olds; apply NoDup_filter, seq_NoDup|apply olds_next]. Qed.

Lemma filter_map : forall A B (f : B -> bool) (g : A -> B) l, filter f (map g l) = map g (filter (fun x => f (g x)) l).
Proof. induction l as [|x l IH]; cbn; [auto|]. destruct (f (g x)); cbn; now rewrite IH. Qed.
Lemma size_olds : len (filter (fun x => if_outgoing (pv_iface x)) vl) = len olds.
Proof.
  assert (E : vl = map (pv vl) (seq 0 n)).
  { rewrite <- vl_len. apply (list_ext_nth _ pv0); [now rewrite map_length, seq_length|]. intros i Hi.
    rewrite (nth_map _ _ _ _ _ 0) by (now rewrite seq_length). rewrite seq_nth by auto. reflexivity. }
  rewrite E at 1. rewrite filter_map, map_length. rewrite <- (map_length nx olds). apply Permutation_length.
  apply NoDup_Permutation; [apply NoDup_filter, seq_NoDup|apply news_nodup|]. intros v. rewrite filter_In, in_seq, in_map_iff. split.
  - intros (H & B). apply outb_iff in B; [|lia]. destruct B as (u & EN & O). exists u. split.
    + unfold nx. now rewrite EN.
    + apply olds_in. split; auto. now destruct (next_in_lt t NO c0 _ _ EN).
  - intros (u & <- & Hu). assert (EN := olds_next u Hu). apply olds_in in Hu.
    destruct (next_in_lt t NO c0 _ _ EN) as (_ & L & _). split; [lia|]. apply outb_iff; auto. exists u. tauto.
Qed.

Lemma filter_seq_S : forall f i, filter f (seq 0 (S i)) = filter f (seq 0 i) ++ (if f i then [i] else []).
Proof. intros f i. rewrite seq_S, filter_app. cbn. destruct (f i); auto. Qed.
Lemma filter_seq_le : forall f i k, i <= k -> exists l, filter f (seq 0 k) = filter f (seq 0 i) ++ l.
Proof. intros f i k H. replace k with (i + (k - i)) by lia. rewrite seq_app, filter_app. eauto. Qed.

Lemma fill_ok : fill_interfaces vl (len olds) = Ok (olds, map nx olds).
Proof.
  unfold fill_interfaces.
  match goal with |- context [for_up 0 (len vl) ?b0 ?s0] =>
    destruct (for_up_inv (list nat * list nat * nat)
      (fun i '(prev, out, m) => len prev = len olds /\ len out = len olds /\ m = len (filter oldb (seq 0 i)) /\
         forall k, k < m -> nth k prev 0 = nth k olds 0 /\ nth k out 0 = nx (nth k olds 0)) b0 0 (len vl) s0)
      as ([[prev out] m] & E & L1 & L2 & LM & Q) end.
  - lia.
  - rewrite !repeat_length. cbn. split; auto. split; auto. split; auto. intros k H. lia.
  - intros i [[prev out] m] Hi (L1 & L2 & LM & Q). rewrite vl_len in Hi. rewrite rd_pv by (rewrite vl_len; lia). cbn [bind].
    fold (oldb i). assert (ES := filter_seq_S oldb i). destruct (oldb i) eqn:B.
    + assert (O := proj1 (oldb_iff i ltac:(lia)) B). destruct (proj2 FV i ltac:(lia)) as (_ & _ & EN & _). rewrite EN.
      assert (EX := old_next i O). rewrite EX.
      destruct (filter_seq_le oldb (S i) n) as (l & EL); [lia|]. fold olds in EL. rewrite ES in EL.
      assert (LT : m < len olds). { rewrite LM, EL, !app_length. cbn. lia. }
      assert (NI : nth m olds 0 = i). { rewrite LM, EL, <- app_assoc. rewrite app_nth2 by lia. now rewrite Nat.sub_diag. }
      rewrite wr_ok by lia. cbn [bind]. rewrite wr_ok by lia. cbn [bind].
      destruct (next_in_lt t NO c0 _ _ EX) as (_ & LX & _).
      rewrite rd_pv by (rewrite vl_len; lia). cbn [bind]. fold (outb (nx i)).
      assert (OB : outb (nx i) = true). { apply outb_iff; auto. exists i. auto. }
      rewrite OB. eexists. split; [reflexivity|]. cbv beta iota. rewrite !set_nth_length. split; auto. split; auto. split.
      * rewrite ES, app_length. cbn. lia.
      * intros k Hk. rewrite !nth_set_nth by lia. destruct (Nat.eqb_spec k m) as [->|N].
        -- now rewrite NI.
        -- apply Q. lia.
    + eexists. split; [reflexivity|]. cbv beta iota. split; auto. split; auto. split; auto. rewrite ES, app_nil_r. auto.
  - rewrite E. cbn [bind]. rewrite vl_len in LM. fold olds in LM. rewrite LM, Nat.eqb_refl. f_equal. f_equal.
    + apply (list_ext_nth _ 0); auto. intros k Hk. apply Q. lia.
    + apply (list_ext_nth _ 0); [now rewrite map_length|]. intros k Hk. rewrite (nth_map _ _ _ _ _ 0) by lia. apply Q. lia.
Qed.
End Vars.
End Net.
