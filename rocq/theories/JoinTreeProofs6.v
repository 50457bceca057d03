(** * Depth-first search, probability mass, retraction, clique look-up *)
From Coq Require Import Permutation Field Relations.
From Verif Require Import Base BaseProofs PotentialModel PotentialSpec PotentialProofs
  PotentialProofs2 PotentialProofs3 VariableModel VariableSpec VariableProofs JoinTreeModel
  AssignSpec AssignProofs JoinTreeSpec JoinTreeProofs JoinTreeProofs2 JoinTreeProofs3
  JoinTreeProofs4 JoinTreeProofs5.
Import ListNotations.
Open Scope nat_scope.
Local Open Scope res_scope.
Add Field Qcfield_jt6 : Qcft.

(** The order in which the search calls back. *)
Inductive event := EC (i : nat) | ES (s : nat).
Fixpoint events (t : rtree) : list event :=
  match t with
  | Node i ch => EC i :: flat_map (fun c => ES (fst c) :: events (snd c)) ch
  end.
Definition cevents (ch : list (nat * rtree)) : list event :=
  flat_map (fun c => ES (fst c) :: events (snd c)) ch.

Definition is_c (e : event) : list nat := match e with EC i => [i] | ES _ => [] end.
Definition is_s (e : event) : list nat := match e with EC _ => [] | ES s => [s] end.

Lemma events_c : forall t, flat_map is_c (events t) = nodes t.
Proof.
  induction t as [i ch IH] using rtree_ind2. simpl. f_equal.
  induction ch as [|(s & t) ch IHc]; auto. simpl. rewrite flat_map_app.
  rewrite (IH s t) by (simpl; auto). f_equal. apply IHc. intros s' t' H. apply (IH s' t'). simpl; auto.
Qed.
Lemma events_s : forall t, flat_map is_s (events t) = edges t.
Proof.
  induction t as [i ch IH] using rtree_ind2. simpl.
  induction ch as [|(s & t) ch IHc]; auto. simpl. rewrite flat_map_app. f_equal.
  rewrite (IH s t) by (simpl; auto). f_equal. apply IHc. intros s' t' H. apply (IH s' t'). simpl; auto.
Qed.

Section Dfs.
Variable card : nat -> nat.
Local Notation shape_ok := (shape_ok card).
Context {A : Type}.
Variables cf sf : nat -> jtree -> A -> res (jtree * A * code).
Variables cfun sfun : nat -> jtree * A -> jtree * A.
Variable jt0 : jtree.
Definition good (j : jtree) : Prop := shape_ok j /\ same_shape jt0 j.
Definition same_marks (j j' : jtree) : Prop := forall x, c_mark (clq j' x) = c_mark (clq j x).
Hypothesis Hcf : forall i j acc, good j -> i < length (cls j) ->
  cf i j acc = Ok (fst (cfun i (j, acc)), snd (cfun i (j, acc)), NO_ERROR) /\
  good (fst (cfun i (j, acc))) /\ same_marks j (fst (cfun i (j, acc))).
Hypothesis Hsf : forall s j acc, good j -> s < length (sps j) ->
  sf s j acc = Ok (fst (sfun s (j, acc)), snd (sfun s (j, acc)), NO_ERROR) /\
  good (fst (sfun s (j, acc))) /\ same_marks j (fst (sfun s (j, acc))).

Definition dstep (st : jtree * A) (e : event) : jtree * A :=
  match e with
  | EC i => cfun i (mk (fst st) i, snd st)
  | ES s => sfun s st
  end.

Lemma good_mk : forall j i, good j -> i < length (cls j) -> good (mk j i).
Proof.
  intros j i (H1 & H2) Hi. assert (MO := mk_marks_only j i Hi). split.
  - now apply (marks_only_ok card j).
  - eapply same_shape_trans; [exact H2|]. now apply marks_only_same.
Qed.

Lemma dfs_ok : forall t fuel j acc up, good j -> ort jt0 up t -> NoDup (nodes t) ->
  (forall x, In x (nodes t) -> x < length (cls jt0)) -> length (nodes t) <= fuel ->
  (forall x, In x (nodes t) -> c_mark (clq j x) = false) ->
  parent_marked j up (root t) ->
  (forall u p, up = Some u -> joins jt0 u (root t) p -> ~ In p (nodes t)) ->
  let st := fold_left dstep (events t) (j, acc) in
  join_tree_dfs fuel cf sf (root t) j acc = Ok (fst st, snd st, NO_ERROR) /\
  good (fst st) /\
  (forall x, c_mark (clq (fst st) x) = if in_dec Nat.eq_dec x (nodes t) then true else c_mark (clq j x)).
Proof.
  induction t as [i ch IH] using rtree_ind2.
  intros fuel j acc up HG HO ND HX HF HU HP HUP. cbn [root] in *.
  inversion HO as [up' i' ch' OM OJ OL OR]; subst.
  destruct fuel as [|f]; [simpl in HF; lia|].
  assert (Hi0 : i < length (cls jt0)) by (apply HX; simpl; auto).
  assert (Hi : i < length (cls j)). { destruct (shape_len _ _ (proj2 HG)). lia. }
  inversion ND as [|? ? Ni NDc]; subst. fold (cnodes ch) in Ni, NDc.
  cbn [join_tree_dfs]. rewrite mark_clique_ok by auto. cbn [bind].
  assert (GM : good (mk j i)) by (now apply good_mk).
  assert (LM : length (cls (mk j i)) = length (cls j)) by (unfold mk; cbn; apply set_nth_length).
  destruct (Hcf i (mk j i) acc GM) as (E1 & G1 & M1); [lia|].
  rewrite E1. cbn [bind is_err].
  set (st1 := cfun i (mk j i, acc)) in *.
  assert (Mk1 : forall x, c_mark (clq (fst st1) x) = if Nat.eqb x i then true else c_mark (clq j x)).
  { intros x. rewrite M1, mk_clq by auto. destruct (Nat.eqb x i); auto. }
  rewrite rd_clq.
  2:{ destruct (shape_len _ _ (proj2 G1)) as (-> & _). auto. }
  cbn [bind].
  assert (ES1 : c_sepsets (clq (fst st1) i) = c_sepsets (clq jt0 i)).
  { destruct G1 as (_ & (_ & _ & SC & _)). apply (SC i). }
  rewrite ES1. rewrite <- (surjective_pairing st1).
  match goal with |- context [each _ ?b _] => set (body := b) end.
  set (Inv := fun (d r : list (nat * rtree)) (st : jtree * A) =>
     st = fold_left dstep (cevents d) st1 /\ good (fst st) /\
     forall x, c_mark (clq (fst st) x) = if in_dec Nat.eq_dec x (i :: cnodes d) then true else c_mark (clq j x)).
  destruct (each_children _ body Inv up (c_sepsets (clq jt0 i)) ch [] ch st1) as (st2 & E2 & HI2); auto.
  { split; [reflexivity|]. split; [exact G1|]. intros x. rewrite Mk1. simpl.
    destruct (Nat.eqb_spec x i), (Nat.eq_dec i x); congruence. }
  { intros d r s0 (j1 & a1) E0 EU (_ & G & M). cbn [fst] in *.
    destruct (HP s0 EU) as (Hs0 & p & HJ & HM).
    assert (HJ0 : joins jt0 s0 i p).
    { destruct HG as (_ & SH). eapply same_shape_joins; [|exact HJ]. now apply same_shape_sym. }
    destruct (shape_len _ _ (proj2 G)) as (La & Lb).
    destruct (shape_len _ _ (proj2 HG)) as (La' & Lb').
    assert (HJ1 : joins j1 s0 i p) by (eapply same_shape_joins; [apply G|auto]).
    assert (Np := HUP s0 p EU HJ0). simpl in Np.
    assert (Mi : c_mark (clq j1 i) = true).
    { rewrite M. destruct (in_dec Nat.eq_dec i (i :: cnodes d)); auto. exfalso. apply n. simpl; auto. }
    assert (Mp : c_mark (clq j1 p) = true).
    { rewrite M. destruct (in_dec Nat.eq_dec p (i :: cnodes d)); auto. }
    destruct (mark_irrel card j1 s0 p) with (i := i) as (M2 & M3); auto; [lia|apply G|].
    unfold body. rewrite rd_sep by lia. cbn [bind]. rewrite M2. cbn [bind negb]. rewrite M3. reflexivity. }
  { intros d r s0 t0 (j1 & a1) E0 (ES & G & M). cbn [fst] in *.
    assert (Hin : In (s0, t0) ch) by (rewrite E0; apply in_or_app; simpl; auto).
    destruct (shape_len _ _ (proj2 G)) as (La & Lb).
    assert (Hs0 : s0 < length (sps jt0)) by (eapply OL; eauto).
    assert (HJ : joins j1 s0 i (root t0)) by (eapply same_shape_joins; [apply G|auto]).
    destruct (joins_incl card j1 s0 i (root t0)) as (_ & _ & Li & Lr & Nir); auto; try lia; [apply G|].
    rewrite E0 in NDc. destruct (cnodes_nodup _ _ _ _ NDc) as (NDt & Dt). rewrite <- E0 in NDc.
    assert (Nit : ~ In i (nodes t0)).
    { intros Q. apply Ni. eapply cnodes_in; eauto. }
    assert (Um : forall x, In x (nodes t0) -> c_mark (clq j1 x) = false).
    { intros x Hx. rewrite M. destruct (in_dec Nat.eq_dec x (i :: cnodes d)) as [Q|Q].
      - exfalso. destruct Q as [<-|Q]; auto. destruct (Dt x Hx); auto.
      - apply HU. simpl. right. eapply cnodes_in; eauto. }
    assert (Mi : c_mark (clq j1 i) = true).
    { rewrite M. destruct (in_dec Nat.eq_dec i (i :: cnodes d)); auto. exfalso. apply n. simpl; auto. }
    destruct (Hsf s0 j1 a1 G) as (E3 & G3 & M3); [lia|].
    set (st3 := sfun s0 (j1, a1)) in *.
    destruct (shape_len _ _ (proj2 G3)) as (La3 & Lb3).
    destruct (IH s0 t0 Hin f (fst st3) (snd st3) (Some s0)) as (E4 & G4 & M4); auto.
    { intros x Hx. apply HX. simpl. right. eapply cnodes_in; eauto. }
    { clear -HF Hin. simpl in HF. assert (length (nodes t0) <= length (cnodes ch)); [|unfold cnodes in *; lia].
      apply in_split in Hin. destruct Hin as (l1 & l2 & ->). rewrite cnodes_app. simpl.
      rewrite !app_length. lia. }
    { intros x Hx. rewrite M3. auto. }
    { intros u Eu. inversion Eu; subst. split; [lia|]. exists i. rewrite M3. split; auto.
      eapply same_shape_joins; [apply G3|]. apply joins_sym. auto. }
    { intros u p Eu Hp Hpn. inversion Eu; subst. assert (p = i); [|subst; auto].
      specialize (OJ u t0 Hin). destruct OJ as [(Q1 & Q2)|(Q1 & Q2)], Hp as [(Q3 & Q4)|(Q3 & Q4)]; congruence. }
    set (st4 := fold_left dstep (events t0) (fst st3, snd st3)) in *.
    exists st4. split.
    { unfold body. rewrite rd_sep by lia. cbn [bind].
      destruct HJ as [(Q1 & Q2)|(Q1 & Q2)]; rewrite Q1, Q2.
      - rewrite clique_marked_ok by auto. rewrite Mi. cbn [bind negb].
        rewrite clique_marked_ok by auto. rewrite (Um _ (root_in t0)). cbn [bind negb].
        rewrite E3. cbn [bind is_err]. rewrite E4. cbn [bind]. now destruct st4.
      - rewrite clique_marked_ok by auto. rewrite (Um _ (root_in t0)). cbn [bind negb].
        rewrite E3. cbn [bind is_err]. rewrite E4. cbn [bind]. now destruct st4. }
    split.
    { unfold cevents. rewrite flat_map_app, fold_left_app. fold (cevents d).
      rewrite <- ES. simpl. rewrite app_nil_r. unfold st4. f_equal. fold st3. now destruct st3. }
    split; [exact G4|].
    intros x. rewrite M4, M3, M. rewrite cnodes_app. simpl cnodes. unfold cnodes at 2. simpl.
    rewrite app_nil_r.
    destruct (in_dec Nat.eq_dec x (nodes t0)) as [Q|Q];
    destruct (Nat.eq_dec i x) as [Q1|Q1]; try reflexivity;
    destruct (in_dec Nat.eq_dec x (cnodes d)) as [Q2|Q2];
    destruct (in_dec Nat.eq_dec x (cnodes d ++ nodes t0)) as [Q3|Q3]; try reflexivity;
    exfalso; rewrite in_app_iff in Q3; tauto. }
  destruct HI2 as (Es & G2 & M2).
  rewrite E2. cbn [bind]. destruct st2 as (j2 & a2). cbn [fst snd] in *.
  cbn [events fold_left]. fold (cevents ch). change (dstep (j, acc) (EC i)) with st1.
  rewrite <- Es. cbn [fst snd]. split; [reflexivity|]. split; [exact G2|].
  exact M2.
Qed.
End Dfs.

(** Running the search from the first clique. *)
Lemma dfs_all_ok : forall card A cf sf (cfun sfun : nat -> jtree * A -> jtree * A) jt j acc,
  (forall i j acc, good card jt j -> i < length (cls j) ->
    cf i j acc = Ok (fst (cfun i (j, acc)), snd (cfun i (j, acc)), NO_ERROR) /\
    good card jt (fst (cfun i (j, acc))) /\ same_marks j (fst (cfun i (j, acc)))) ->
  (forall s j acc, good card jt j -> s < length (sps j) ->
    sf s j acc = Ok (fst (sfun s (j, acc)), snd (sfun s (j, acc)), NO_ERROR) /\
    good card jt (fst (sfun s (j, acc))) /\ same_marks j (fst (sfun s (j, acc)))) ->
  shape_ok card jt -> is_tree jt -> good card jt j ->
  (forall x, x < length (cls jt) -> c_mark (clq j x) = false) ->
  exists evs,
    Permutation (flat_map is_c evs) (seq 0 (length (cls jt))) /\
    Permutation (flat_map is_s evs) (seq 0 (length (sps jt))) /\
    let st := fold_left (dstep cfun sfun) evs (j, acc) in
    join_tree_dfs (length (cls jt)) cf sf 0 j acc = Ok (fst st, snd st, NO_ERROR) /\
    good card jt (fst st).
Proof.
  intros card A cf sf cfun sfun jt j acc Hcf Hsf HS HT HG HU.
  assert (H0 : 0 < length (cls jt)).
  { destruct HT as (ns & es & HT & P1 & _). apply Permutation_length in P1. rewrite seq_length in P1.
    destruct HT; simpl in P1; lia. }
  destruct (is_tree_ort card jt 0 HS HT H0) as (t & HO & Hr & ND & NE & PN & PE).
  assert (HX : forall x, In x (nodes t) -> x < length (cls jt)).
  { intros x Hx. apply (Permutation_in _ PN) in Hx. apply in_seq in Hx. lia. }
  exists (events t). split; [now rewrite events_c|]. split; [now rewrite events_s|].
  rewrite <- Hr.
  destruct (dfs_ok card cf sf cfun sfun jt Hcf Hsf t (length (cls jt)) j acc None) as (E & G & _); auto.
  - rewrite (Permutation_length PN), seq_length. lia.
  - intros u Hu; discriminate.
  - intros; discriminate.
Qed.

(** ** Mass *)
Lemma firstn_S_nth : forall A (l : list A) i d, i < length l ->
  firstn (S i) l = firstn i l ++ [nth i l d].
Proof.
  induction l as [|x l IH]; intros i d H; simpl in H; [lia|].
  destruct i as [|i]; auto. change (firstn (S (S i)) (x :: l)) with (x :: firstn (S i) l).
  rewrite (IH i d) by lia. reflexivity.
Qed.

Lemma data_mass_ok : forall p, data_mass p = Ok (qsum (data p)).
Proof.
  intros p. unfold data_mass, size_of_data.
  destruct (for_up_inv Qc (fun n m => m = qsum (firstn n (data p)))
    (fun i m => let* x := rd (data p) i in Ok (m + x)%Qc) 0 (length (data p)) 0%Qc) as (m & E & H); auto.
  - lia.
  - intros i m Hi ->. rewrite (rd_ok _ _ _ 0%Qc) by lia. cbn [bind]. eexists. split; [reflexivity|].
    rewrite (firstn_S_nth _ (data p) i 0%Qc) by lia. rewrite qsum_app. simpl. ring.
  - rewrite E, H. now rewrite firstn_all.
Qed.

Definition mass_c (i : nat) (st : jtree * Qc) : jtree * Qc :=
  (fst st, snd st + qsum (data (c_p (clq (fst st) i))))%Qc.
Definition mass_s (s : nat) (st : jtree * Qc) : jtree * Qc :=
  (fst st, snd st - qsum (data (s_new (sep (fst st) s))))%Qc.

Lemma marks_only_refl : forall jt, marks_only jt jt.
Proof.
  intros jt. split; auto. split; auto. intros i Hi. exists (c_mark (clq jt i)). now destruct (clq jt i).
Qed.
Lemma marks_only_trans : forall a b c, marks_only a b -> marks_only b c -> marks_only a c.
Proof.
  intros a b c (A1 & A2 & A3) (B1 & B2 & B3). split; [congruence|]. split; [congruence|].
  intros i Hi. destruct (A3 i Hi) as (x & E). destruct (B3 i) as (y & E'); [lia|].
  exists y. rewrite E', E. reflexivity.
Qed.

Lemma mass_run : forall evs jt j acc, marks_only jt j ->
  (forall i, In i (flat_map is_c evs) -> i < length (cls jt)) ->
  let st := fold_left (dstep mass_c mass_s) evs (j, acc) in
  marks_only jt (fst st) /\
  snd st = (acc + qsum (map (fun i => qsum (data (c_p (clq jt i)))) (flat_map is_c evs))
                - qsum (map (fun s => qsum (data (s_new (sep jt s)))) (flat_map is_s evs)))%Qc.
Proof.
  induction evs as [|e evs IH]; intros jt j acc HM HX.
  - simpl. split; auto. ring.
  - cbn [fold_left]. destruct e as [i|s].
    + assert (Hi : i < length (cls jt)) by (apply HX; simpl; auto).
      assert (HM2 : marks_only jt (mk j i)).
      { eapply marks_only_trans; [exact HM|]. apply mk_marks_only. destruct HM as (_ & -> & _). auto. }
      destruct (IH jt (mk j i) (acc + qsum (data (c_p (clq (mk j i) i))))%Qc HM2) as (H1 & H2).
      { intros x Hx. apply HX. simpl. auto. }
      split; [exact H1|]. etransitivity; [exact H2|]. simpl.
      destruct HM2 as (_ & _ & E). destruct (E i Hi) as (b & ->). cbn. ring.
    + destruct (IH jt j (acc - qsum (data (s_new (sep j s))))%Qc HM) as (H1 & H2).
      { intros x Hx. apply HX. simpl. auto. }
      split; [exact H1|]. etransitivity; [exact H2|]. simpl.
      destruct HM as (E & _). unfold sep. rewrite E. ring.
Qed.

Lemma probability_mass_raw : forall card jt, shape_ok card jt -> is_tree jt ->
  exists jt', probability_mass jt =
    Ok (jt', (qsum (map (fun i => total (c_p (clq jt i))) (seq 0 (length (cls jt)))) -
              qsum (map (fun s => total (s_new (sep jt s))) (seq 0 (length (sps jt)))))%Qc) /\
    marks_only jt jt'.
Proof.
  intros card jt HS HT. unfold probability_mass.
  destruct (unmark_all_ok jt) as (j0 & E0 & MO & M0). rewrite E0. cbn [bind].
  assert (L0 : length (cls j0) = length (cls jt)) by (destruct MO as (_ & -> & _); auto).
  rewrite L0.
  assert (G0 : good card jt j0).
  { split; [now apply (marks_only_ok card jt)|]. now apply marks_only_same. }
  destruct (dfs_all_ok card Qc clique_mass neg_sepset_mass mass_c mass_s jt j0 0%Qc)
    as (evs & P1 & P2 & E & G); auto.
  { intros i j acc Gj Hi. unfold clique_mass. rewrite rd_clq by auto. cbn [bind].
    rewrite data_mass_ok. cbn [bind]. split; [reflexivity|]. split; [exact Gj|]. intros x; reflexivity. }
  { intros i j acc Gj Hi. unfold neg_sepset_mass. rewrite rd_sep by auto. cbn [bind].
    rewrite data_mass_ok. cbn [bind]. split; [reflexivity|]. split; [exact Gj|]. intros x; reflexivity. }
  destruct (mass_run evs jt j0 0%Qc MO) as (H1 & H2).
  { intros i Hi. apply (Permutation_in _ P1) in Hi. apply in_seq in Hi. lia. }
  rewrite E. cbn [bind].
  eexists. split; [|exact H1]. do 2 f_equal. etransitivity; [exact H2|].
  rewrite (qsum_perm _ _ (Permutation_map _ P1)), (qsum_perm _ _ (Permutation_map _ P2)).
  assert (T1 : map (fun i => qsum (data (c_p (clq jt i)))) (seq 0 (length (cls jt))) =
               map (fun i => total (c_p (clq jt i))) (seq 0 (length (cls jt)))).
  { apply map_ext_in. intros i Hi. apply in_seq in Hi. symmetry. apply total_data. apply wf_data_length.
    destruct HS as (_ & H & _). destruct (H i) as ((_ & W & _) & _); [lia|auto]. }
  assert (T2 : map (fun i => qsum (data (s_new (sep jt i)))) (seq 0 (length (sps jt))) =
               map (fun i => total (s_new (sep jt i))) (seq 0 (length (sps jt)))).
  { apply map_ext_in. intros i Hi. apply in_seq in Hi. symmetry. apply total_data. apply wf_data_length.
    destruct HS as (_ & _ & H). destruct (H i) as (_ & (_ & W & _) & _); [lia|auto]. }
  rewrite T1, T2. ring.
Qed.

Lemma tree_count : forall jt ns es, tree_of jt ns es -> length ns = S (length es).
Proof. induction 1; simpl; auto. Qed.
Lemma is_tree_count : forall jt, is_tree jt -> length (cls jt) = S (length (sps jt)).
Proof.
  intros jt (ns & es & H & P1 & P2). apply tree_count in H.
  apply Permutation_length in P1, P2. rewrite seq_length in *. lia.
Qed.

Lemma map_const_in : forall A (f : A -> Qc) z l, (forall x, In x l -> f x = z) ->
  map f l = repeat z (length l).
Proof. intros A f z l H. induction l as [|x l IH]; auto. simpl. rewrite H, IH; simpl; auto. intros; apply H; simpl; auto. Qed.

(** The mass of a calibrated tree is the sum of the joint. *)
Lemma probability_mass_ok : forall card jt a, shape_ok card jt -> tables_nonneg jt -> is_tree jt ->
  running_intersection jt -> calibrated card jt -> valid card a ->
  exists jt', probability_mass jt = Ok (jt', sumv card (all_vars jt) (joint jt) a) /\ marks_only jt jt'.
Proof.
  intros card jt a HS HN HT HR HC Ha.
  destruct (probability_mass_raw card jt HS HT) as (jt' & E & MO). exists jt'. split; auto.
  rewrite E. do 2 f_equal. set (Z := sumv card (all_vars jt) (joint jt) a).
  assert (T1 : map (fun i => total (c_p (clq jt i))) (seq 0 (length (cls jt))) = repeat Z (length (cls jt))).
  { rewrite <- (seq_length (length (cls jt)) 0) at 2. apply map_const_in.
    intros i Hi. apply in_seq in Hi. apply clique_total_ok; auto. lia. }
  assert (T2 : map (fun s => total (s_new (sep jt s))) (seq 0 (length (sps jt))) = repeat Z (length (sps jt))).
  { rewrite <- (seq_length (length (sps jt)) 0) at 2. apply map_const_in.
    intros i Hi. apply in_seq in Hi. apply sepset_total_ok; auto. lia. }
  rewrite T1, T2. rewrite (is_tree_count jt HT). simpl. ring.
Qed.

(** ** Retraction of the whole tree *)
Definition retr_c (i : nat) (st : jtree * unit) : jtree * unit :=
  (mkJT (set_nth (cls (fst st)) i (set_p (clq (fst st) i) (c_orig (clq (fst st) i)))) (sps (fst st)), snd st).
Definition ones (p : potential) : potential := mkPot (dims p) (repeat 1%Qc (length (data p))).
Definition retr_s (s : nat) (st : jtree * unit) : jtree * unit :=
  (mkJT (cls (fst st))
     (set_nth (sps (fst st)) s (set_old_new (sep (fst st) s) (ones (s_old (sep (fst st) s)))
                                             (ones (s_new (sep (fst st) s))))), snd st).

Lemma ones_table : forall card vs p, table card vs p -> table card vs (ones p).
Proof.
  intros card vs p (A & (H1 & H2 & H3) & C). split; auto. split; auto. split; auto. split; auto.
  unfold ones. cbn. now rewrite repeat_length.
Qed.
Lemma ones_den : forall card vs p a, table card vs p -> valid card a -> den vs (ones p) a = 1%Qc.
Proof.
  intros card vs p a (A & W & C) Ha. unfold den, cell, ones. cbn.
  apply nth_repeat_lt. rewrite (wf_data_length _ W). apply flat_lt. rewrite C. now apply valid_ix_map.
Qed.
Lemma ones_nonneg : forall p, nonneg (ones p).
Proof.
  intros p. unfold nonneg, ones. cbn. apply Forall_forall. intros x Hx. apply repeat_spec in Hx. subst.
  discriminate.
Qed.

Section Retract.
Variable card : nat -> nat.
Variable jt : jtree.
Hypothesis HS : shape_ok card jt.

(** All cliques back to their original table, all sepsets one. *)
Record retracted (jt' : jtree) : Prop := {
  rt_shape : same_shape jt jt';
  rt_ok : shape_ok card jt';
  rt_p : forall i, i < length (cls jt) -> c_p (clq jt' i) = c_orig (clq jt i);
  rt_psi : forall s a, s < length (sps jt) -> valid card a -> psi jt' s a = 1%Qc;
  rt_sep_nonneg : forall s, s < length (sps jt) -> nonneg (s_new (sep jt' s))
}.

Lemma same_shape_retr_c : forall j i acc, i < length (cls j) -> same_shape j (fst (retr_c i (j, acc))).
Proof.
  intros j i acc Hi. unfold retr_c. cbn [fst snd].
  split; [cbn; apply set_nth_length|]. split; [reflexivity|]. split; [|intros; auto].
  intros k. rewrite clq_set by auto. destruct (Nat.eqb_spec k i) as [->|]; auto.
Qed.
Lemma same_shape_retr_s : forall j i acc, i < length (sps j) -> same_shape j (fst (retr_s i (j, acc))).
Proof.
  intros j i acc Hi. unfold retr_s. cbn [fst snd].
  split; [reflexivity|]. split; [cbn; apply set_nth_length|]. split; [intros; auto|].
  intros k. rewrite sep_set by auto. destruct (Nat.eqb_spec k i) as [->|]; auto.
Qed.

Lemma good_retr_c : forall j i acc, good card jt j -> i < length (cls j) ->
  good card jt (fst (retr_c i (j, acc))).
Proof.
  intros j i acc (G1 & G2) Hi. assert (SH := same_shape_retr_c j i acc Hi). split.
  - apply (shape_ok_change card j); auto.
    + intros k Hk. unfold retr_c. cbn [fst snd]. rewrite clq_set by auto.
      destruct G1 as (_ & G1 & _). destruct (Nat.eqb_spec k i) as [->|]; cbn; apply G1; auto.
    + intros s Hs. destruct G1 as (_ & _ & G1). apply (G1 s Hs).
    + intros s Hs. destruct G1 as (_ & _ & G1). apply (G1 s Hs).
  - eapply same_shape_trans; eauto.
Qed.
Lemma good_retr_s : forall j i acc, good card jt j -> i < length (sps j) ->
  good card jt (fst (retr_s i (j, acc))).
Proof.
  intros j i acc (G1 & G2) Hi. assert (SH := same_shape_retr_s j i acc Hi). split.
  - apply (shape_ok_change card j); auto.
    + intros k Hk. destruct G1 as (_ & G1 & _). apply G1; auto.
    + intros s Hs. unfold retr_s. cbn [fst snd]. rewrite sep_set by auto.
      destruct G1 as (_ & _ & G1). destruct (Nat.eqb_spec s i) as [->|]; cbn; [apply ones_table|]; apply G1; auto.
    + intros s Hs. unfold retr_s. cbn [fst snd]. rewrite sep_set by auto.
      destruct G1 as (_ & _ & G1). destruct (Nat.eqb_spec s i) as [->|]; cbn; [apply ones_table|]; apply G1; auto.
  - eapply same_shape_trans; eauto.
Qed.

Lemma good_len : forall j, good card jt j -> length (cls j) = length (cls jt) /\ length (sps j) = length (sps jt).
Proof. intros j (_ & H). now apply shape_len. Qed.

Lemma retract_run : forall evs j acc, good card jt j ->
  (forall i, In i (flat_map is_c evs) -> i < length (cls jt)) ->
  (forall i, In i (flat_map is_s evs) -> i < length (sps jt)) ->
  let st := fold_left (dstep retr_c retr_s) evs (j, acc) in
  good card jt (fst st) /\
  (forall i, In i (flat_map is_c evs) \/ c_p (clq j i) = c_orig (clq jt i) -> c_p (clq (fst st) i) = c_orig (clq jt i)) /\
  (forall s, In s (flat_map is_s evs) \/ (nonneg (s_new (sep j s)) /\ forall a, valid card a -> psi j s a = 1%Qc) ->
     nonneg (s_new (sep (fst st) s)) /\ forall a, valid card a -> psi (fst st) s a = 1%Qc).
Proof.
  induction evs as [|e evs IH]; intros j acc G HC HSs.
  - simpl. split; auto. split; intros x; tauto.
  - cbn [fold_left]. destruct (good_len j G) as (La & Lb). destruct e as [i|s].
    + assert (Hi : i < length (cls jt)) by (apply HC; simpl; auto).
      assert (Gm : good card jt (mk j i)) by (apply good_mk; auto; lia).
      destruct (good_len _ Gm) as (Lam & Lbm).
      assert (G' : good card jt (fst (retr_c i (mk j i, acc)))) by (apply good_retr_c; auto; lia).
      destruct (IH (fst (retr_c i (mk j i, acc))) (snd (retr_c i (mk j i, acc))) G') as (H1 & H2 & H3).
      { intros k Hk. apply HC. simpl. auto. }
      { intros k Hk. apply HSs. simpl. auto. }
      cbn [dstep fst snd]. rewrite <- (surjective_pairing (retr_c i (mk j i, acc))) in H1, H2, H3.
      split; [exact H1|]. split.
      * intros k [Hk|Hk].
        -- simpl in Hk. destruct Hk as [->|Hk]; [|apply H2; auto]. apply H2. right.
           unfold retr_c. cbn [fst snd]. rewrite clq_set by lia. rewrite Nat.eqb_refl. cbn.
           destruct Gm as (_ & (_ & _ & SC & _)). apply SC.
        -- apply H2. right. unfold retr_c. cbn [fst snd]. rewrite clq_set by lia.
           destruct (Nat.eqb_spec k i) as [->|N]; cbn.
           ++ destruct Gm as (_ & (_ & _ & SC & _)). apply SC.
           ++ change (c_p (clq (mk j i) k) = c_orig (clq jt k)). rewrite mk_clq by lia. destruct (Nat.eqb_spec k i); [contradiction|auto].
      * intros k Hk. apply H3. destruct Hk as [Hk|Hk]; auto.
    + assert (Hs : s < length (sps jt)) by (apply HSs; simpl; auto).
      assert (G' : good card jt (fst (retr_s s (j, acc)))) by (apply good_retr_s; auto; lia).
      destruct (IH (fst (retr_s s (j, acc))) (snd (retr_s s (j, acc))) G') as (H1 & H2 & H3).
      { intros k Hk. apply HC. simpl. auto. }
      { intros k Hk. apply HSs. simpl. auto. }
      cbn [dstep fst snd]. rewrite <- (surjective_pairing (retr_s s (j, acc))) in H1, H2, H3.
      split; [exact H1|]. split.
      * intros k Hk. apply H2. destruct Hk as [Hk|Hk]; auto.
      * assert (Now : nonneg (s_new (sep (fst (retr_s s (j, acc))) s)) /\
                      (forall a, valid card a -> psi (fst (retr_s s (j, acc))) s a = 1%Qc)).
        { unfold retr_s, psi. cbn [fst snd]. rewrite sep_set by lia. rewrite Nat.eqb_refl. cbn.
          split; [apply ones_nonneg|]. intros a Ha. apply (ones_den card); auto.
          destruct G as ((_ & _ & G) & _). apply G. lia. }
        intros k [Hk|Hk]; apply H3.
        -- simpl in Hk. destruct Hk as [->|Hk]; auto.
        -- right. destruct (Nat.eq_dec k s) as [->|N]; auto. unfold retr_s, psi. cbn [fst snd].
           rewrite sep_set by lia. destruct (Nat.eqb_spec k s); [contradiction|]. exact Hk.
Qed.

Lemma retract_tree_ok : forall j0, is_tree jt -> marks_only jt j0 ->
  (forall i, i < length (cls jt) -> c_mark (clq j0 i) = false) ->
  exists jt', join_tree_dfs (length (cls jt)) retract_clique retract_sepset 0 j0 tt = Ok (jt', tt, NO_ERROR) /\
    retracted jt'.
Proof.
  intros j0 HT MO M0.
  assert (G0 : good card jt j0).
  { split; [now apply (marks_only_ok card jt)|]. now apply marks_only_same. }
  destruct (dfs_all_ok card unit retract_clique retract_sepset retr_c retr_s jt j0 tt)
    as (evs & P1 & P2 & E & G); auto.
  { intros i j [] Gj Hi. assert (Gj' := Gj). destruct Gj' as ((_ & Gs & _) & _).
    destruct (Gs i Hi) as ((N1 & W1 & D1) & (N2 & W2 & D2) & _).
    unfold retract_clique. rewrite rd_clq by auto. cbn [bind].
    rewrite retract_ok by (auto; congruence). cbn [bind]. rewrite put_clique_ok by auto. cbn [bind].
    split; [reflexivity|]. split; [now apply good_retr_c|]. intros x. unfold retr_c. cbn [fst snd].
    rewrite clq_set by auto. destruct (Nat.eqb_spec x i) as [->|]; auto. }
  { intros i j [] Gj Hi. unfold retract_sepset. rewrite rd_sep by auto. cbn [bind].
    rewrite !uniform_ok. cbn [bind]. rewrite put_sepset_ok by auto. cbn [bind].
    split; [reflexivity|]. split; [now apply good_retr_s|]. intros x. reflexivity. }
  destruct (retract_run evs j0 tt G0) as (H1 & H2 & H3).
  { intros i Hi. apply (Permutation_in _ P1) in Hi. apply in_seq in Hi. lia. }
  { intros i Hi. apply (Permutation_in _ P2) in Hi. apply in_seq in Hi. lia. }
  set (st := fold_left (dstep retr_c retr_s) evs (j0, tt)) in *.
  exists (fst st). rewrite E. split; [now destruct (snd st)|].
  assert (Q : forall s, s < length (sps jt) -> In s (flat_map is_s evs)).
  { intros s Hs. apply (Permutation_in _ (Permutation_sym P2)). apply in_seq. lia. }
  split.
  - apply H1.
  - apply H1.
  - intros i Hi. apply H2. left. apply (Permutation_in _ (Permutation_sym P1)). apply in_seq. lia.
  - intros s a Hs. apply H3. auto.
  - intros s Hs. apply H3. auto.
Qed.
End Retract.

(** ** Looking up cliques *)
Lemma var_index_loop_ok : forall fuel vars dim v k, dim = length vars -> k < dim -> dim - k < fuel ->
  (forall j, j < k -> nth j vars 0 <> v) ->
  exists r, var_index_loop fuel vars dim v k = Ok r /\
    match r with
    | Some i => i < dim /\ nth i vars 0 = v
    | None => ~ In v vars
    end.
Proof.
  induction fuel as [|f IH]; intros vars dim v k HD Hk HF HB; [lia|].
  cbn [var_index_loop]. rewrite (rd_ok _ _ _ 0) by lia. cbn [bind]. unfold equal_variables.
  destruct (Nat.eqb_spec v (nth k vars 0)) as [E|N].
  - exists (Some k). split; [reflexivity|]. split; [exact Hk|congruence].
  - destruct (Nat.eqb_spec (S k) dim) as [E|N'].
    + eexists. split; [reflexivity|]. cbn. intros Hin. apply (In_nth _ _ 0) in Hin.
      destruct Hin as (j & Hj & E'). destruct (Nat.eq_dec j k) as [->|]; [congruence|].
      apply (HB j); auto; lia.
    + apply IH; auto; try lia. intros j Hj. destruct (Nat.eq_dec j k) as [->|]; [congruence|].
      apply HB. lia.
Qed.

Lemma clique_var_index_ok : forall card c v, table card (c_vars c) (c_p c) -> c_vars c <> [] ->
  exists r, clique_var_index c v = Ok r /\
    match r with
    | Some i => i < length (c_vars c) /\ nth i (c_vars c) 0 = v
    | None => ~ In v (c_vars c)
    end.
Proof.
  intros card c v (N & W & D) NE. unfold clique_var_index.
  assert (L : dimensionality (c_p c) = length (c_vars c)).
  { unfold dimensionality. rewrite D. apply map_length. }
  rewrite L. apply var_index_loop_ok; auto; try lia.
  destruct (c_vars c); [congruence|simpl; lia].
Qed.

Lemma marginalise_clique_ok : forall card jt i v r, shape_ok card jt -> i < length (cls jt) ->
  In v (c_vars (clq jt i)) -> length r = card v ->
  exists r', marginalise_clique jt i v r = Ok (r', NO_ERROR) /\ length r' = card v /\
    forall a, valid card a ->
      nth (a v) r' 0%Qc = sumv card (minus (c_vars (clq jt i)) [v]) (phi jt i) a.
Proof.
  intros card jt i v r HS Hi Hv HL. assert (HS' := HS). destruct HS' as (_ & HS1 & _).
  destruct (HS1 i Hi) as (T & _ & NE & _).
  unfold marginalise_clique. rewrite rd_clq by auto. cbn [bind].
  destruct (clique_var_index_ok card (clq jt i) v T NE) as (ix & E & Hix). rewrite E. cbn [bind].
  destruct ix as [k|]; [|contradiction]. destruct Hix as (Hk & Ek).
  assert (T' := T). destruct T' as (N & W & D).
  assert (Ld : dimensionality (c_p (clq jt i)) = length (c_vars (clq jt i))).
  { unfold dimensionality. rewrite D. apply map_length. }
  assert (Ck : nth k (dims (c_p (clq jt i))) 0 = card v).
  { rewrite D. rewrite (nth_map _ _ _ _ _ 0 0) by auto. now rewrite Ek. }
  destruct (total_marginalise_ok (c_p (clq jt i)) r k) as (r' & Er & Lr & Hr & _); auto; try lia.
  exists r'. split; auto. split; [lia|]. intros a Ha. rewrite Hr by (rewrite Ck; apply Ha).
  etransitivity; [|apply (marg_sumv card (c_vars (clq jt i)) [v] (c_p (clq jt i)) [k] a); auto].
  - reflexivity.
  - constructor; [simpl; tauto|constructor].
  - intros x [<-|[]]. auto.
  - intros b. unfold sel. simpl. rewrite (nth_map _ _ _ _ _ 0 0) by auto. now rewrite Ek.
Qed.

Lemma find_clique_ok : forall card jt vars, shape_ok card jt ->
  exists r, find_clique jt vars (length vars) = Ok r /\
    match r with
    | Some i => i < length (cls jt) /\ incl vars (c_vars (clq jt i)) /\
                forall j, j < i -> ~ incl vars (c_vars (clq jt j))
    | None => forall j, j < length (cls jt) -> ~ incl vars (c_vars (clq jt j))
    end.
Proof.
  intros card jt vars HS. unfold find_clique.
  set (test := fun i => (let* c := rd (cls jt) i in
       let* ok :=
         for_up 0 (length vars)
           (fun j ok =>
              let* v := rd vars j in
              let* f := find_up 0 (dimensionality (c_p c))
                          (fun k => let* x := rd (c_vars c) k in
                                    Ok (equal_variables v x)) in
              match f with Some _ => Ok (S ok) | None => Ok ok end)
           0 in
       Ok (Nat.eqb ok (length vars)))).
  assert (In1 : forall i, i < length (cls jt) ->
    test i = Ok (forallb (fun v => memb v (c_vars (clq jt i))) vars)).
  { intros i Hi. unfold test. rewrite rd_clq by auto. cbn [bind].
    destruct HS as (_ & HS & _). destruct (HS i Hi) as ((_ & _ & D) & _).
    assert (Ld : dimensionality (c_p (clq jt i)) = length (c_vars (clq jt i))).
    { unfold dimensionality. rewrite D. apply map_length. }
    set (p := fun v => memb v (c_vars (clq jt i))).
    assert (Cnt : forall l, length (filter p l) <= length l /\ (length (filter p l) =? length l) = forallb p l).
    { induction l as [|x l (IH1 & IH2)]; simpl; auto. destruct (p x); simpl; split; auto; try lia.
      apply Nat.eqb_neq. lia. }
    match goal with |- context [for_up 0 ?n ?b 0] =>
      destruct (for_up_inv nat (fun k ok => ok = length (filter p (firstn k vars))) b 0 n 0)
        as (ok & E & H)
    end; auto.
    - lia.
    - intros j ok Hj ->. rewrite (rd_ok _ _ _ 0) by lia. cbn [bind].
      destruct (search_ok (nth j vars 0) (c_vars (clq jt i)) (dimensionality (c_p (clq jt i)))
         (fun k => let* x := rd (c_vars (clq jt i)) k in Ok (equal_variables (nth j vars 0) x)))
         as (f & Ef & Hf); [lia| |].
      { intros k Hk. rewrite (rd_ok _ _ _ 0) by lia. reflexivity. }
      rewrite Ef. cbn [bind]. rewrite Ld, firstn_all in Hf.
      rewrite (firstn_S_nth _ vars j 0) by lia. rewrite filter_app, app_length. simpl.
      destruct f as [k|].
      + destruct Hf as (_ & _ & Hm & _). unfold p at 3. rewrite Hm. eexists. split; [reflexivity|]. simpl. lia.
      + unfold p at 3. rewrite Hf. eexists. split; [reflexivity|]. simpl. lia.
    - rewrite E. cbn [bind]. subst ok. rewrite firstn_all. f_equal. apply Cnt. }
  assert (Sp : forall i, forallb (fun v => memb v (c_vars (clq jt i))) vars = true <->
                         incl vars (c_vars (clq jt i))).
  { intros i. rewrite forallb_forall. split; intros H v Hv.
    - apply memb_in. auto.
    - apply memb_in. auto. }
  destruct (find_up_ok (fun i => forallb (fun v => memb v (c_vars (clq jt i))) vars) 0 (length (cls jt)) test)
    as (r & E & H).
  { intros i Hi. apply In1. lia. }
  exists r. split; [exact E|]. destruct r as [i|].
  - destruct H as (H1 & H2 & H3). split; [lia|]. split; [now apply Sp|].
    intros j Hj K. apply Sp in K. rewrite H3 in K; [discriminate|lia].
  - intros j Hj K. apply Sp in K. rewrite H in K; [discriminate|lia].
Qed.
