(** * Proofs about message passing *)
From Coq Require Import Permutation Field Relations.
From Verif Require Import Base BaseProofs PotentialModel PotentialSpec PotentialProofs
  PotentialProofs2 PotentialProofs3 VariableModel VariableProofs JoinTreeModel
  AssignSpec AssignProofs JoinTreeSpec.
Import ListNotations.
Open Scope nat_scope.
Local Open Scope res_scope.
Add Field Qcfield_jt : Qcft.

(** ** The tables of cliques and sepsets *)
Lemma rd_clq : forall jt i, i < length (cls jt) -> rd (cls jt) i = Ok (clq jt i).
Proof. intros. now apply rd_ok. Qed.
Lemma rd_sep : forall jt s, s < length (sps jt) -> rd (sps jt) s = Ok (sep jt s).
Proof. intros. now apply rd_ok. Qed.

Lemma put_clique_ok : forall jt i c, i < length (cls jt) ->
  put_clique jt i c = Ok (mkJT (set_nth (cls jt) i c) (sps jt)).
Proof. intros. unfold put_clique. now rewrite wr_ok. Qed.
Lemma put_sepset_ok : forall jt i c, i < length (sps jt) ->
  put_sepset jt i c = Ok (mkJT (cls jt) (set_nth (sps jt) i c)).
Proof. intros. unfold put_sepset. now rewrite wr_ok. Qed.

Lemma clq_set : forall cl sp i c j, i < length cl ->
  clq (mkJT (set_nth cl i c) sp) j = if Nat.eqb j i then c else clq (mkJT cl sp) j.
Proof. intros. unfold clq. cbn [cls]. now rewrite nth_set_nth. Qed.
Lemma sep_set : forall cl sp i c j, i < length sp ->
  sep (mkJT cl (set_nth sp i c)) j = if Nat.eqb j i then c else sep (mkJT cl sp) j.
Proof. intros. unfold sep. cbn [sps]. now rewrite nth_set_nth. Qed.

Lemma jt_eta : forall jt, mkJT (cls jt) (sps jt) = jt.
Proof. now intros []. Qed.

Lemma same_shape_refl : forall jt, same_shape jt jt.
Proof. intros jt. repeat split; auto. Qed.
Lemma same_shape_trans : forall a b c, same_shape a b -> same_shape b c -> same_shape a c.
Proof.
  intros a b c (A1 & A2 & A3 & A4) (B1 & B2 & B3 & B4).
  split; [congruence|]. split; [congruence|]. split.
  - intros i. destruct (A3 i) as (? & ? & ?), (B3 i) as (? & ? & ?). repeat split; congruence.
  - intros i. destruct (A4 i) as (? & ? & ?), (B4 i) as (? & ? & ?). repeat split; congruence.
Qed.
Lemma same_shape_sym : forall a b, same_shape a b -> same_shape b a.
Proof.
  intros a b (A1 & A2 & A3 & A4). split; [congruence|]. split; [congruence|]. split.
  - intros i. destruct (A3 i) as (? & ? & ?). repeat split; congruence.
  - intros i. destruct (A4 i) as (? & ? & ?). repeat split; congruence.
Qed.

Lemma same_shape_joins : forall jt jt' s i j, same_shape jt jt' -> joins jt s i j -> joins jt' s i j.
Proof.
  intros jt jt' s i j (_ & _ & _ & H) J. destruct (H s) as (_ & E1 & E2).
  unfold joins in *. now rewrite E1, E2.
Qed.

(** ** The mapping between the variables of a clique and of a sepset *)
Lemma arr_some : forall l, l <> [] -> arr l = Some l.
Proof. intros [|x l] H; [congruence|reflexivity]. Qed.

Lemma mapper_vars : forall C S, NoDup C -> NoDup S -> incl S C ->
  exists m, mapper (arr C) (arr S) (length C) (length S) = Ok m /\
    length (unarr m) = length S /\ length S <= length C /\
    Forall (fun k => k < length C) (unarr m) /\
    forall b : nat -> nat, sel (unarr m) (map b C) = map b S.
Proof.
  intros C S HC HS HI.
  assert (HL : length S <= length C) by (apply NoDup_incl_length; auto).
  destruct S as [|x S0] eqn:ES.
  - exists None. unfold mapper. simpl. repeat split; auto.
  - rewrite <- ES in *. assert (N : S <> []) by congruence.
    assert (NC : C <> []). { intros ->. destruct S; [congruence|]. simpl in HL. lia. }
    rewrite !arr_some by auto.
    destruct (mapper_ok C S) as (m & E & L & H); auto.
    { rewrite ES. simpl. lia. }
    exists (Some m). split; [exact E|]. cbn [unarr]. split; [auto|]. split; [auto|]. split.
    + apply Forall_forall. intros k Hk. apply (In_nth _ _ 0) in Hk. destruct Hk as (i & Hi & <-).
      apply H. lia.
    + intros b. apply (list_ext_nth _ 0).
      * now rewrite sel_length, map_length.
      * intros i Hi. rewrite sel_length in Hi. destruct (H i) as (H1 & H2 & _); [lia|].
        unfold sel. rewrite (nth_map _ _ _ _ _ 0 0) by auto.
        rewrite (nth_map _ _ _ _ _ 0 0) by auto.
        rewrite (nth_map _ _ _ _ _ 0 0) by lia. now rewrite H2.
Qed.

Section Messages.
Variable card : nat -> nat.
Local Notation valid := (valid card).
Local Notation sumv := (sumv card).
Local Notation shape_ok := (shape_ok card).

Lemma table_dim : forall vs p, table card vs p -> dimensionality p = length vs.
Proof. intros vs p (_ & _ & E). unfold dimensionality. now rewrite E, map_length. Qed.

(** Marginalising a table into another with a correct mapping. *)
Lemma marginalise_table : forall C S src dst m, (forall v, 0 < card v) ->
  table card C src -> table card S dst -> incl S C ->
  length S <= length C -> Forall (fun k => k < length C) m ->
  (forall b : nat -> nat, sel m (map b C) = map b S) ->
  exists dst', general_marginalise src dst m = Ok (dst', NO_ERROR) /\
    table card S dst' /\
    forall a, valid a -> den S dst' a = sumv (minus C S) (den C src) a.
Proof.
  intros C S src dst m HC TC TS HI HL HF Hm.
  assert (TC' := TC). destruct TC' as (NC & WC & DC). destruct TS as (NS & WS & DS).
  destruct (general_marginalise_ok src dst m) as (dst' & E & D & W & H); auto.
  - split.
    + rewrite DC, map_length. auto.
    + rewrite DC, DS. apply Hm.
  - unfold dimensionality. rewrite DC, DS, !map_length. auto.
  - exists dst'. split; [exact E|]. split; [repeat split; auto; try congruence; apply W|].
    intros a Ha. unfold den at 1. rewrite H.
    + now apply marg_sumv.
    + rewrite DS. now apply valid_ix_map.
Qed.

(** Absorbing a sepset into a clique with a correct mapping. *)
Lemma absorb_table : forall C S num den0 target m,
  table card C target -> table card S num -> table card S den0 ->
  length S <= length C -> length m = length S -> Forall (fun k => k < length C) m ->
  (forall b : nat -> nat, sel m (map b C) = map b S) ->
  exists t', update_potential (Some num) (Some den0) target m = Ok (t', NO_ERROR) /\
    table card C t' /\
    forall a, valid a -> den C t' a = (den C target a * den S num a / den S den0 a)%Qc.
Proof.
  intros C S num den0 target m (NC & WC & DC) (NS & WS & DS) (_ & WS2 & DS2) HL Hlm HF Hm.
  destruct (update_potential_ok (Some num) (Some den0) target m) as (t' & E & D & W & H); auto.
  - left. discriminate.
  - cbn. split; auto. split.
    + rewrite DC, map_length. auto.
    + rewrite DC, DS. apply Hm.
  - cbn. split; auto. split.
    + rewrite DC, map_length. auto.
    + rewrite DC, DS2. apply Hm.
  - unfold dimensionality. rewrite DC, map_length. lia.
  - exists t'. split; [exact E|]. split; [repeat split; auto; try congruence; apply W|].
    intros a Ha. unfold den. rewrite H.
    + cbn [option_map absorb1]. rewrite Hm. unfold absorb1.
      destruct (qzero (cell den0 (map a S))) eqn:Z; auto.
      apply qzero_true in Z. rewrite Z. symmetry. apply Qcdiv_zero_r.
    + rewrite DC. now apply valid_ix_map.
Qed.

(** Effect of one message from clique [c1] over sepset [s] to clique [c2]. *)
Record mp_rel (jt : jtree) (c1 s c2 : nat) (jt' : jtree) : Prop := {
  mp_shape : same_shape jt jt';
  mp_ok : shape_ok jt';
  mp_marks : forall i, c_mark (clq jt' i) = c_mark (clq jt i);
  mp_psi : forall a, valid a ->
    psi jt' s a = sumv (minus (c_vars (clq jt c1)) (s_vars (sep jt s))) (phi jt c1) a;
  mp_phi : forall a, valid a ->
    phi jt' c2 a = (phi jt c2 a * psi jt' s a / psi jt s a)%Qc;
  mp_clq : forall i, i <> c2 -> clq jt' i = clq jt i;
  mp_sep : forall k, k <> s -> sep jt' k = sep jt k
}.

Lemma shape_clq : forall jt i, shape_ok jt -> i < length (cls jt) ->
  table card (c_vars (clq jt i)) (c_p (clq jt i)).
Proof. intros jt i (_ & H & _) Hi. now apply H. Qed.
Lemma shape_card : forall jt, shape_ok jt -> forall v, 0 < card v.
Proof. intros jt (H & _). auto. Qed.
Lemma shape_new : forall jt s, shape_ok jt -> s < length (sps jt) ->
  table card (s_vars (sep jt s)) (s_new (sep jt s)).
Proof. intros jt s (_ & _ & H) Hs. now apply H. Qed.

Lemma joins_incl : forall jt s i j, shape_ok jt -> s < length (sps jt) -> joins jt s i j ->
  incl (s_vars (sep jt s)) (c_vars (clq jt i)) /\
  incl (s_vars (sep jt s)) (c_vars (clq jt j)) /\
  i < length (cls jt) /\ j < length (cls jt) /\ i <> j.
Proof.
  intros jt s i j (_ & _ & H) Hs J. destruct (H s Hs) as (_ & _ & F1 & F2 & F3 & F4 & F5).
  destruct J as [(<- & <-)|(<- & <-)]; repeat split; auto.
Qed.

(** Replacing tables by tables of the same variables keeps the structure. *)
Lemma shape_ok_change : forall jt jt', shape_ok jt -> same_shape jt jt' ->
  (forall i, i < length (cls jt) -> table card (c_vars (clq jt i)) (c_p (clq jt' i))) ->
  (forall s, s < length (sps jt) -> table card (s_vars (sep jt s)) (s_old (sep jt' s))) ->
  (forall s, s < length (sps jt) -> table card (s_vars (sep jt s)) (s_new (sep jt' s))) ->
  shape_ok jt'.
Proof.
  intros jt jt' (H0 & H1 & H2) (L1 & L2 & HC & HS) Tc To Tn.
  split; auto. split.
  - intros i Hi. rewrite L1 in Hi. destruct (HC i) as (E1 & E2 & E3). rewrite E1, E2, E3.
    destruct (H1 i Hi) as (A & B & C & D & E). split; auto. split; auto. split; auto. split; auto.
    intros s. rewrite E, L2. destruct (HS s) as (_ & F1 & F2). rewrite F1, F2. tauto.
  - intros s Hs. rewrite L2 in Hs. destruct (HS s) as (E1 & E2 & E3). rewrite E1, E2, E3, L1.
    destruct (H2 s Hs) as (A & B & C & D & E & F & G).
    split; [now apply To|]. split; [now apply Tn|]. repeat split; auto.
    + destruct (HC (s_first (sep jt s))) as (K & _). now rewrite K.
    + destruct (HC (s_second (sep jt s))) as (K & _). now rewrite K.
Qed.

Lemma message_pass_ok : forall jt c1 s c2, shape_ok jt -> s < length (sps jt) ->
  joins jt s c1 c2 ->
  exists jt', message_pass jt c1 s c2 = Ok (jt', NO_ERROR) /\ mp_rel jt c1 s c2 jt'.
Proof.
  intros jt c1 s c2 HS Hs HJ.
  destruct (joins_incl jt s c1 c2 HS Hs HJ) as (I1 & I2 & L1 & L2 & N12).
  assert (HS' := HS). destruct HS' as (HC & HCl & HSp).
  destruct (HSp s Hs) as (To & Tn & _).
  destruct (HCl c1 L1) as (T1 & _). destruct (HCl c2 L2) as (T2 & _).
  unfold message_pass. rewrite rd_sep by auto. cbn [bind].
  set (sp := sep jt s) in *.
  rewrite put_sepset_ok by auto. cbn [bind].
  set (jt1 := mkJT (cls jt) (set_nth (sps jt) s (set_old_new sp (s_new sp) (s_old sp)))).
  assert (E1 : rd (cls jt1) c1 = Ok (clq jt c1)) by (now apply (rd_clq jt)).
  rewrite E1. cbn [bind].
  rewrite (table_dim _ _ T1), (table_dim _ _ To).
  destruct (mapper_vars (c_vars (clq jt c1)) (s_vars sp)) as (m1 & M1 & ML1 & MLL1 & MF1 & MS1);
    [apply T1|apply To|auto|].
  rewrite M1. cbn [bind].
  destruct (marginalise_table (c_vars (clq jt c1)) (s_vars sp) (c_p (clq jt c1)) (s_old sp) (unarr m1))
    as (nw & G & TN & HN); auto.
  rewrite G. cbn [bind].
  rewrite put_sepset_ok by (unfold jt1; cbn; now rewrite set_nth_length). cbn [bind is_err].
  unfold jt1 at 1. cbn [cls sps].
  unfold jt1. cbn [cls sps]. rewrite set_nth_twice.
  rewrite (rd_clq jt) by auto. cbn [bind].
  rewrite (table_dim _ _ T2), (table_dim _ _ TN).
  destruct (mapper_vars (c_vars (clq jt c2)) (s_vars sp)) as (m2 & M2 & ML2 & MLL2 & MF2 & MS2);
    [apply T2|apply To|auto|].
  rewrite M2. cbn [bind].
  destruct (absorb_table (c_vars (clq jt c2)) (s_vars sp) nw (s_new sp) (c_p (clq jt c2)) (unarr m2))
    as (p' & U & TP & HP); auto.
  rewrite U. cbn [bind].
  rewrite put_clique_ok by auto. cbn [bind cls sps].
  eexists. split; [reflexivity|].
  set (jt' := mkJT _ _).
  assert (Qc2 : clq jt' c2 = set_p (clq jt c2) p').
  { unfold jt'. rewrite clq_set by auto. now rewrite Nat.eqb_refl. }
  assert (Qco : forall i, i <> c2 -> clq jt' i = clq jt i).
  { intros i Hi. unfold jt'. rewrite clq_set by auto. destruct (Nat.eqb_spec i c2); [congruence|].
    reflexivity. }
  assert (Qs : sep jt' s = set_old_new sp (s_new sp) nw).
  { unfold jt'. rewrite sep_set by auto. now rewrite Nat.eqb_refl. }
  assert (Qso : forall k, k <> s -> sep jt' k = sep jt k).
  { intros k Hk. unfold jt'. rewrite sep_set by auto. destruct (Nat.eqb_spec k s); [congruence|].
    reflexivity. }
  assert (SH : same_shape jt jt').
  { split; [unfold jt'; cbn; apply set_nth_length|].
    split; [unfold jt'; cbn; apply set_nth_length|]. split.
    - intros i. destruct (Nat.eq_dec i c2) as [->|N]; [rewrite Qc2|rewrite Qco by auto]; auto.
    - intros k. destruct (Nat.eq_dec k s) as [->|N]; [rewrite Qs|rewrite Qso by auto]; auto. }
  split; auto.
  - apply (shape_ok_change jt); auto.
    + intros i Hi. destruct (Nat.eq_dec i c2) as [->|N]; [rewrite Qc2|rewrite Qco by auto]; auto.
      now apply HCl.
    + intros k Hk. destruct (Nat.eq_dec k s) as [->|N]; [rewrite Qs|rewrite Qso by auto]; auto.
      now apply HSp.
    + intros k Hk. destruct (Nat.eq_dec k s) as [->|N]; [rewrite Qs|rewrite Qso by auto]; auto.
      now apply HSp.
  - intros i. destruct (Nat.eq_dec i c2) as [->|N]; [rewrite Qc2|rewrite Qco by auto]; auto.
  - intros a Ha. unfold psi at 1. rewrite Qs. cbn. now apply HN.
  - intros a Ha. unfold phi at 1, psi at 1. rewrite Qc2, Qs. cbn. now apply HP.
Qed.

(** ** Joint *)
Lemma qprod_change1 : forall (f g : nat -> Qc) n k, k < n ->
  (forall i, i <> k -> f i = g i) ->
  exists r, qprod (map f (seq 0 n)) = (f k * r)%Qc /\ qprod (map g (seq 0 n)) = (g k * r)%Qc.
Proof.
  intros f g n k Hk H.
  assert (P : Permutation (seq 0 n) ([k] ++ minus (seq 0 n) [k])).
  { apply split_perm.
    - apply seq_NoDup.
    - repeat constructor. auto.
    - intros x [<-|[]]. apply in_seq. lia. }
  exists (qprod (map f (minus (seq 0 n) [k]))). split.
  - rewrite (qprod_perm _ _ (Permutation_map f P)). reflexivity.
  - rewrite (qprod_perm _ _ (Permutation_map g P)). simpl. f_equal. apply qprod_map_ext.
    intros x Hx. symmetry. apply H. intros ->. apply minus_in in Hx. simpl in Hx. tauto.
Qed.

Lemma phi_dep : forall jt i, dep (c_vars (clq jt i)) (phi jt i).
Proof. intros. apply den_dep. Qed.
Lemma psi_dep : forall jt s, dep (s_vars (sep jt s)) (psi jt s).
Proof. intros. apply den_dep. Qed.

Lemma phi_nonneg : forall jt i a, shape_ok jt -> tables_nonneg jt -> i < length (cls jt) -> valid a ->
  (0 <= phi jt i a)%Qc.
Proof.
  intros jt i a HS (HN & _) Hi Ha. unfold phi. apply (den_nonneg card); auto. now apply shape_clq.
Qed.
Lemma psi_nonneg : forall jt s a, shape_ok jt -> tables_nonneg jt -> s < length (sps jt) -> valid a ->
  (0 <= psi jt s a)%Qc.
Proof.
  intros jt i a HS (_ & HN) Hi Ha. unfold psi. apply (den_nonneg card); auto. now apply shape_new.
Qed.

Lemma nonneg_intro : forall jt, shape_ok jt ->
  (forall i a, i < length (cls jt) -> valid a -> (0 <= phi jt i a)%Qc) ->
  (forall s a, s < length (sps jt) -> valid a -> (0 <= psi jt s a)%Qc) ->
  tables_nonneg jt.
Proof.
  intros jt HS H1 H2. split.
  - intros i Hi. apply (nonneg_den card (c_vars (clq jt i))).
    + now apply (shape_card jt).
    + now apply shape_clq.
    + intros a Ha. now apply (H1 i a).
  - intros s Hs. apply (nonneg_den card (s_vars (sep jt s))).
    + now apply (shape_card jt).
    + now apply shape_new.
    + intros a Ha. now apply (H2 s a).
Qed.

Lemma mp_nonneg : forall jt c1 s c2 jt', shape_ok jt -> s < length (sps jt) -> joins jt s c1 c2 ->
  tables_nonneg jt -> mp_rel jt c1 s c2 jt' -> tables_nonneg jt'.
Proof.
  intros jt c1 s c2 jt' HS Hs HJ HN M.
  destruct (joins_incl jt s c1 c2 HS Hs HJ) as (I1 & I2 & L1 & L2 & N12).
  assert (HS' := mp_ok _ _ _ _ _ M).
  destruct (mp_shape _ _ _ _ _ M) as (E1 & E2 & _).
  assert (P : forall a, valid a -> (0 <= psi jt' s a)%Qc).
  { intros a Ha. rewrite (mp_psi _ _ _ _ _ M) by auto. apply sumv_nonneg; auto.
    intros b Hb. now apply phi_nonneg. }
  apply nonneg_intro; auto.
  - intros i a Hi Ha. rewrite E1 in Hi. destruct (Nat.eq_dec i c2) as [->|N].
    + rewrite (mp_phi _ _ _ _ _ M) by auto. apply Qc_div_nonneg.
      * apply Qc_mul_nonneg; auto. now apply phi_nonneg.
      * now apply psi_nonneg.
    + unfold phi. rewrite (mp_clq _ _ _ _ _ M) by auto. now apply phi_nonneg.
  - intros k a Hk Ha. rewrite E2 in Hk. destruct (Nat.eq_dec k s) as [->|N]; auto.
    unfold psi. rewrite (mp_sep _ _ _ _ _ M) by auto. now apply psi_nonneg.
Qed.

Lemma mp_joint : forall jt c1 s c2 jt', shape_ok jt -> s < length (sps jt) -> joins jt s c1 c2 ->
  tables_nonneg jt -> mp_rel jt c1 s c2 jt' ->
  forall a, valid a -> joint jt' a = joint jt a.
Proof.
  intros jt c1 s c2 jt' HS Hs HJ HN M a Ha.
  destruct (joins_incl jt s c1 c2 HS Hs HJ) as (I1 & I2 & L1 & L2 & N12).
  destruct (mp_shape _ _ _ _ _ M) as (E1 & E2 & _).
  unfold joint. rewrite E1, E2.
  destruct (qprod_change1 (fun i => phi jt' i a) (fun i => phi jt i a) (length (cls jt)) c2)
    as (r & R1 & R2); auto.
  { intros i Hi. unfold phi. now rewrite (mp_clq _ _ _ _ _ M). }
  destruct (qprod_change1 (fun i => psi jt' i a) (fun i => psi jt i a) (length (sps jt)) s)
    as (q & Q1 & Q2); auto.
  { intros i Hi. unfold psi. now rewrite (mp_sep _ _ _ _ _ M). }
  rewrite R1, R2, Q1, Q2. unfold Qcdiv. rewrite !Qcinv_mul.
  rewrite (mp_phi _ _ _ _ _ M) by auto. unfold Qcdiv.
  destruct (Qc_eq_dec (psi jt' s a) 0%Qc) as [Z|NZ].
  - (* the message is zero: clique c1 is zero there *)
    assert (F : phi jt c1 a = 0%Qc).
    { rewrite (mp_psi _ _ _ _ _ M) in Z by auto.
      apply (sumv_zero_inv card) in Z; auto.
      - apply (dep_ext _ _ (phi_dep jt c1)).
      - intros b Hb. now apply phi_nonneg. }
    rewrite Z. replace (phi jt c2 a * r)%Qc with 0%Qc.
    + ring.
    + rewrite <- R2. symmetry. apply qprod_zero. rewrite <- F.
      apply (in_map (fun i => phi jt i a)). apply in_seq. lia.
  - replace (phi jt c2 a * psi jt' s a * / psi jt s a * r * (/ psi jt' s a * / q))%Qc
      with (phi jt c2 a * / psi jt s a * r * / q * (psi jt' s a * / psi jt' s a))%Qc by ring.
    rewrite Qcmult_inv_r by auto. ring.
Qed.

End Messages.
