(** * Proofs about get_joint_probability (C39) *)
From Coq Require Import Permutation Field.
From Verif Require Import Base BaseProofs PotentialModel PotentialSpec PotentialProofs PotentialProofs2 PotentialProofs3
  VariableModel VariableProofs JoinTreeModel
  AssignSpec AssignProofs JoinTreeSpec JoinTreeProofs JoinTreeProofs2 JoinTreeProofs3 JoinTreeProofs6
  NipModel NipSpec NipProofs NipProofs2 NipProofs3 GatherModel.
Import ListNotations.
Open Scope nat_scope.
Local Open Scope res_scope.
Add Field Qcfield_gather : Qcft.

Ltac inv_bind H :=
  match type of H with
  | bind ?e _ = Ok _ => let E := fresh "E" in let x := fresh "x" in
      destruct e as [x| |] eqn:E; [cbn [bind] in H|discriminate H..]
  end.

Ltac inv_as H x E :=
  match type of H with
  | bind ?e _ = Ok _ => destruct e as [x| |] eqn:E; [cbn [bind] in H|discriminate H..]
  end.

(** ** What follows from a loop having ended *)
Lemma loop_up_back : forall S (P : nat -> S -> Prop) body n lo s r,
  loop_up n lo body s = Ok r -> P lo s ->
  (forall i s s', lo <= i < lo + n -> P i s -> body i s = Ok s' -> P (Datatypes.S i) s') ->
  P (lo + n) r.
Proof.
  intros S P body. induction n as [|n IH]; intros lo s r E H0 HB; simpl in E.
  - inversion E; subst. now rewrite Nat.add_0_r.
  - destruct (body lo s) as [s0| |] eqn:Eb; try discriminate. cbn [bind] in E.
    replace (lo + Datatypes.S n) with (Datatypes.S lo + n) by lia. apply (IH (Datatypes.S lo) s0); auto.
    + apply (HB lo s); auto. lia.
    + intros i s1 s2 Hi. apply HB. lia.
Qed.
Lemma for_up_back : forall S (P : nat -> S -> Prop) body lo hi s r,
  for_up lo hi body s = Ok r -> lo <= hi -> P lo s ->
  (forall i s s', lo <= i < hi -> P i s -> body i s = Ok s' -> P (Datatypes.S i) s') -> P hi r.
Proof.
  intros S P body lo hi s r E HL H0 HB. unfold for_up in E. replace hi with (lo + (hi - lo)) by lia.
  apply (loop_up_back S P body (hi - lo) lo s); auto. intros i s1 s2 Hi. apply HB. lia.
Qed.
(** Every pass has ended. *)
Lemma for_up_each : forall S (body : nat -> S -> res S) lo hi s r k,
  for_up lo hi body s = Ok r -> lo <= k < hi -> exists s1 s2, body k s1 = Ok s2.
Proof.
  intros S body lo hi s r k E Hk.
  assert (G := for_up_back S (fun i _ => k < i -> exists s1 s2, body k s1 = Ok s2) body lo hi s r E).
  apply G; try lia. intros i s1 s2 Hi H Eb Hki. destruct (Nat.eq_dec i k) as [->|]; eauto. apply H. lia.
Qed.

Lemma wr_len : forall A (l : list A) i x l', wr l i x = Ok l' -> length l' = length l.
Proof.
  intros A l i x l' H. destruct (Nat.lt_ge_cases i (length l)) as [Hi|Hi].
  - rewrite wr_ok in H by auto. inversion H. apply set_nth_length.
  - unfold wr in H. destruct (Nat.ltb_spec i (length l)); [lia|discriminate].
Qed.
Lemma rd_in : forall A (l : list A) i x, rd l i = Ok x -> i < length l.
Proof.
  intros A l i x H. unfold rd in H. destruct (nth_error l i) eqn:E; [|discriminate].
  apply nth_error_Some. congruence.
Qed.

(** ** Dimensions of the tables *)
Lemma new_potential_dims : forall cs n p, new_potential cs (Z.of_nat n) None = Ok (Some p) ->
  length (dims p) = n /\ ((forall i, i < n -> 0 < nth i cs 0) -> 0 < size_of_data p).
Proof.
  intros cs n p H. unfold new_potential in H. destruct (Z.ltb_spec (Z.of_nat n) 0); [lia|].
  rewrite Nat2Z.id in H. inv_bind H. destruct x as (ds & ca).
  assert (G : length ca = n /\ ((forall i, i < n -> 0 < nth i cs 0) -> 0 < ds)).
  { apply (for_up_back _ (fun i '(d, c) => length c = n /\ ((forall j, j < i -> 0 < nth j cs 0) -> 0 < d))) in E; [|lia| |]; auto.
    - split; [apply repeat_length|lia].
    - intros i (d & c) (d' & c') Hi (H1 & H2) Eb. inv_as Eb x E1. inv_as Eb y E2. inv_as Eb z E3. inversion Eb; subst.
      split; [rewrite (wr_len _ _ _ _ _ E3); auto|]. intros HP.
      unfold imul in E2. destruct (_ <=? _)%Z in E2; inversion E2; subst.
      assert (0 < d) by (apply H2; auto). assert (0 < nth i cs 0) by (apply HP; lia).
      assert (x = nth i cs 0). { rewrite (rd_ok _ _ _ 0) in E1 by (now apply rd_in in E1). now inversion E1. }
      subst. nia. }
  inv_bind H. inversion H; subst. cbn [dims]. unfold size_of_data. cbn [data]. split; [apply G|].
  intros HP. apply G in HP.
  assert (L : length x = ds).
  { apply (for_up_back _ (fun _ d => length d = ds)) in E0; [auto|lia|apply repeat_length|].
    intros i s s' _ Hs Eb. now rewrite (wr_len _ _ _ _ _ Eb). }
  lia.
Qed.

Lemma update_potential_dims : forall nu de t m t' e, update_potential nu de t m = Ok (t', e) ->
  dims t' = dims t /\ size_of_data t' = size_of_data t.
Proof.
  intros nu de t m t' e H. unfold update_potential in H.
  assert (B : forall (body : nat -> list Qc -> res (list Qc)) r,
    for_up 0 (size_of_data t) body (data t) = Ok r ->
    (forall i d d', body i d = Ok d' -> length d' = length d) -> length r = length (data t)).
  { intros body r E HB. apply (for_up_back _ (fun _ d => length d = length (data t))) in E; auto; try lia.
    intros i s s' _ H1 Eb. rewrite <- H1. now apply (HB i). }
  destruct nu as [nu|], de as [de|]; cbv zeta in H.
  4: { inversion H; subst; auto. }
  1: { destruct (_ || _)%bool; [inversion H; subst; auto|]. revert H. destruct (Nat.eqb _ 0); intros H.
    all: inv_bind H; inversion H; subst; (split; [reflexivity|]); unfold size_of_data; cbn [data];
       apply B in E; auto; intros i d d' Eb;
       repeat match goal with
       | H : bind ?e _ = Ok _ |- _ => let E := fresh "E" in destruct e eqn:E; [cbn [bind] in H|discriminate H..]
       | H : wr _ _ _ = Ok _ |- _ => apply wr_len in H
       | H : Ok _ = Ok _ |- _ => inversion H; subst; clear H
       end; congruence. }
  all: revert H; destruct (Nat.eqb _ 0); intros H.
  all: inv_bind H; inversion H; subst; (split; [reflexivity|]); unfold size_of_data; cbn [data];
       apply B in E; auto; intros i d d' Eb;
       repeat match goal with
       | H : bind ?e _ = Ok _ |- _ => let E := fresh "E" in destruct e eqn:E; [cbn [bind] in H|discriminate H..]
       | H : wr _ _ _ = Ok _ |- _ => apply wr_len in H
       | H : Ok _ = Ok _ |- _ => inversion H; subst; clear H
       end; congruence.
Qed.

Lemma general_marginalise_dims : forall s d m d' e, general_marginalise s d m = Ok (d', e) -> dims d' = dims d.
Proof.
  intros s d m d' e H. unfold general_marginalise in H.
  destruct (Nat.ltb _ _); [inversion H; auto|]. destruct (Nat.eqb _ _).
  - inv_bind H. inv_bind H. now inversion H.
  - rewrite uniform_ok in H. cbn [bind] in H. inv_bind H. inversion H; subst.
    apply (for_up_back _ (fun _ q => dims q = dims d)) in E; auto; try lia.
    intros i q q' _ Hq Eb. repeat inv_bind Eb. inversion Eb. now subst.
Qed.

(** A mapping that is too short is read past its end. *)
Lemma update_short : forall nu t m t' e, length m < dimensionality nu -> 0 < size_of_data t ->
  update_potential (Some nu) None t m <> Ok (t', e).
Proof.
  intros nu t m t' e HL HP H. unfold update_potential in H. cbv zeta in H.
  destruct (Nat.eqb_spec (dimensionality nu) 0); [lia|]. inv_bind H.
  apply for_up_each with (k := 0) in E; [|lia]. destruct E as (s1 & s2 & Eb).
  inv_bind Eb. inv_bind Eb. unfold choose_potential_indices in E0.
  apply for_up_each with (k := length m) in E0; [|lia]. destruct E0 as (u1 & u2 & Ec). inv_bind Ec.
  apply rd_in in E0. lia.
Qed.

(** ** The number of dimensions of a gathered table *)
Lemma gather_dims : forall card fuel jt c vars isect jt' p, vars <> [] ->
  gather_joint_probability fuel card jt c vars isect = Ok (jt', Some p) ->
  length (dims p) = length vars + length isect.
Proof.
  intros card fuel jt c vars isect jt' p HV H. destruct fuel as [|f]; [discriminate|].
  cbn [gather_joint_probability] in H.
  destruct (Nat.eqb_spec (length vars) 0) as [N|_]; [destruct vars; [congruence|discriminate]|].
  inv_as H k0 E. inv_as H j0 E0. inv_as H pn E1. destruct pn as (pv & np). destruct pv as [pv|]; [|discriminate].
  inv_as H ca E2. inv_as H pr0 E3. destruct pr0 as [pr|]; [|discriminate].
  assert (D : length (dims pr) = Z.to_nat np).
  { destruct (Z.ltb_spec np 0) as [Hn|Hn].
    - unfold new_potential in E3. destruct (Z.ltb_spec np 0); [discriminate|lia].
    - rewrite <- (Z2Nat.id np) in E3 by auto. now apply new_potential_dims in E3. }
  inv_as H mp0 E4. destruct mp0 as [mp|]; [|discriminate]. inv_as H pe E5. destruct pe as (pr1 & e1).
  apply update_potential_dims in E5. destruct E5 as (D1 & _).
  destruct (is_err e1); [discriminate|]. inv_as H st E5. destruct st as ((j2 & pr2) & e2).
  assert (D2 : dims pr2 = dims pr1).
  { clear -E5. revert E5.
    match goal with |- each _ ?b _ = _ -> _ => set (body := b) end.
    assert (EQ : forall l body (st st' : jtree * potential) e,
      (forall s a b e, body s a = Ok (b, e) -> dims (snd b) = dims (snd a)) ->
      each l body st = Ok (st', e) -> dims (snd st') = dims (snd st)).
    { clear. induction l as [|s l IH]; intros body st st' e HB E; cbn [each] in E.
      - inversion E; auto.
      - inv_as E r E0. destruct r as (st1 & e1). apply HB in E0. destruct (is_err e1).
        + inversion E; subst; auto.
        + apply IH in E; auto. congruence. }
    intros E5. apply EQ in E5; auto. intros s a b e. unfold body. intros E. inv_as E sp Es. revert E.
    apply EQ. clear. intros c (j & q) b e E. inv_as E mrk E0. destruct mrk as [|]; [inversion E; auto|].
    inv_as E mp E1. inv_as E q0 E2. destruct q0 as (q1 & e1). apply update_potential_dims in E2. destruct E2 as (E2 & _).
    destruct (is_err e1); [inversion E; subst; auto|]. inv_as E mi0 E3. destruct mi0 as (mi & nmi).
    destruct mi as [mi|]; [|inversion E; subst; auto]. inv_as E jm E4. destruct jm as (j2 & msg).
    inv_as E mv E5. destruct mv as (mv & nm). inv_as E mq E6. inv_as E q3 E7. destruct q3 as (q2 & e2). apply update_potential_dims in E7.
    inversion E; subst. cbn [snd]. destruct E7. congruence. }
  destruct (is_err e2); [discriminate|].
  destruct (Nat.eqb_spec (Z.to_nat np) (length vars + length isect)).
  - inversion H; subst. congruence.
  - inv_as H c1 E6. inv_as H c2 E7. inv_as H su0 E8. destruct su0 as [su|]; [|discriminate]. inv_as H su2 E9.
    destruct su2 as (su1 & e3). apply general_marginalise_dims in E9.
    destruct (is_err e3); [discriminate|]. inversion H; subst. rewrite E9.
    now apply new_potential_dims in E8.
Qed.
