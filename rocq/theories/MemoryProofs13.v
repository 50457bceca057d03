(** * Copies of variables (C82) *)
From Verif Require Import Base BaseProofs MemoryModel GatherProofs.
Import ListNotations.
Open Scope nat_scope.
Local Open Scope list_scope.
Local Open Scope res_scope.

Lemma nth_error_set_nth_same : forall A (l : list A) i x, i < length l -> nth_error (set_nth l i x) i = Some x.
Proof. induction l as [|y l IH]; intros [|i] x H; cbn in *; try lia; [reflexivity|]. apply IH. lia. Qed.
Lemma nth_error_set_nth_other : forall A (l : list A) i x j, j <> i -> nth_error (set_nth l i x) j = nth_error l j.
Proof. induction l as [|y l IH]; intros [|i] x [|j] H; cbn; try reflexivity; try congruence. apply IH. congruence. Qed.

(** Field [k] of the block at [c] is [x]. *)
Definition field (m : memory) (c k : nat) (x : val) : Prop :=
  exists b, nth_error m c = Some (Some b) /\ nth_error b k = Some x.

Lemma field_allocate : forall m b c k x, field m c k x -> field (fst (allocate m b)) c k x.
Proof.
  intros m b c k x (bl & E & F). exists bl. split; [|exact F]. cbn [allocate fst].
  rewrite nth_error_app1; [exact E|]. apply nth_error_Some. rewrite E. discriminate.
Qed.

Lemma store_inv : forall m p k x m', store m p k x = Ok m' -> exists a b b', p = Some a /\
  nth_error m a = Some (Some b) /\ wr b k x = Ok b' /\ m' = set_nth m a (Some b').
Proof.
  intros m [a|] k x m' E; [|discriminate]. unfold store in E.
  destruct (nth_error m a) as [[b|]|] eqn:EA; try discriminate.
  destruct (wr b k x) as [b'| |] eqn:EW; try discriminate. injection E as <-.
  exists a, b, b'. auto.
Qed.

Lemma wr_inv : forall (b : block) k x b', wr b k x = Ok b' -> k < length b /\ b' = set_nth b k x.
Proof.
  intros b k x b' E. unfold wr in E. destruct (Nat.ltb k (length b)) eqn:L; [|discriminate].
  apply Nat.ltb_lt in L. injection E as <-. auto.
Qed.

Lemma field_store : forall m p k x m' c j y, store m p k x = Ok m' -> field m c j y ->
  p <> Some c \/ k <> j -> field m' c j y.
Proof.
  intros m p k x m' c j y E (bl & F & G) D. destruct (store_inv _ _ _ _ _ E) as (a & b & b' & -> & EA & EW & ->).
  destruct (wr_inv _ _ _ _ EW) as (L & ->).
  destruct (Nat.eq_dec a c) as [->|N].
  - rewrite F in EA. injection EA as <-. exists (set_nth bl k x). split.
    + apply nth_error_set_nth_same. apply nth_error_Some. rewrite F. discriminate.
    + rewrite nth_error_set_nth_other; [exact G|]. destruct D as [D|D]; [congruence|congruence].
  - exists bl. split; [|exact G]. rewrite nth_error_set_nth_other; [exact F|congruence].
Qed.

Lemma field_stored : forall m c k x m', store m (Some c) k x = Ok m' -> field m' c k x.
Proof.
  intros m c k x m' E. destruct (store_inv _ _ _ _ _ E) as (a & b & b' & Q & EA & EW & ->). injection Q as <-.
  destruct (wr_inv _ _ _ _ EW) as (L & ->). exists (set_nth b k x). split.
  - apply nth_error_set_nth_same. apply nth_error_Some. rewrite EA. discriminate.
  - apply nth_error_set_nth_same. exact L.
Qed.

Lemma ptr_field : forall m c k x, field m c k x -> ptr m (Some c) k = match x with P q => Ok q | _ => UB end.
Proof. intros m c k x (b & E & F). unfold ptr, fetch. rewrite E. unfold rd. rewrite F. reflexivity. Qed.

Lemma bind_inv : forall A B (r : res A) (f : A -> res B) y, bind r f = Ok y -> exists x, r = Ok x /\ f x = Ok y.
Proof. intros A B [x| |] f y E; try discriminate. eauto. Qed.

Ltac step E x Q := apply bind_inv in E; destruct E as (x & Q & E).

(** The symbol of a copy is never set. *)
Lemma copy_symbol : forall m v len m' c, v <> None -> copy_variable m v len = Ok (m', c) ->
  exists a, c = Some a /\ field m' a V_symbol Junk.
Proof.
  intros m [v|] len m' c NV E; [|congruence]. clear NV. unfold copy_variable, malloc in E.
  set (c0 := length m) in *. cbn [allocate] in E.
  assert (F : field (m ++ [Some (repeat Junk 10)]) c0 V_symbol Junk /\ field (m ++ [Some (repeat Junk 10)]) c0 V_name Junk).
  { split; eexists; (split; [unfold c0; rewrite nth_error_app2, Nat.sub_diag by lia; reflexivity|reflexivity]). }
  fold c0 in E. clearbody c0. destruct F as (F & G).
  step E n E1. step E m1 E2. pose proof (field_store _ _ _ _ _ _ _ _ E2 F ltac:(right; discriminate)) as F1.
  pose proof (field_store _ _ _ _ _ _ _ _ E2 G ltac:(right; discriminate)) as G1.
  step E idv E3. step E m2 E4. pose proof (field_store _ _ _ _ _ _ _ _ E4 F1 ltac:(right; discriminate)) as F2.
  pose proof (field_store _ _ _ _ _ _ _ _ E4 G1 ltac:(right; discriminate)) as G2.
  step E name E5. step E m3 E6.
  assert (X : m3 = m2).
  { destruct name as [s|]; [|congruence]. unfold set_variable_text in E6. cbv zeta in E6.
    rewrite (ptr_field _ _ _ _ G2) in E6. discriminate. }
  subst m3. clear E6 G G1 G2.
  step E k E7. step E m4 E8. pose proof (field_store _ _ _ _ _ _ _ _ E8 F2 ltac:(right; discriminate)) as F3.
  step E ps E9. step E m5 E10.
  assert (F4 : field m5 c0 V_symbol Junk).
  { destruct ps as [ps|].
    - unfold calloc in E10. cbn [allocate] in E10. step E10 m6 E11.
      assert (A : length m4 <> c0). { destruct F3 as (b & Q & _). assert (c0 < length m4) by (apply nth_error_Some; rewrite Q; discriminate). lia. }
      pose proof (field_allocate m4 (repeat (P None) k) _ _ _ F3) as F4. cbn [allocate fst] in F4.
      pose proof (field_store _ _ _ _ _ _ _ _ E11 F4 ltac:(right; discriminate)) as F5.
      pose proof (field_stored _ _ _ _ _ E11) as P5.
      assert (H : field m5 c0 V_symbol Junk /\ field m5 c0 V_parents (P (Some (length m4)))).
      { apply (for_up_back _ (fun _ m => field m c0 V_symbol Junk /\ field m c0 V_parents (P (Some (length m4)))) _ _ _ _ _ E10); [lia|split; assumption|].
        intros i s s' _ (I1 & I2) B. step B p B1. step B q B2. rewrite (ptr_field _ _ _ _ I2) in B2. injection B2 as <-.
        split; eapply field_store; try exact B; try eassumption; left; congruence. }
      exact (proj1 H).
    - eapply field_store; [exact E10|exact F3|right; discriminate]. }
  unfold calloc in E. cbn [allocate] in E. step E m6 E11.
  assert (A : length m5 <> c0). { destruct F4 as (b & Q & _). assert (c0 < length m5) by (apply nth_error_Some; rewrite Q; discriminate). lia. }
  pose proof (field_allocate m5 (repeat (N 0) n) _ _ _ F4) as F5. cbn [allocate fst] in F5.
  pose proof (field_store _ _ _ _ _ _ _ _ E11 F5 ltac:(right; discriminate)) as F6.
  pose proof (field_stored _ _ _ _ _ E11) as P6.
  step E m7 E12. injection E as <- <-. exists c0. split; [reflexivity|].
  assert (H : field m7 c0 V_symbol Junk /\ field m7 c0 V_likelihood (P (Some (length m5)))).
  { apply (for_up_back _ (fun _ m => field m c0 V_symbol Junk /\ field m c0 V_likelihood (P (Some (length m5)))) _ _ _ _ _ E12); [lia|split; assumption|].
    intros i s s' _ (I1 & I2) B. step B p B1. step B q B2. step B l B3. rewrite (ptr_field _ _ _ _ I2) in B3. injection B3 as <-.
    split; eapply field_store; try exact B; try eassumption; left; congruence. }
  exact (proj1 H).
Qed.

Lemma C82_copy_lemma : forall m v len, v <> None ->
  ~ exists m' c m'', copy_variable m v len = Ok (m', c) /\ free_variable m' c = Ok m''.
Proof.
  intros m v len NV (m' & c & m'' & E & F). destruct (copy_symbol _ _ _ _ _ NV E) as (a & -> & G).
  unfold free_variable in F. rewrite (ptr_field _ _ _ _ G) in F. discriminate.
Qed.
