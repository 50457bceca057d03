(** * Proofs about memory: blocks *)
From Coq Require Import Permutation.
From Verif Require Import Base BaseProofs HeapProofs MemoryModel MemorySpec.
Import ListNotations.
Open Scope nat_scope.
Local Open Scope res_scope.

(** The allocated blocks are exactly those of [fp]. *)
Definition fp := list (nat * block).
Definition heap_is (m : memory) (f : fp) : Prop :=
  NoDup (map fst f) /\ forall a b, nth_error m a = Some (Some b) <-> In (a, b) f.

Lemma heap_perm : forall m f g, Permutation f g -> heap_is m f -> heap_is m g.
Proof.
  intros m f g HP [H1 H2]. split.
  - eapply Permutation_NoDup; [apply Permutation_map; exact HP|exact H1].
  - intros a b. rewrite H2. split; intros H; eapply Permutation_in; try exact H; [exact HP|apply Permutation_sym; exact HP].
Qed.

Lemma heap_in : forall m f a b, heap_is m f -> In (a, b) f -> nth_error m a = Some (Some b).
Proof. intros m f a b [_ H] I. apply H. exact I. Qed.

Lemma heap_empty : heap_is [] [].
Proof. split; [constructor|]. intros [|a] b; cbn; split; try discriminate; intros []. Qed.

Lemma heap_none : forall m, heap_is m [] -> all_free m.
Proof.
  intros m [_ H]. apply Forall_forall. intros [b|] HI; [|reflexivity].
  apply In_nth_error in HI. destruct HI as (a & E). apply H in E. destruct E.
Qed.

Lemma set_nth_nth : forall A (l : list A) i x k, i < length l ->
  nth_error (set_nth l i x) k = if Nat.eqb k i then Some x else nth_error l k.
Proof.
  induction l as [|y l IH]; intros i x k H; [cbn in H; lia|].
  destruct i as [|i]; destruct k as [|k]; cbn; try reflexivity. apply IH. cbn in H. lia.
Qed.

Lemma allocate_ok : forall m f b, heap_is m f ->
  let '(m', a) := allocate m b in heap_is m' ((a, b) :: f) /\ length m' = S (length m).
Proof.
  intros m f b [H1 H2]. cbn. assert (FR : forall x, ~ In (length m, x) f).
  { intros x I. apply H2 in I. assert (length m < length m) by (apply nth_error_Some; rewrite I; discriminate). lia. }
  split; [split|rewrite app_length; cbn; lia].
  - cbn. constructor; [|exact H1]. intros I. apply in_map_iff in I. destruct I as ((a & x) & E & I). cbn in E. subst a. exact (FR x I).
  - intros a x. cbn. destruct (Nat.lt_trichotomy a (length m)) as [L|[L|L]].
    + rewrite nth_error_app1 by exact L. rewrite H2. split; [tauto|]. intros [E|I]; [|exact I]. injection E as E _. lia.
    + subst a. rewrite nth_error_app2, Nat.sub_diag by lia. cbn. split.
      * intros E. injection E as E. subst. left. reflexivity.
      * intros [E|I]; [injection E as E; subst; reflexivity|exfalso; exact (FR x I)].
    + rewrite nth_error_app2 by lia. destruct (a - length m) as [|k] eqn:D; [lia|]. cbn.
      split; [destruct k; discriminate|]. intros [E|I]; [injection E as E _; lia|].
      apply H2 in I. assert (a < length m) by (apply nth_error_Some; rewrite I; discriminate). lia.
Qed.

Lemma free_ok : forall m f a b, heap_is m ((a, b) :: f) -> exists m', free m (Some a) = Ok m' /\ heap_is m' f /\ length m' = length m.
Proof.
  intros m f a b [H1 H2]. assert (E : nth_error m a = Some (Some b)) by (apply H2; left; reflexivity).
  cbn. rewrite E. eexists. split; [reflexivity|]. assert (L : a < length m) by (apply nth_error_Some; rewrite E; discriminate).
  cbn in H1. inversion H1 as [|? ? N1 N2]; subst. split; [split; [exact N2|]|apply set_nth_length].
  intros c x. rewrite set_nth_nth by exact L. destruct (Nat.eqb_spec c a) as [D|D].
  - subst c. split; [discriminate|]. intros I. exfalso. apply N1. apply in_map_iff. exists (a, x). auto.
  - rewrite H2. cbn. split; [intros [X|X]; [injection X; intros; congruence|exact X]|auto].
Qed.

Lemma free_null : forall m, free m None = Ok m.
Proof. reflexivity. Qed.

Lemma fetch_ok : forall m f a b k x, heap_is m f -> In (a, b) f -> nth_error b k = Some x -> fetch m (Some a) k = Ok x.
Proof. intros m f a b k x H I E. cbn. rewrite (heap_in m f a b H I). unfold rd. rewrite E. reflexivity. Qed.
Lemma ptr_ok : forall m f a b k q, heap_is m f -> In (a, b) f -> nth_error b k = Some (P q) -> ptr m (Some a) k = Ok q.
Proof. intros. unfold ptr. erewrite fetch_ok by eassumption. reflexivity. Qed.
Lemma num_ok : forall m f a b k n, heap_is m f -> In (a, b) f -> nth_error b k = Some (N n) -> num m (Some a) k = Ok n.
Proof. intros. unfold num. erewrite fetch_ok by eassumption. reflexivity. Qed.

Lemma store_ok : forall m f a b k x, heap_is m ((a, b) :: f) -> k < length b ->
  exists m', store m (Some a) k x = Ok m' /\ heap_is m' ((a, set_nth b k x) :: f) /\ length m' = length m.
Proof.
  intros m f a b k x [H1 H2] HK. assert (E : nth_error m a = Some (Some b)) by (apply H2; left; reflexivity).
  cbn [store]. rewrite E. unfold wr. rewrite (proj2 (Nat.ltb_lt k (length b)) HK). cbn [bind]. eexists. split; [reflexivity|].
  assert (L : a < length m) by (apply nth_error_Some; rewrite E; discriminate).
  cbn in H1. inversion H1 as [|? ? N1 N2]; subst. split; [split|apply set_nth_length].
  - exact H1.
  - intros c y. rewrite set_nth_nth by exact L. destruct (Nat.eqb_spec c a) as [D|D].
    + subst c. cbn. split.
      * intros X. injection X as X. subst. left. reflexivity.
      * intros [X|X]; [injection X as X; subst; reflexivity|]. exfalso. apply N1. apply in_map_iff. exists (a, y). auto.
    + rewrite H2. cbn. split; (intros [X|X]; [injection X; intros; congruence|auto]).
Qed.
