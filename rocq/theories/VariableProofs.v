(** * Proofs about VariableModel.v *)
From Coq Require Import String Ascii Permutation Sorted.
From Verif Require Import Base BaseProofs VariableModel VariableSpec.
Import ListNotations.
Open Scope nat_scope.

(** ** searching *)
Lemma find_up_ok : forall (p : nat -> bool) lo hi test,
  (forall i, lo <= i < hi -> test i = Ok (p i)) ->
  exists o, find_up lo hi test = Ok o /\
    match o with
    | Some j => lo <= j < hi /\ p j = true /\ forall k, lo <= k < j -> p k = false
    | None => forall k, lo <= k < hi -> p k = false
    end.
Proof.
  intros p lo hi test. unfold find_up.
  remember (hi - lo) as n eqn:E. revert lo E.
  induction n as [|n IH]; intros lo E H; simpl.
  - exists None; split; auto. intros k Hk; lia.
  - rewrite H by lia. cbn [bind].
    destruct (p lo) eqn:Ep.
    + exists (Some lo); split; auto. split; [lia|]. split; auto. intros; lia.
    + destruct (IH (S lo)) as (o & E1 & Ho); [lia|intros; apply H; lia|].
      exists o; split; auto. destruct o as [j|].
      * destruct Ho as (Hj & Hp & Hf). split; [lia|]. split; auto.
        intros k Hk. destruct (Nat.eq_dec k lo) as [->|]; auto. apply Hf; lia.
      * intros k Hk. destruct (Nat.eq_dec k lo) as [->|]; auto. apply Ho; lia.
Qed.

Definition memb (x : nat) (l : list nat) : bool := existsb (Nat.eqb x) l.

Lemma memb_in : forall x l, memb x l = true <-> In x l.
Proof.
  intros x l. unfold memb. rewrite existsb_exists. split.
  - intros (y & Hy & E). apply Nat.eqb_eq in E. now subst.
  - intros H. exists x. split; auto. apply Nat.eqb_refl.
Qed.

Lemma memb_notin : forall x l, memb x l = false <-> ~ In x l.
Proof. intros. rewrite <- memb_in. destruct (memb x l); split; congruence. Qed.

(** Search for the value [x] among the first [n] cells of [b]. *)
Lemma search_ok : forall x b n test,
  n <= length b ->
  (forall j, j < n -> test j = Ok (Nat.eqb x (nth j b 0))) ->
  exists o, find_up 0 n test = Ok o /\
    match o with
    | Some j => j < n /\ nth j b 0 = x /\ memb x (firstn n b) = true
                /\ forall k, k < j -> nth k b 0 <> x
    | None => memb x (firstn n b) = false
    end.
Proof.
  intros x b n test Hn Ht.
  destruct (find_up_ok (fun j => Nat.eqb x (nth j b 0)) 0 n test) as (o & E & Ho).
  { intros; apply Ht; lia. }
  exists o; split; auto. destruct o as [j|].
  - destruct Ho as (Hj & Hp & Hf). apply Nat.eqb_eq in Hp.
    split; [lia|]. split; auto. split.
    + apply memb_in. rewrite Hp.
      rewrite <- (firstn_skipn n b) at 1. rewrite app_nth1.
      * apply nth_In. rewrite firstn_length; lia.
      * rewrite firstn_length; lia.
    + intros k Hk Hx. specialize (Hf k). rewrite Hx, Nat.eqb_refl in Hf.
      discriminate Hf. lia.
  - apply memb_notin. intros Hin. apply (In_nth _ _ 0) in Hin.
    destruct Hin as (k & Hk & Hx). rewrite firstn_length in Hk.
    specialize (Ho k). rewrite <- Hx in Ho.
    rewrite <- (firstn_skipn n b) in Ho at 2.
    rewrite app_nth1 in Ho by (rewrite firstn_length; lia).
    rewrite Nat.eqb_refl in Ho. discriminate Ho. lia.
Qed.

Lemma firstn_S_nth : forall A (l : list A) i d,
  i < length l -> firstn (S i) l = firstn i l ++ [nth i l d].
Proof.
  induction l as [|h t IH]; intros [|i] d H; simpl in *; try lia; auto.
  f_equal. apply IH; lia.
Qed.

Lemma firstn_set_nth : forall A (l : list A) i v,
  i < length l -> firstn (S i) (set_nth l i v) = firstn i l ++ [v].
Proof.
  induction l as [|h t IH]; intros [|i] v H; simpl in *; try lia; auto.
  f_equal. apply IH; lia.
Qed.

Lemma firstn_set_nth_ge : forall A (l : list A) i v k,
  k <= i -> firstn k (set_nth l i v) = firstn k l.
Proof.
  induction l as [|h t IH]; intros [|i] v [|k] H; simpl in *; try lia; auto.
  f_equal. apply IH; lia.
Qed.

(** ** intersection *)
Lemma search_pair : forall a b i n,
  i < length a -> n <= length b ->
  exists o, find_up 0 n (fun j => bind (rd a i) (fun x => bind (rd b j) (fun y =>
               Ok (equal_variables x y)))) = Ok o /\
    match o with
    | Some j => j < n /\ nth j b 0 = nth i a 0 /\ memb (nth i a 0) (firstn n b) = true
                /\ forall k, k < j -> nth k b 0 <> nth i a 0
    | None => memb (nth i a 0) (firstn n b) = false
    end.
Proof.
  intros a b i n Hi Hn. apply search_ok; auto.
  intros j Hj. rewrite (rd_ok _ a i 0) by auto. cbn [bind].
  rewrite (rd_ok _ b j 0) by lia. reflexivity.
Qed.

Lemma isect_ok : forall a b,
  variable_isect (Some a) (Some b) (length a) (length b) =
  Ok (let c := filter (fun x => memb x b) a in
      match c with [] => None | _ => Some c end,
      Z.of_nat (length (filter (fun x => memb x b) a))).
Proof.
  intros a b. unfold variable_isect.
  destruct (Nat.eqb (length a) 0 || Nat.eqb (length b) 0)%bool eqn:E0.
  { apply orb_true_iff in E0. destruct E0 as [E0|E0]; apply Nat.eqb_eq in E0;
    apply length_zero_iff_nil in E0; subst; simpl; auto.
    assert (G : filter (fun _ : nat => false) a = []) by (induction a; auto).
    unfold memb; simpl. rewrite G. reflexivity. }
  set (F := filter (fun x => memb x b)).
  match goal with |- bind ?L _ = _ =>
    assert (H1 : exists n, L = Ok n /\ n = length (F (firstn (length a) a))) end.
  { apply (for_up_inv _ (fun i n => n = length (F (firstn i a)))); [lia|reflexivity|].
    intros i s Hi Hs.
    destruct (search_pair a b i (length b)) as (o & E & Ho); [lia|lia|].
    rewrite E. cbn [bind]. rewrite firstn_all in Ho.
    rewrite (firstn_S_nth _ a i 0) by lia. unfold F; rewrite filter_app, app_length; fold F.
    rewrite <- Hs. simpl. destruct o as [j|].
    - destruct Ho as (_ & _ & Hm & _). rewrite Hm. eexists; split; [reflexivity|]; simpl; lia.
    - rewrite Ho. eexists; split; [reflexivity|]; simpl; lia. }
  destruct H1 as (n & E1 & Hn). rewrite E1. cbn [bind]. rewrite firstn_all in Hn.
  change (filter (fun x => memb x b) a) with (F a).
  destruct (Nat.eqb n 0) eqn:En.
  { apply Nat.eqb_eq in En. rewrite En in Hn. symmetry in Hn. apply length_zero_iff_nil in Hn.
    cbv zeta. rewrite Hn. reflexivity. }
  apply Nat.eqb_neq in En.
  match goal with |- bind ?L _ = _ =>
    assert (H2 : exists ck, L = Ok ck /\
      length (fst ck) = n /\ snd ck = length (F (firstn (length a) a)) /\
      firstn (snd ck) (fst ck) = F (firstn (length a) a)) end.
  { apply (for_up_inv _ (fun i ck => length (fst ck) = n /\
       snd ck = length (F (firstn i a)) /\
       firstn (snd ck) (fst ck) = F (firstn i a))); [lia| |].
    - simpl. rewrite repeat_length. auto.
    - intros i [c k] Hi (Hl & Hk & Hc). simpl in Hl, Hk, Hc.
      destruct (search_pair a b i (length b)) as (o & E & Ho); [lia|lia|].
      rewrite E. cbn [bind]. rewrite firstn_all in Ho.
      rewrite (firstn_S_nth _ a i 0) by lia.
      unfold F; rewrite filter_app, app_length; fold F. simpl.
      destruct o as [j|].
      + destruct Ho as (_ & _ & Hm & _). rewrite Hm.
        rewrite (rd_ok _ a i 0) by lia. cbn [bind].
        assert (Hkn : k < n).
        { rewrite Hn, Hk. rewrite <- (firstn_skipn (S i) a) at 2.
          rewrite (firstn_S_nth _ a i 0) by lia.
          unfold F. rewrite !filter_app, !app_length. simpl. rewrite Hm. simpl. lia. }
        rewrite wr_ok by lia. cbn [bind].
        eexists; split; [reflexivity|]. simpl. rewrite set_nth_length. split; auto. split; [lia|].
        change (match set_nth c k (nth i a 0) with [] => [] | x :: l => x :: firstn k l end)
          with (firstn (S k) (set_nth c k (nth i a 0))).
        rewrite firstn_set_nth by lia. now rewrite Hc.
      + rewrite Ho. eexists; split; [reflexivity|]. simpl. split; auto.
        rewrite app_nil_r. split; [lia|auto]. }
  destruct H2 as ([c k] & E2 & Hl & Hk & Hc). rewrite E2. cbn [bind].
  simpl in Hl, Hk, Hc. rewrite firstn_all in Hk, Hc.
  rewrite firstn_all2 in Hc by lia. cbv zeta. rewrite Hc.
  rewrite <- Hn. destruct (F a) as [|h t] eqn:EF; auto. simpl in Hn; lia.
Qed.

(** ** union *)
Lemma filter_exchange : forall a b, NoDup a -> NoDup b ->
  length (filter (fun x => memb x b) a) = length (filter (fun x => memb x a) b).
Proof.
  intros a b Ha Hb. apply Permutation_length. apply NoDup_Permutation.
  - now apply NoDup_filter.
  - now apply NoDup_filter.
  - intros x. rewrite !filter_In, !memb_in. tauto.
Qed.

Lemma filter_length_compl : forall (p : nat -> bool) l,
  length (filter p l) + length (filter (fun x => negb (p x)) l) = length l.
Proof.
  induction l as [|h t IH]; simpl; auto. destruct (p h); simpl; lia.
Qed.

Definition new_in (a b : list nat) := filter (fun x => negb (memb x a)) b.

Lemma union_gen : forall a b,
  length a + length b > 0 ->
  NoDup b ->
  (length (filter (fun x => memb x b) a) = length (filter (fun x => memb x a) b)) ->
  variable_union (Some a) (Some b) (length a) (length b) =
  Ok (Some (a ++ new_in a b), Z.of_nat (length (a ++ new_in a b))).
Proof.
  intros a b Hpos Hb Hx. unfold variable_union.
  rewrite !andb_false_r. simpl orb. cbv iota.
  destruct (Nat.eqb (length a) 0 && Nat.eqb (length b) 0)%bool eqn:E0.
  { apply andb_true_iff in E0. destruct E0 as [E0 E1].
    apply Nat.eqb_eq in E0; apply Nat.eqb_eq in E1. lia. }
  set (F := filter (fun x => memb x b)).
  match goal with |- bind ?L _ = _ =>
    assert (H1 : exists n, L = Ok n /\
      n = (Z.of_nat (length a) + Z.of_nat (length b)
           - Z.of_nat (length (F (firstn (length a) a))))%Z) end.
  { apply (for_up_inv _ (fun i n => n = (Z.of_nat (length a) + Z.of_nat (length b)
           - Z.of_nat (length (F (firstn i a))))%Z)); [lia|simpl; lia|].
    intros i s Hi Hs.
    destruct (search_pair a b i (length b)) as (o & E & Ho); [lia|lia|].
    rewrite E. cbn [bind]. rewrite firstn_all in Ho.
    rewrite (firstn_S_nth _ a i 0) by lia. unfold F; rewrite filter_app, app_length; fold F.
    simpl. destruct o as [j|].
    - destruct Ho as (_ & _ & Hm & _). rewrite Hm. eexists; split; [reflexivity|]; simpl; lia.
    - rewrite Ho. eexists; split; [reflexivity|]; simpl; lia. }
  destruct H1 as (n & E1 & Hn). rewrite E1. cbn [bind]. rewrite firstn_all in Hn.
  set (N := length (a ++ new_in a b)).
  assert (HN : n = Z.of_nat N).
  { rewrite Hn. unfold F, N. rewrite Hx, app_length.
    unfold new_in. pose proof (filter_length_compl (fun x => memb x a) b). simpl in H. lia. }
  assert (HNpos : N > 0).
  { unfold N. rewrite app_length. destruct a as [|h t]; simpl; [|lia].
    unfold new_in. simpl. clear -Hpos. simpl in Hpos.
    assert (G : filter (fun _ : nat => true) b = b) by (clear; induction b; simpl; f_equal; auto).
    rewrite G; lia. }
  destruct (Z.eqb_spec n 0); [lia|].
  match goal with |- bind ?L _ = _ =>
    assert (H2 : exists c, L = Ok c /\ length c = N /\ firstn (length a) c = firstn (length a) a) end.
  { apply (for_up_inv _ (fun i c => length c = N /\ firstn i c = firstn i a)); [lia| |].
    - rewrite repeat_length, HN, Nat2Z.id. auto.
    - intros i c Hi (Hl & Hc). rewrite (rd_ok _ a i 0) by lia. cbn [bind].
      assert (i < length c) by (rewrite Hl; unfold N; rewrite app_length; lia).
      rewrite wr_ok by auto. eexists; split; [reflexivity|].
      rewrite set_nth_length. split; auto.
      rewrite firstn_set_nth by auto. rewrite Hc. now rewrite <- firstn_S_nth by lia. }
  destruct H2 as (c & E2 & Hl & Hc). rewrite E2. cbn [bind]. rewrite firstn_all in Hc.
  match goal with |- bind ?L _ = _ =>
    assert (H3 : exists ck, L = Ok ck /\ length (fst ck) = N /\
      snd ck = length (a ++ new_in a (firstn (length b) b)) /\
      firstn (snd ck) (fst ck) = a ++ new_in a (firstn (length b) b)) end.
  { apply (for_up_inv _ (fun i ck => length (fst ck) = N /\
      snd ck = length (a ++ new_in a (firstn i b)) /\
      firstn (snd ck) (fst ck) = a ++ new_in a (firstn i b))); [lia| |].
    - simpl. rewrite app_nil_r. auto.
    - intros i [d k] Hi (Hld & Hk & Hd). cbn [fst snd] in *.
      assert (Hin : nth i b 0 <> nth i b 0 \/ ~ In (nth i b 0) (firstn i b)).
      { right. intros Hin. rewrite <- (firstn_skipn i b) in Hb.
        assert (Hs : skipn i b = nth i b 0 :: skipn (S i) b).
        { clear - Hi. destruct Hi as [_ Hi]. revert i Hi. induction b as [|h t IH]; intros [|i] Hi; simpl in *; try lia; auto.
          apply IH. lia. }
        rewrite Hs in Hb. apply NoDup_remove_2 in Hb. apply Hb. apply in_or_app; auto. }
      destruct Hin as [Hin|Hin]; [congruence|].
      assert (Hkd : k <= length d).
      { rewrite Hld, Hk. unfold N. rewrite !app_length. unfold new_in.
        rewrite <- (firstn_skipn i b) at 2. rewrite filter_app, app_length. lia. }
      destruct (search_pair b d i k) as (o & E & Ho); [lia|lia|].
      rewrite Hd in Ho. rewrite E. cbn [bind].
      assert (Hmm : memb (nth i b 0) (a ++ new_in a (firstn i b)) = memb (nth i b 0) a).
      { destruct (memb (nth i b 0) a) eqn:Em.
        - apply memb_in. apply in_or_app. left. now apply memb_in.
        - apply memb_notin. intros G. apply in_app_or in G. destruct G as [G|G].
          + apply memb_notin in Em. auto.
          + unfold new_in in G. apply filter_In in G. tauto. }
      rewrite Hmm in Ho.
      assert (Hstep : new_in a (firstn (S i) b) =
                new_in a (firstn i b) ++ (if memb (nth i b 0) a then [] else [nth i b 0])).
      { rewrite (firstn_S_nth _ b i 0) by lia. unfold new_in. rewrite filter_app. simpl.
        destruct (memb (nth i b 0) a); reflexivity. }
      rewrite Hstep, app_assoc.
      destruct o as [j|].
      + destruct Ho as (_ & _ & Hm & _). rewrite Hm, app_nil_r.
        eexists; split; [reflexivity|]. auto.
      + rewrite Ho. rewrite (rd_ok _ b i 0) by lia. cbn [bind].
        assert (Hkn : k < length d).
        { rewrite Hld, Hk. unfold N. rewrite !app_length.
          rewrite <- (firstn_skipn (S i) b) at 2. unfold new_in at 2. rewrite filter_app.
          fold (new_in a (firstn (S i) b)). rewrite Hstep, Ho, !app_length. simpl. lia. }
        rewrite wr_ok by auto. cbn [bind]. eexists; split; [reflexivity|]. cbn [fst snd].
        rewrite set_nth_length. split; auto. rewrite app_length, <- Hk. simpl.
        split; [lia|].
        change (match set_nth d k (nth i b 0) with [] => [] | x :: l => x :: firstn k l end)
          with (firstn (S k) (set_nth d k (nth i b 0))).
        rewrite firstn_set_nth by auto. now rewrite Hd. }
  destruct H3 as ([d k] & E3 & Hld & Hk & Hd). rewrite E3. cbn [bind].
  cbn [fst snd] in *. rewrite firstn_all in Hk, Hd.
  fold N in Hk. rewrite firstn_all2 in Hd by lia. rewrite Hd, HN. reflexivity.
Qed.

Lemma union_ok : forall a b,
  length a + length b > 0 -> NoDup a -> NoDup b ->
  variable_union (Some a) (Some b) (length a) (length b) =
  Ok (Some (a ++ new_in a b), Z.of_nat (length (a ++ new_in a b))).
Proof. intros. apply union_gen; auto. now apply filter_exchange. Qed.

Lemma NoDup_app_disj : forall A (a b : list A),
  NoDup a -> NoDup b -> (forall x, In x a -> ~ In x b) -> NoDup (a ++ b).
Proof.
  induction a as [|h t IH]; intros b Ha Hb H; simpl; auto.
  inversion Ha; subst. constructor.
  - intros G. apply in_app_or in G. destruct G as [G|G]; auto. apply (H h); simpl; auto.
  - apply IH; auto. intros; apply H; simpl; auto.
Qed.

Lemma union_nodup : forall a b, NoDup a -> NoDup b -> NoDup (a ++ new_in a b).
Proof.
  intros a b Ha Hb. apply NoDup_app_disj; auto.
  - now apply NoDup_filter.
  - intros x Hx Hy. apply filter_In in Hy. destruct Hy as [_ Hy].
    apply negb_true_iff in Hy. apply memb_notin in Hy. auto.
Qed.

Lemma union_in : forall a b x, In x (a ++ new_in a b) <-> In x a \/ In x b.
Proof.
  intros a b x. rewrite in_app_iff. unfold new_in. rewrite filter_In.
  destruct (memb x a) eqn:E; simpl.
  - apply memb_in in E. intuition congruence.
  - intuition.
Qed.

(** ** mapper *)
Lemma mapper_ok : forall set subset,
  0 < length subset -> length subset <= length set ->
  (forall x, In x subset -> In x set) ->
  exists m, mapper (Some set) (Some subset) (length set) (length subset) = Ok (Some m) /\
    length m = length subset /\
    forall i, i < length subset ->
      nth i m 0 < length set /\ nth (nth i m 0) set 0 = nth i subset 0 /\
      forall k, k < nth i m 0 -> nth k set 0 <> nth i subset 0.
Proof.
  intros set subset Hpos Hle Hin. unfold mapper.
  destruct (Nat.ltb_spec (length subset) 1); [lia|].
  destruct (Nat.ltb_spec (length set) (length subset)); [lia|].
  match goal with |- context [bind ?L _] =>
    assert (H2 : exists m, L = Ok m /\ length m = length subset /\
      forall i, i < length subset ->
        nth i m 0 < length set /\ nth (nth i m 0) set 0 = nth i subset 0 /\
        forall k, k < nth i m 0 -> nth k set 0 <> nth i subset 0) end.
  { apply (for_up_inv _ (fun n m => length m = length subset /\
      forall i, i < n ->
        nth i m 0 < length set /\ nth (nth i m 0) set 0 = nth i subset 0 /\
        forall k, k < nth i m 0 -> nth k set 0 <> nth i subset 0)); [lia| |].
    - rewrite repeat_length. split; auto. intros; lia.
    - intros i m Hi (Hl & Hm).
      destruct (search_pair subset set i (length set)) as (o & E & Ho); [lia|lia|].
      rewrite E. cbn [bind]. rewrite firstn_all in Ho.
      destruct o as [j|].
      + destruct Ho as (Hj & Hjx & _ & Hf). rewrite wr_ok by lia.
        eexists; split; [reflexivity|]. rewrite set_nth_length. split; auto.
        intros k Hk. rewrite nth_set_nth by lia.
        destruct (Nat.eqb_spec k i) as [->|Hne]; auto. apply Hm; lia.
      + apply memb_notin in Ho. exfalso. apply Ho, Hin, nth_In. lia. }
  destruct H2 as (m & E & Hm). rewrite E. cbn [bind]. eauto.
Qed.

(** ** sorting *)
Definition swap_step (i j : nat) (s : list nat) : list nat :=
  if Nat.ltb (nth j s 0) (nth i s 0)
  then set_nth (set_nth s j (nth i s 0)) i (nth j s 0) else s.

Lemma swap_step_length : forall i j s, length (swap_step i j s) = length s.
Proof.
  intros. unfold swap_step. destruct Nat.ltb; auto. now rewrite !set_nth_length.
Qed.

Lemma set_nth_split : forall A (l1 l2 : list A) x v,
  set_nth (l1 ++ x :: l2) (length l1) v = l1 ++ v :: l2.
Proof. induction l1; intros; simpl; auto. now rewrite IHl1. Qed.

Lemma swap_perm_lt : forall s i j, i < j -> j < length s ->
  Permutation (set_nth (set_nth s j (nth i s 0)) i (nth j s 0)) s.
Proof.
  induction s as [|h t IH]; intros i j Hij Hj; simpl in *; [lia|].
  destruct j as [|j]; [lia|]. destruct i as [|i]; simpl.
  - clear IH. revert h j Hj Hij. induction t as [|x t IH]; intros h j Hj Hij; simpl in *; [lia|].
    destruct j as [|j]; simpl; [apply perm_swap|].
    transitivity (x :: h :: t).
    + transitivity (x :: nth j t 0 :: set_nth t j h); [apply perm_swap|].
      apply perm_skip. apply (IH h j); lia.
    + apply perm_swap.
  - apply perm_skip. apply IH; lia.
Qed.

Lemma set_nth_comm : forall A (l : list A) i j x y, i <> j ->
  set_nth (set_nth l i x) j y = set_nth (set_nth l j y) i x.
Proof.
  induction l as [|h t IH]; intros [|i] [|j] x y H; simpl; auto; try lia.
  f_equal. apply IH; lia.
Qed.

Lemma swap_step_perm : forall i j s, i < length s -> j < length s ->
  Permutation (swap_step i j s) s.
Proof.
  intros i j s Hi Hj. unfold swap_step.
  destruct (Nat.ltb_spec (nth j s 0) (nth i s 0)); auto.
  destruct (Nat.lt_trichotomy i j) as [H'|[->|H']].
  - now apply swap_perm_lt.
  - lia.
  - rewrite set_nth_comm by lia. now apply swap_perm_lt.
Qed.

Lemma swap_body_ok : forall i j s, i < length s -> j < length s ->
  bind (rd s j) (fun sj => bind (rd s i) (fun si =>
     if Nat.ltb sj si then bind (wr s j si) (fun s1 => wr s1 i sj) else Ok s))
  = Ok (swap_step i j s).
Proof.
  intros i j s Hi Hj. rewrite (rd_ok _ s j 0), (rd_ok _ s i 0) by auto. cbn [bind].
  unfold swap_step. destruct Nat.ltb; auto.
  rewrite wr_ok by auto. cbn [bind]. apply wr_ok. now rewrite set_nth_length.
Qed.

(** One pass of the outer loop. *)
Definition sort_pass (n i : nat) (s : list nat) : list nat :=
  fold_left (fun s j => swap_step i j s) (seq 1 (n - 1)) s.
Definition sort_passes (n : nat) (s : list nat) : list nat :=
  fold_left (fun s i => sort_pass n i s) (seq 0 (n - 1)) s.

Lemma for_up_fold : forall S (I : S -> Prop) (f : nat -> S -> S) body lo hi s,
  I s -> (forall i s, lo <= i < hi -> I s -> body i s = Ok (f i s) /\ I (f i s)) ->
  for_up lo hi body s = Ok (fold_left (fun s i => f i s) (seq lo (hi - lo)) s)
  /\ I (fold_left (fun s i => f i s) (seq lo (hi - lo)) s).
Proof.
  intros S I f body lo hi s. unfold for_up. remember (hi - lo) as n eqn:E.
  revert lo s E. induction n as [|n IH]; intros lo s E Hs H; simpl; auto.
  destruct (H lo s) as [H1 H2]; [lia|auto|]. rewrite H1. cbn [bind].
  apply IH; auto. lia. intros; apply H; auto; lia.
Qed.

Lemma sort_fill : forall (vars s0 : list nat), length s0 = length vars ->
  for_up 0 (length vars) (fun i (s : list nat) => bind (rd vars i) (fun v => wr s i v)) s0 = Ok vars.
Proof.
  intros vars s0 H0.
  destruct (for_up_inv _ (fun i s => length s = length vars /\ firstn i s = firstn i vars)
     (fun i (s : list nat) => bind (rd vars i) (fun v => wr s i v)) 0 (length vars) s0) as (s & E & Hl & Hs);
    [lia|auto| |].
  - intros i s Hi (Hl & Hs). rewrite (rd_ok _ vars i 0) by lia. cbn [bind].
    rewrite wr_ok by lia. eexists; split; [reflexivity|]. rewrite set_nth_length. split; auto.
    rewrite firstn_set_nth by lia. rewrite Hs. now rewrite <- firstn_S_nth by lia.
  - rewrite E. f_equal. rewrite firstn_all2 in Hs by lia. now rewrite firstn_all in Hs.
Qed.

Lemma sort_pass_perm : forall n i s, length s = n -> i < n ->
  Permutation (sort_pass n i s) s.
Proof.
  intros n i s Hl Hi. unfold sort_pass.
  assert (G : forall js s, length s = n -> (forall j, In j js -> j < n) ->
     Permutation (fold_left (fun s j => swap_step i j s) js s) s).
  { induction js as [|j js IH]; intros t Ht Hj; simpl; auto.
    transitivity (swap_step i j t).
    - apply IH; [now rewrite swap_step_length|]. intros; apply Hj; simpl; auto.
    - apply swap_step_perm; rewrite Ht; auto. apply Hj; simpl; auto. }
  apply G; auto. intros j Hj. apply in_seq in Hj. lia.
Qed.

Lemma sort_ok : forall vars, 0 < length vars ->
  sort_variables vars (Z.of_nat (length vars)) = Ok (Some (sort_passes (length vars) vars))
  /\ Permutation (sort_passes (length vars) vars) vars.
Proof.
  intros vars Hpos. unfold sort_variables.
  destruct (Z.ltb_spec (Z.of_nat (length vars)) 1); [lia|].
  rewrite Nat2Z.id. rewrite sort_fill by apply repeat_length. cbn [bind].
  set (n := length vars).
  destruct (for_up_fold _ (fun s => Permutation s vars) (sort_pass n)
    (fun i s => for_up 1 n (fun j (s : list nat) => bind (rd s j) (fun sj => bind (rd s i) (fun si =>
       if Nat.ltb sj si then bind (wr s j si) (fun s1 => wr s1 i sj) else Ok s))) s)
    0 (n - 1) vars) as [E HP]; auto.
  - intros i s Hi HPs.
    assert (Hls : length s = n) by (apply Permutation_length; auto).
    split.
    + destruct (for_up_fold _ (fun s => length s = n) (swap_step i)
        (fun j (s : list nat) => bind (rd s j) (fun sj => bind (rd s i) (fun si =>
          if Nat.ltb sj si then bind (wr s j si) (fun s1 => wr s1 i sj) else Ok s)))
        1 n s) as [E1 _]; auto.
      * intros j t Hj Ht. rewrite swap_body_ok by lia. split; auto. now rewrite swap_step_length.
    + transitivity s; auto. apply sort_pass_perm; auto. lia.
  - rewrite Nat.sub_0_r in E, HP.
    rewrite E. split; auto.
Qed.

Lemma nth_swap_step : forall i j s k, i < length s -> j < length s ->
  nth k (swap_step i j s) 0 =
    if Nat.ltb (nth j s 0) (nth i s 0)
    then (if Nat.eqb k i then nth j s 0 else if Nat.eqb k j then nth i s 0 else nth k s 0)
    else nth k s 0.
Proof.
  intros i j s k Hi Hj. unfold swap_step. destruct Nat.ltb; auto.
  rewrite nth_set_nth by now rewrite set_nth_length.
  destruct (Nat.eqb k i); auto. now rewrite nth_set_nth.
Qed.

(** After the last pass the cell before the last-but-one holds a larger
    identifier than the last-but-one. *)
Lemma sort_last_pass : forall n s, length s = n -> 4 <= n -> NoDup s ->
  nth (n - 2) (sort_pass n (n - 2) s) 0 < nth (n - 3) (sort_pass n (n - 2) s) 0.
Proof.
  intros n s Hl Hn Hnd. unfold sort_pass.
  assert (Hseq : seq 1 (n - 1) = seq 1 (n - 4) ++ (n - 3) :: [n - 2; n - 1]).
  { replace (n - 1) with ((n - 4) + 3) at 1 by lia. rewrite seq_app. f_equal.
    replace (1 + (n - 4)) with (n - 3) by lia. simpl.
    replace (S (n - 3)) with (n - 2) by lia. replace (S (n - 2)) with (n - 1) by lia. reflexivity. }
  rewrite Hseq, fold_left_app. simpl.
  set (t := fold_left _ (seq 1 (n - 4)) s).
  assert (Ht : length t = n /\ NoDup t).
  { assert (G : forall js s, length s = n -> NoDup s -> (forall j, In j js -> j < n) ->
      length (fold_left (fun s j => swap_step (n - 2) j s) js s) = n /\
      NoDup (fold_left (fun s j => swap_step (n - 2) j s) js s)).
    { induction js as [|j js IH]; intros u Hu Hd Hj; simpl; auto.
      apply IH.
      - now rewrite swap_step_length.
      - apply (Permutation_NoDup (l := u)); auto. symmetry. apply swap_step_perm; rewrite Hu.
        + lia.
        + apply Hj; simpl; auto.
      - intros; apply Hj; simpl; auto. }
    apply G; auto. intros j Hj. apply in_seq in Hj. lia. }
  destruct Ht as [Htl Htn].
  assert (Hne : nth (n - 3) t 0 <> nth (n - 2) t 0).
  { intros E. apply (NoDup_nth t 0) in E; auto; lia. }
  set (t1 := swap_step (n - 2) (n - 3) t).
  assert (H1 : nth (n - 2) t1 0 < nth (n - 3) t1 0 /\ length t1 = n).
  { unfold t1. rewrite swap_step_length. split; auto.
    rewrite !nth_swap_step by lia.
    rewrite (Nat.eqb_refl (n - 2)), (Nat.eqb_refl (n - 3)).
    replace (Nat.eqb (n - 3) (n - 2)) with false by (symmetry; apply Nat.eqb_neq; lia).
    destruct (Nat.ltb_spec (nth (n - 3) t 0) (nth (n - 2) t 0)); lia. }
  destruct H1 as [H1 Hl1].
  assert (H2 : swap_step (n - 2) (n - 2) t1 = t1).
  { unfold swap_step. now rewrite Nat.ltb_irrefl. }
  rewrite H2. rewrite !nth_swap_step by lia.
  rewrite (Nat.eqb_refl (n - 2)).
  replace (Nat.eqb (n - 3) (n - 2)) with false by (symmetry; apply Nat.eqb_neq; lia).
  replace (Nat.eqb (n - 3) (n - 1)) with false by (symmetry; apply Nat.eqb_neq; lia).
  destruct (Nat.ltb_spec (nth (n - 1) t1 0) (nth (n - 2) t1 0)); lia.
Qed.

Lemma sort_passes_last : forall vars, 4 <= length vars -> NoDup vars ->
  let s := sort_passes (length vars) vars in
  nth (length vars - 2) s 0 < nth (length vars - 3) s 0.
Proof.
  intros vars H Hnd. cbv zeta. unfold sort_passes. set (n := length vars).
  replace (n - 1) with ((n - 2) + 1) by lia. rewrite seq_app, fold_left_app. simpl.
  fold n in H.
  assert (G : forall is s, length s = n -> NoDup s -> (forall i, In i is -> i < n) ->
      length (fold_left (fun s i => sort_pass n i s) is s) = n /\
      NoDup (fold_left (fun s i => sort_pass n i s) is s)).
  { induction is as [|i is IH]; intros u Hu Hd Hi; simpl; auto.
    assert (HP : Permutation (sort_pass n i u) u)
      by (apply sort_pass_perm; auto; apply Hi; simpl; auto).
    apply IH.
    - rewrite (Permutation_length HP). auto.
    - apply (Permutation_NoDup (l := u)); auto. now symmetry.
    - intros; apply Hi; simpl; auto. }
  destruct (G (seq 0 (n - 2)) vars) as [G1 G2]; auto.
  - intros i Hi. apply in_seq in Hi. lia.
  - apply sort_last_pass; auto.
Qed.

(** ** texts *)
Lemma substring_full : forall s, substring 0 (String.length s) s = s.
Proof. induction s; simpl; auto. now rewrite IHs. Qed.

Lemma variable_text_short : forall s,
  String.length s <= VAR_TEXT_LENGTH -> variable_text s = s.
Proof.
  intros s H. unfold variable_text. rewrite Nat.min_l by auto. apply substring_full.
Qed.

Lemma substring_length_le : forall s n, String.length (substring 0 n s) <= n.
Proof.
  induction s as [|c s IH]; intros [|n]; simpl; auto; try lia.
  apply le_n_S. apply IH.
Qed.

Lemma variable_text_length : forall s, String.length (variable_text s) <= VAR_TEXT_LENGTH.
Proof.
  intros s. unfold variable_text.
  pose proof (substring_length_le s (Nat.min (String.length s) VAR_TEXT_LENGTH)). lia.
Qed.

(** ** creation *)
Lemma new_variable_names : forall states,
  (for_up 0 (length states)
     (fun i names => bind (rd (map Some states) i) (fun s =>
        match s with None => UB | Some s => wr names i (variable_text s) end))
     (repeat EmptyString (length states))) = Ok (map variable_text states).
Proof.
  intros states.
  match goal with |- for_up 0 ?n ?b ?s0 = _ =>
    destruct (for_up_inv _ (fun i s => length s = length states /\
      firstn i s = firstn i (map variable_text states)) b 0 n s0) as (s & E & Hl & Hs) end.
  - lia.
  - rewrite repeat_length; auto.
  - intros i s Hi (Hl & Hs).
    rewrite (rd_ok _ _ i None) by (rewrite map_length; lia). cbn [bind].
    rewrite (nth_map _ _ Some states i EmptyString) by lia.
    rewrite wr_ok by lia. eexists; split; [reflexivity|]. rewrite set_nth_length. split; auto.
    rewrite firstn_set_nth by lia. rewrite Hs.
    rewrite (firstn_S_nth _ (map variable_text states) i (variable_text EmptyString))
      by (rewrite map_length; lia).
    now rewrite map_nth.
  - rewrite E. f_equal. rewrite firstn_all2 in Hs by lia.
    rewrite firstn_all2 in Hs by (rewrite map_length; lia). auto.
Qed.

Lemma new_variable_ok : forall counter symbol states,
  (counter < LONG_MAX)%Z ->
  new_variable counter true true true symbol (Some (map Some states)) (length states)
  = Ok (Some (mkNamed counter (option_map variable_text symbol) (length states)
               (Names (map variable_text states)) (repeat 1%Qc (length states))),
        (counter + 1)%Z).
Proof.
  intros counter symbol states H. unfold new_variable. cbn [negb].
  apply Z.ltb_lt in H. rewrite H. cbn [bind]. rewrite new_variable_names. reflexivity.
Qed.

Lemma state_index_ok : forall v names s,
  nv_states v = Names names -> nv_card v = length names ->
  exists r, variable_state_index v s = Ok r /\
    ((r = (-1)%Z /\ ~ In s names) \/
     (exists i, r = Z.of_nat i /\ i < length names /\ nth i names EmptyString = s /\
        forall k, k < i -> nth k names EmptyString <> s)).
Proof.
  intros v names s Hn Hc. unfold variable_state_index. rewrite Hn, Hc.
  destruct (find_up_ok (fun i => String.eqb s (nth i names EmptyString)) 0 (length names)
     (fun i => bind (rd names i) (fun s0 => Ok (String.eqb s s0)))) as (o & E & Ho).
  { intros i Hi. rewrite (rd_ok _ names i EmptyString) by lia. reflexivity. }
  rewrite E. cbn [bind]. destruct o as [j|].
  - destruct Ho as (Hj & Hp & Hf). apply String.eqb_eq in Hp. eexists; split; [reflexivity|]. right.
    exists j. split; auto. split; [lia|]. split; auto.
    intros k Hk Ek. specialize (Hf k). rewrite Ek, String.eqb_refl in Hf. discriminate Hf. lia.
  - eexists; split; [reflexivity|]. left. split; auto. intros Hin.
    apply (In_nth _ _ EmptyString) in Hin. destruct Hin as (k & Hk & Ek).
    specialize (Ho k). rewrite Ek, String.eqb_refl in Ho. discriminate Ho. lia.
Qed.

Lemma state_name_ok : forall v names i,
  nv_states v = Names names -> i < length names ->
  variable_state_name v (Z.of_nat i) = Ok (Some (nth i names EmptyString)).
Proof.
  intros v names i Hn Hi. unfold variable_state_name. rewrite Hn.
  destruct (Z.ltb_spec (Z.of_nat i) 0); [lia|].
  rewrite Nat2Z.id. now rewrite (rd_ok _ names i EmptyString).
Qed.

(** ** histories of creations *)
Lemma new_variable_counter : forall counter o1 o2 o3 sy st ca r counter',
  new_variable counter o1 o2 o3 sy st ca = Ok (r, counter') ->
  (counter <= counter')%Z /\
  match r with Some v => nv_id v = counter /\ (counter < counter')%Z | None => True end.
Proof.
  intros counter o1 o2 o3 sy st ca r counter' H. unfold new_variable in H.
  destruct (negb o1). { inversion H; subst. split; [lia|auto]. }
  apply bind_ok_inv in H. destruct H as (c' & Hc & H).
  destruct (counter <? LONG_MAX)%Z; [|discriminate]. inversion Hc; subst c'.
  destruct st as [st|].
  - destruct (negb o2). { inversion H; subst. split; [lia|auto]. }
    apply bind_ok_inv in H. destruct H as (names & _ & H).
    destruct (negb o3); [discriminate|]. inversion H; subst. simpl. split; [lia|]. split; auto; lia.
  - destruct (negb o3); [discriminate|]. inversion H; subst. simpl. split; [lia|]. split; auto; lia.
Qed.

Lemma create_all_ids : forall calls counter vs counter',
  create_all counter calls = Ok (vs, counter') ->
  (counter <= counter')%Z /\
  StronglySorted Z.lt (map nv_id vs) /\
  Forall (fun i => (counter <= i < counter')%Z) (map nv_id vs).
Proof.
  induction calls as [|c cs IH]; intros counter vs counter' H; simpl in H.
  - inversion H; subst. simpl. split; [lia|]. split; constructor.
  - apply bind_ok_inv in H. destruct H as ((o & c1) & H1 & H).
    apply bind_ok_inv in H. destruct H as ((vs1 & c2) & H2 & H).
    inversion H; subst. clear H.
    apply new_variable_counter in H1. destruct H1 as [Hle H1].
    destruct (IH _ _ _ H2) as (Hle2 & Hs & Hf).
    assert (Hf' : Forall (fun i => (counter <= i < counter')%Z) (map nv_id vs1)).
    { eapply Forall_impl; [|exact Hf]. simpl. intros; lia. }
    destruct o as [v|].
    + destruct H1 as [Hid Hlt]. simpl. split; [lia|]. split.
      * constructor; auto. eapply Forall_impl; [|exact Hf]. simpl; intros; lia.
      * constructor; auto. lia.
    + split; [lia|]. auto.
Qed.

(** ** the statements of PropertiesVariable.v *)
Lemma C13_lemma : forall a b,
  NoDup a -> NoDup b -> 0 < length a + length b ->
  exists c,
    variable_union (Some a) (Some b) (length a) (length b)
      = Ok (Some c, Z.of_nat (length c)) /\
    NoDup c /\
    (forall x, In x c <-> In x a \/ In x b) /\
    (exists rest, c = a ++ rest /\
       rest = filter (fun x => negb (existsb (Nat.eqb x) a)) b).
Proof.
  intros a b Ha Hb Hp. exists (a ++ new_in a b). split; [apply union_ok; auto; lia|].
  split; [now apply union_nodup|]. split; [apply union_in|]. eexists; split; reflexivity.
Qed.

Lemma C14_lemma : forall a b,
  exists c,
    variable_isect (Some a) (Some b) (length a) (length b)
      = Ok (match c with [] => None | _ => Some c end, Z.of_nat (length c)) /\
    (forall x, In x c <-> In x a /\ In x b) /\
    c = filter (fun x => existsb (Nat.eqb x) b) a.
Proof.
  intros a b. exists (filter (fun x => memb x b) a). split; [apply isect_ok|].
  split; [|reflexivity]. intros x. now rewrite filter_In, memb_in.
Qed.

Lemma C15_lemma : forall set subset,
  subset <> [] -> NoDup subset -> (forall x, In x subset -> In x set) ->
  exists m,
    mapper (Some set) (Some subset) (length set) (length subset) = Ok (Some m) /\
    length m = length subset /\
    (forall i, i < length subset ->
       nth i m 0 < length set /\ nth (nth i m 0) set 0 = nth i subset 0) /\
    NoDup m.
Proof.
  intros set subset Hne Hnd Hin.
  destruct (mapper_ok set subset) as (m & E & Hl & Hm); auto.
  - destruct subset; [congruence|simpl; lia].
  - apply NoDup_incl_length; auto.
  - exists m. split; auto. split; auto. split.
    + intros i Hi. destruct (Hm i Hi) as (H1 & H2 & _). auto.
    + apply (NoDup_nth m 0). intros i j Hi Hj E1. rewrite Hl in Hi, Hj.
      destruct (Hm i Hi) as (_ & Hi2 & _). destruct (Hm j Hj) as (_ & Hj2 & _).
      apply (NoDup_nth subset 0); auto. congruence.
Qed.

Lemma C16_refuted_lemma : forall vars,
  NoDup vars -> 4 <= length vars ->
  exists s, sort_variables vars (Z.of_nat (length vars)) = Ok (Some s) /\
    Permutation s vars /\ ~ StronglySorted lt s.
Proof.
  intros vars Hnd Hl. destruct (sort_ok vars) as [E HP]; [lia|].
  eexists; split; [exact E|]. split; auto. intros Hs.
  pose proof (sort_passes_last vars Hl Hnd) as Hlt. cbv zeta in Hlt.
  set (s := sort_passes (length vars) vars) in *.
  assert (Hls : length s = length vars) by now apply Permutation_length.
  assert (G : forall (l : list nat) i j, StronglySorted lt l -> i < j -> j < length l -> nth i l 0 < nth j l 0).
  { induction l as [|h t IH]; intros i j Hss Hij Hj; simpl in Hj; [lia|].
    inversion Hss; subst. destruct j as [|j]; [lia|]. destruct i as [|i]; simpl.
    - rewrite Forall_forall in H2. apply H2. apply nth_In. lia.
    - apply IH; auto; lia. }
  specialize (G s (length vars - 3) (length vars - 2) Hs). lia.
Qed.

Lemma C16_partial_lemma : forall vars,
  1 <= length vars <= 3 ->
  exists s, sort_variables vars (Z.of_nat (length vars)) = Ok (Some s) /\
    Permutation s vars /\ StronglySorted le s.
Proof.
  intros vars Hl. destruct (sort_ok vars) as [E HP]; [lia|].
  eexists; split; [exact E|]. split; auto.
  clear E HP. destruct vars as [|a [|b [|c [|d l]]]]; simpl in Hl; try lia;
  unfold sort_passes, sort_pass, swap_step; simpl.
  - repeat constructor.
  - destruct (Nat.ltb_spec b a); simpl; repeat constructor; lia.
  - repeat (match goal with |- context [Nat.ltb ?x ?y] =>
              is_var x; is_var y; destruct (Nat.ltb_spec x y) end; simpl; try lia);
    repeat constructor; lia.
Qed.

Lemma C17_lemma : forall counter symbol states,
  (counter < LONG_MAX)%Z ->
  (forall s, In s states -> String.length s <= 40) ->
  exists v counter',
    new_variable counter true true true symbol (Some (map Some states)) (length states)
      = Ok (Some v, counter') /\
    (forall i, i < length states ->
       variable_state_name v (Z.of_nat i) = Ok (Some (nth i states EmptyString))) /\
    (forall s, ~ In s states -> variable_state_index v s = Ok (-1)%Z) /\
    (forall s, In s states -> exists i, variable_state_index v s = Ok (Z.of_nat i) /\
       i < length states /\ nth i states EmptyString = s /\
       forall k, k < i -> nth k states EmptyString <> s) /\
    (NoDup states -> forall i, i < length states ->
       variable_state_index v (nth i states EmptyString) = Ok (Z.of_nat i)).
Proof.
  intros counter symbol states Hc Hs.
  assert (Hm : map variable_text states = states).
  { clear -Hs. induction states as [|s l IH]; simpl; auto.
    rewrite variable_text_short by (apply Hs; simpl; auto).
    rewrite IH; auto. intros; apply Hs; simpl; auto. }
  do 2 eexists. split; [apply new_variable_ok; auto|].
  rewrite Hm. set (v := mkNamed _ _ _ _ _).
  assert (Hv : nv_states v = Names states) by reflexivity.
  assert (Hcard : nv_card v = length states) by reflexivity.
  split; [intros; now apply state_name_ok|].
  split; [|split].
  - intros s Hn. destruct (state_index_ok v states s Hv Hcard) as (r & E & [[-> _]|(i & -> & Hi & Hx & _)]); auto.
    exfalso. apply Hn. rewrite <- Hx. now apply nth_In.
  - intros s Hn. destruct (state_index_ok v states s Hv Hcard) as (r & E & [[-> Hx]|(i & -> & Hi & Hx & Hk)]).
    + contradiction.
    + exists i. auto.
  - intros Hnd i Hi.
    destruct (state_index_ok v states (nth i states EmptyString) Hv Hcard)
      as (r & E & [[-> Hx]|(j & -> & Hj & Hx & Hk)]).
    + exfalso. apply Hx. now apply nth_In.
    + apply (NoDup_nth states EmptyString) in Hx; auto. now subst.
Qed.

Lemma C17_refuted_lemma : forall counter symbol states,
  (counter < LONG_MAX)%Z ->
  exists v counter',
    new_variable counter true true true symbol (Some (map Some states)) (length states)
      = Ok (Some v, counter') /\
    (forall s, 40 < String.length s -> variable_state_index v s = Ok (-1)%Z).
Proof.
  intros counter symbol states Hc.
  do 2 eexists. split; [apply new_variable_ok; auto|].
  intros s Hs.
  set (v := mkNamed _ _ _ _ _).
  destruct (state_index_ok v (map variable_text states) s) as (r & E & [[-> _]|(i & -> & Hi & Hx & _)]).
  - reflexivity.
  - simpl. now rewrite map_length.
  - exact E.
  - exfalso. assert (Hin : In s (map variable_text states)) by (rewrite <- Hx; now apply nth_In).
    apply in_map_iff in Hin. destruct Hin as (t & Ht & _).
    pose proof (variable_text_length t) as Hlen. rewrite Ht in Hlen. unfold VAR_TEXT_LENGTH in Hlen. lia.
Qed.

Lemma C18_lemma : forall calls counter vs counter',
  create_all counter calls = Ok (vs, counter') ->
  forall i j, i < j -> j < length vs ->
    exists vi vj, nth_error vs i = Some vi /\ nth_error vs j = Some vj /\
      (nv_id vi < nv_id vj)%Z.
Proof.
  intros calls counter vs counter' H i j Hij Hj.
  apply create_all_ids in H. destruct H as (_ & Hs & _).
  revert i j Hij Hj. induction vs as [|v vs IH]; intros i j Hij Hj; simpl in Hj; [lia|].
  simpl in Hs. inversion Hs; subst. destruct j as [|j]; [lia|]. destruct i as [|i]; simpl.
  - destruct (nth_error vs j) as [w|] eqn:E.
    + exists v, w. repeat split; auto. rewrite Forall_forall in H2. apply H2.
      apply in_map. eapply nth_error_In; eauto.
    + apply nth_error_None in E. lia.
  - apply IH; auto; lia.
Qed.
