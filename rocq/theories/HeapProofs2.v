(** * The heap without its order

    nip_build_min_heap does not restore the order after nip_set_heap_item (see
    C20).  What stays true of the cluster heap of nipgraph.c: no access
    outside the arrays, nothing is lost or made up. *)
From Coq Require Import Permutation.
From Verif Require Import Base BaseProofs HeapModel HeapSpec HeapProofs.
Import ListNotations.
Open Scope nat_scope.
Local Open Scope res_scope.

Section Weak.
Context {A : Type} (k1 k2 : A -> Z).
Notation at_ s i := (nth i s (@None (item A))).

Lemma skipn_set_nth_lt : forall B (l : list B) n i v, i < n -> skipn n (set_nth l i v) = skipn n l.
Proof.
  induction l as [|h t IHl]; intros [|n] [|i] v H; simpl; auto; try lia.
  apply IHl; lia.
Qed.

Lemma heapify_loop_perm : forall fuel n (s : list (option (item A))) i,
  n - i < fuel -> n <= length s ->
  exists s', min_heapify_loop fuel n s i = Ok s' /\ length s' = length s /\
    Permutation (firstn n s') (firstn n s).
Proof.
  induction fuel as [|fuel IH]; intros n s i Hf Hn; [lia|].
  cbn [min_heapify_loop]. set (l := 2 * i + 1). set (r := 2 * (i + 1)).
  assert (E1 : exists m1, (if Nat.ltb l n then bind (rd s l) (fun cl => bind (rd s i) (fun ci =>
                  Ok (if heap_less_than cl ci then l else i))) else Ok i) = Ok m1
               /\ (m1 = i \/ (m1 = l /\ l < n))).
  { destruct (Nat.ltb_spec l n); [|eauto].
    rewrite (rd_ok _ s l None) by lia. cbn [bind].
    rewrite (rd_ok _ s i None) by lia. cbn [bind].
    eexists; split; [reflexivity|]. destruct (heap_less_than (at_ s l) (at_ s i)); auto. }
  destruct E1 as (m1 & E1 & Hm1). rewrite E1. cbn [bind].
  assert (E2 : exists m, (if Nat.ltb r n then bind (rd s r) (fun cr => bind (rd s m1) (fun cm =>
                  Ok (if heap_less_than cr cm then r else m1))) else Ok m1) = Ok m
               /\ (m = i \/ (i < m /\ m < n))).
  { destruct (Nat.ltb_spec r n).
    - rewrite (rd_ok _ s r None) by lia. cbn [bind].
      rewrite (rd_ok _ s m1 None) by lia. cbn [bind].
      eexists; split; [reflexivity|]. destruct (heap_less_than (at_ s r) (at_ s m1)); lia.
    - eexists; split; [reflexivity|]. lia. }
  destruct E2 as (m & E2 & Hm). rewrite E2. cbn [bind].
  destruct (Nat.eqb_spec m i); [eauto|].
  rewrite (rd_ok _ s m None) by lia. cbn [bind].
  rewrite (rd_ok _ s i None) by lia. cbn [bind].
  rewrite wr_ok by lia. cbn [bind]. rewrite wr_ok by (rewrite set_nth_length; lia). cbn [bind].
  destruct (IH n (set_nth (set_nth s m (at_ s i)) i (at_ s m)) m) as (s' & E & Hl & HP).
  - lia.
  - now rewrite !set_nth_length.
  - exists s'. split; auto. split; [now rewrite Hl, !set_nth_length|].
    rewrite HP, !firstn_set_nth_comm.
    rewrite <- (nth_firstn _ s n i None), <- (nth_firstn _ s n m None) by lia.
    apply swap_cells_perm_lt; [lia|]. rewrite firstn_length. lia.
Qed.

Lemma min_heapify_any : forall h M i, stores k1 k2 h M ->
  exists h' M', min_heapify h i = Ok h' /\ stores k1 k2 h' M' /\ Permutation M' M /\
    h_size h' = h_size h /\ h_alloc h' = h_alloc h /\
    h_updated h' = h_updated h /\ h_heapified h' = h_heapified h.
Proof.
  intros h M i (Hs & Hle & Hal & Hf). unfold min_heapify.
  destruct (heapify_loop_perm (S (h_size h)) (h_size h) (h_cells h) i)
    as (s' & E & Hl & HP); try lia.
  rewrite E. cbn [bind]. rewrite Hf in HP. destruct (map_cell_perm k1 k2 _ _ HP) as (M' & EM & HPM).
  eexists; exists M'. split; [reflexivity|]. simpl. split.
  - unfold stores; simpl. rewrite Hl, (Permutation_length HPM). auto.
  - auto.
Qed.

Lemma rebuild_any : forall l h M, stores k1 k2 h M ->
  exists h' M', rebuild l h = Ok h' /\ stores k1 k2 h' M' /\ Permutation M' M.
Proof.
  induction l as [|i l IH]; intros h M Hst; simpl.
  - exists h, M. auto.
  - destruct (min_heapify_any h M i Hst) as (h1 & M1 & E & Hst1 & HP1 & _).
    rewrite E. cbn [bind].
    destruct (IH h1 M1 Hst1) as (h2 & M2 & E2 & Hst2 & HP2).
    exists h2, M2. split; auto. split; auto. now rewrite HP2.
Qed.

Lemma rebuild_heap_any : forall h M, stores k1 k2 h M -> h_heapified h = true ->
  exists h' M', build_min_heap h = Ok h' /\ stores k1 k2 h' M' /\ Permutation M' M /\
    h_heapified h' = true /\ h_updated h' = [].
Proof.
  intros h M Hst Hh. rewrite build_updated by auto.
  destruct (rebuild_any (h_updated h) h M Hst) as (h' & M' & E & Hst' & HP).
  rewrite E. cbn [bind]. eexists; exists M'. split; [reflexivity|]. split; [exact Hst'|]. auto.
Qed.

Lemma extract_any : forall h x M, stores k1 k2 h (x :: M) ->
  exists h' M', heap_extract_min h = Ok (Some x, h') /\ stores k1 k2 h' M' /\
    Permutation M' M /\ h_heapified h' = h_heapified h /\ h_updated h' = h_updated h.
Proof.
  intros h x M Hst. pose proof Hst as (Hs & Hle & Hal & Hf). simpl in Hs.
  unfold heap_extract_min. destruct (Nat.ltb_spec (h_size h) 1); [lia|].
  rewrite (rd_ok _ (h_cells h) 0 None) by lia. cbn [bind].
  rewrite (stores_at k1 k2 h (x :: M) 0 x) by (auto; simpl; lia). simpl nth.
  set (last := h_size h - 1).
  rewrite (rd_ok _ (h_cells h) last None) by (unfold last; lia). cbn [bind].
  rewrite wr_ok by lia. cbn [bind]. rewrite wr_ok by (rewrite set_nth_length; unfold last; lia).
  cbn [bind]. set (cells := set_nth (set_nth _ _ _) _ _).
  set (g := mkHeap _ cells last _ _).
  (* contents after moving the last item to the top *)
  set (M1 := match M with [] => [] | _ => nth (length M - 1) M x :: removelast M end).
  assert (HP1 : Permutation M1 M).
  { unfold M1. destruct M as [|m0 M0]; auto.
    assert (Hne : m0 :: M0 <> []) by discriminate.
    assert (El : List.last (m0 :: M0) x = nth (length (m0 :: M0) - 1) (m0 :: M0) x).
    { clear. generalize (m0 :: M0). intros l. induction l as [|a l IH]; auto.
      destruct l as [|b l]; auto. change (List.last (a :: b :: l) x) with (List.last (b :: l) x).
      rewrite IH. simpl. now rewrite Nat.sub_0_r. }
    pose proof (app_removelast_last x Hne) as Er. rewrite El in Er.
    apply Permutation_trans with
      (removelast (m0 :: M0) ++ [nth (length (m0 :: M0) - 1) (m0 :: M0) x]).
    - apply Permutation_cons_append.
    - rewrite <- Er. apply Permutation_refl. }
  assert (Hcl : length cells = length (h_cells h)) by (unfold cells; now rewrite !set_nth_length).
  assert (Hst1 : stores k1 k2 g M1).
  { unfold stores; simpl. rewrite (Permutation_length HP1), Hcl. unfold last.
    split; [lia|]. split; [lia|]. split; auto.
    apply (list_ext_nth _ None).
    - rewrite firstn_length, map_length, (Permutation_length HP1). lia.
    - intros i Hi. rewrite firstn_length in Hi.
      rewrite nth_firstn by lia.
      assert (Hi1 : i < length M1) by (rewrite (Permutation_length HP1); lia).
      rewrite (nth_map _ _ (cell_of k1 k2) M1 i x) by auto.
      unfold cells. rewrite nth_set_nth_neq by (unfold last; lia).
      rewrite nth_set_nth by lia.
      destruct M as [|m0 M0]; [simpl in *; lia|].
      destruct (Nat.eqb_spec i 0) as [->|Ni].
      + rewrite (stores_at k1 k2 h (x :: m0 :: M0) _ x) by (auto; simpl; unfold last; simpl in Hs; lia).
        unfold M1. simpl nth at 2. unfold last. rewrite Hs. simpl length.
        replace (S (S (length M0)) - 1) with (S (S (length M0) - 1)) by lia. reflexivity.
      + rewrite (stores_at k1 k2 h (x :: m0 :: M0) _ x) by (auto; simpl; simpl in Hs; lia).
        unfold M1. destruct i as [|i]; [lia|]. f_equal.
        assert (Hr : forall (l : list A) i, i < length l - 1 -> nth i (removelast l) x = nth i l x).
        { clear. intros l i Hi.
          destruct l as [|a l]; [simpl in Hi; lia|].
          assert (Hne : a :: l <> []) by discriminate.
          rewrite (app_removelast_last x Hne) at 2. rewrite app_nth1; auto.
          pose proof (app_removelast_last x Hne) as E. apply (f_equal (@length _)) in E.
          rewrite app_length in E. simpl in E, Hi |- *. lia. }
        change (nth (S i) (x :: m0 :: M0) x) with (nth i (m0 :: M0) x).
        change (nth i (m0 :: M0) x = nth i (removelast (m0 :: M0)) x).
        symmetry. apply Hr. simpl length in *. lia. }
  destruct (min_heapify_any g M1 0) as
    (g' & M2 & E & Hst2 & HP2 & Hsz & Hal2 & Hu & Hhp); auto.
  rewrite E. cbn [bind]. exists g', M2. split; [reflexivity|]. split; auto.
  split; [now rewrite HP2|]. auto.
Qed.

(** The first position whose content passes the test. *)
Lemma search_ok : forall h M f, stores k1 k2 h M ->
  forall i d, i < length M -> f (nth i M d) = true ->
  (forall j, j < i -> f (nth j M d) = false) ->
  search_heap_item h f = Ok (Some i).
Proof.
  intros h M f Hst i d Hi Hf Hb. pose proof Hst as (Hs & Hle & Hal & Hfn).
  unfold search_heap_item, find_up. rewrite Nat.sub_0_r.
  assert (G : forall n lo, lo <= i -> i < lo + n -> lo + n <= h_size h ->
    find_loop n lo (fun n0 => bind (rd (h_cells h) n0) (fun hi =>
       match hi with None => UB | Some hi => Ok (f (content hi)) end)) = Ok (Some i)).
  { induction n as [|n IH]; intros lo H1 H2 H3; [lia|]. cbn [find_loop].
    rewrite (rd_ok _ (h_cells h) lo None) by lia. cbn [bind].
    rewrite (stores_at k1 k2 h M lo d) by (auto; lia). cbn [cell_of content bind].
    destruct (Nat.eq_dec lo i) as [->|NE].
    - now rewrite Hf.
    - rewrite Hb by lia. apply IH; lia. }
  apply G; lia.
Qed.

Lemma get_item_ok : forall h M i d, stores k1 k2 h M -> i < length M ->
  get_heap_item h (Z.of_nat i) = Ok (Some (nth i M d)).
Proof.
  intros h M i d Hst Hi. pose proof Hst as (Hs & Hle & Hal & Hf). unfold get_heap_item.
  destruct (Z.ltb_spec (Z.of_nat i) 0); [lia|].
  destruct (Z.leb_spec (Z.of_nat (h_size h)) (Z.of_nat i)); [lia|]. cbn [orb].
  rewrite Nat2Z.id. rewrite (rd_ok _ (h_cells h) i None) by lia. cbn [bind].
  rewrite (stores_at k1 k2 h M i d) by auto. reflexivity.
Qed.

End Weak.
