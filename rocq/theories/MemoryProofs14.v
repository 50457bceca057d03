(** * Proofs about memory: lists of strings (C89) *)
From Coq Require Import Permutation String Ascii.
From Verif Require Import Base BaseProofs HeapProofs MemoryModel MemorySpec MemoryProofs MemoryProofs2 MemoryProofs3 MemoryProofs4 MemoryProofs5 MemoryProofs10.
From Verif Require Import SeriesFileModel MemoryModel2.
Import ListNotations.
Open Scope nat_scope.
Local Open Scope list_scope.
Local Open Scope res_scope.
Local Notation len := List.length.

(** A list at [l] with the links and strings [xs]; the strings are not in it. *)
Definition lst (l : nat) (xs : list (nat * nat)) : fp :=
  (l, [N (len xs); P (hd_or xs None); P (last_or None xs)]) :: seg None xs None.

Lemma new_string_list_ok : forall m f, heap_is m f ->
  exists m' l, mem_new_string_list m = Ok (m', Some l) /\ heap_is m' (lst l [] ++ f).
Proof.
  intros m f H. unfold mem_new_string_list. al H. st H. st H. st H. eexists _, a. split; [reflexivity|exact H].
Qed.

Lemma prepend_string_ok : forall m f l xs s, heap_is m (lst l xs ++ f) ->
  exists m' ln, mem_prepend_string m (Some l) (Some s) = Ok m' /\ heap_is m' (lst l ((ln, s) :: xs) ++ f).
Proof.
  intros m f l xs s H. unfold mem_prepend_string, lst in *. cbn [app] in H. al H. st H. st H. gp H. st H.
  destruct xs as [|(y, ys) r].
  - cbn [last_or hd_or seg app] in *. gp H. st H. st H. gn H. last_store H l. eexists _, a. split; [reflexivity|]. cbn [List.length seg hd_or last_or app].
    eapply heap_perm; [|exact H]. perm.
  - cbn [last_or hd_or seg app List.length] in *.
    assert (E : exists z, last_or (Some y) r = Some z).
    { clear. revert y. induction r as [|(a, b) r IH]; intros y; [exists y; reflexivity|]. cbn. apply IH. }
    destruct E as (z & E). rewrite E in H |- *. gp H. gp H. st H. st H. gn H. last_store H l. eexists _, a. split; [reflexivity|].
    cbn [List.length seg hd_or last_or app]. rewrite ?E. eapply heap_perm; [|exact H]. perm.
Qed.

Lemma to_array_ok : forall m f l xs, heap_is m (lst l xs ++ f) ->
  exists m' x g, mem_string_list_to_array m (Some l) = Ok (m', x) /\
    match x with None => xs = [] /\ g = [] | Some a => g = [(a, ptrs (map snd xs))] end /\
    heap_is m' (lst l xs ++ g ++ f).
Proof.
  intros m f l xs H. unfold mem_string_list_to_array. unfold lst in H |- *. cbn [app] in *.
  rewrite (num_ok m _ l _ S_length (len xs) H (or_introl eq_refl) eq_refl). cbn [bind].
  destruct (Nat.eqb (len xs) 0) eqn:EX.
  { apply Nat.eqb_eq in EX. exists m, None, []. split; [reflexivity|]. split; [split; [destruct xs; [reflexivity|discriminate]|reflexivity]|exact H]. }
  al H. front H l. rewrite (ptr_ok _ _ l _ S_first (hd_or xs None) H (or_introl eq_refl) eq_refl). cbn [bind].
  match type of H with context [(l, ?B)] => set (bl := B) in * end.
  match goal with |- context [for_up 0 _ ?b (?M, _)] =>
    destruct (for_up_inv (memory * option nat) (fun t '(m, ln) => ln = hd_or (skipn t xs) None /\
      heap_is m ((a, ptrs (map snd (firstn t xs)) ++ repeat (P None) (len xs - t)) :: (l, bl) :: seg None xs None ++ f)) b 0 (len xs) (M, hd_or xs None))
      as ((m' & ln') & E & _ & HH) end.
  - lia.
  - split; [reflexivity|]. cbn [firstn map ptrs app]. rewrite Nat.sub_0_r. eapply heap_perm; [|exact H]. perm.
  - intros t (mt, ln) Ht (-> & HM). 
    destruct (nth_error xs t) as [(y, s)|] eqn:EY; [|apply nth_error_None in EY; lia].
    destruct (nth_error_split xs t EY) as (pre & post & E1 & E2).
    assert (SK : skipn t xs = (y, s) :: post).
    { rewrite E1, skipn_app, skipn_all2 by lia. rewrite <- E2, Nat.sub_diag. reflexivity. }
    assert (SK' : skipn (S t) xs = post).
    { rewrite E1, skipn_app, skipn_all2 by lia. replace (S t - len pre) with 1 by lia. reflexivity. }
    assert (FN : firstn t xs = pre).
    { rewrite E1, firstn_app, E2, Nat.sub_diag. rewrite <- E2, firstn_all. apply app_nil_r. }
    assert (FN' : firstn (S t) xs = pre ++ [(y, s)]).
    { rewrite E1, firstn_app. rewrite firstn_all2 by lia. replace (S t - len pre) with 1 by lia. reflexivity. }
    rewrite SK, SK', FN'. rewrite FN in HM. cbn [hd_or].
    assert (SG : seg None xs None = seg None pre (Some y) ++ (y, [P (Some s); P (hd_or post None); P (last_or None pre)]) :: seg (Some y) post None).
    { rewrite E1, seg_app. reflexivity. }
    rewrite SG in HM |- *. clear SG.
    rewrite <- app_assoc in HM. cbn [app] in HM. gp HM. replace (len xs - t) with (S (len xs - S t)) in HM by lia. front HM a.
    destruct (store_ok _ _ a _ t (P (Some s)) HM) as (m' & E & H' & _).
    { rewrite app_length, repeat_length. unfold ptrs. rewrite !map_length. lia. }
    rewrite E. cbn [bind]. gp H'. eexists. split; [reflexivity|]. split; [reflexivity|].
    rewrite ptrs_set in H' by (rewrite map_length; exact E2). rewrite map_app. cbn [map snd].
    eapply heap_perm; [|exact H']. rewrite <- app_assoc. cbn [app]. perm.
  - rewrite E. cbn [bind]. exists m', (Some a). eexists. split; [reflexivity|]. split; [reflexivity|].
    rewrite firstn_all, Nat.sub_diag in HH. cbn [repeat] in HH. rewrite app_nil_r in HH. cbn [app].
    eapply heap_perm; [|exact HH]. perm.
Qed.

Lemma empty_links_ok : forall pre m f ya b fuel, heap_is m (seg None pre (Some ya) ++ (ya, b) :: f) -> len pre < fuel ->
  exists m' b' z, mem_empty_links fuel m (last_or None pre) = Ok m' /\ hd_or pre (Some ya) = Some z /\ heap_is m' ((z, b') :: f).
Proof.
  induction pre as [|(z, s) pre IH] using rev_ind; intros m f ya b fuel H L.
  - destruct fuel as [|fuel]; [lia|]. exists m, b, ya. auto.
  - rewrite app_length in L. cbn [List.length] in L. destruct fuel as [|fuel]; [lia|].
    rewrite last_or_app. cbn [mem_empty_links]. rewrite seg_app in H. cbn [hd_or seg] in H. rewrite <- app_assoc in H. cbn [app] in H.
    gp H. fr H. gp H. destruct (IH _ f z _ fuel ltac:(eapply heap_perm; [|exact H]; perm) ltac:(lia)) as (m' & b' & y & E & EH & H').
    exists m', b', y. split; [exact E|]. split; [|exact H']. destruct pre as [|(u, v) pre]; exact EH.
Qed.

Lemma empty_list_ok : forall m f l xs, heap_is m (lst l xs ++ f) ->
  exists m', mem_empty_string_list m (Some l) = Ok m' /\ heap_is m' (lst l [] ++ f).
Proof.
  intros m f l xs H. assert (LL := heap_length _ _ H). unfold mem_empty_string_list, lst in *. cbn [app] in H, LL.
  assert (CASE : xs = [] \/ exists pre y s, xs = pre ++ [(y, s)]).
  { destruct xs as [|x xs] using rev_ind; [left; reflexivity|]. right. destruct x as [y s]. exists xs, y, s. reflexivity. }
  assert (LX : len xs < len m). { cbn [List.length] in LL. rewrite app_length, seg_length in LL. lia. } clear LL.
  gp H. front H l.
  destruct (store_ok _ _ l _ S_last (P None) H) as (m1 & E & H1 & L1); [cbv; lia|]. rewrite E. cbn [bind]. clear E H. rename H1 into H. fields.
  destruct CASE as [->|(pre & y & s & ->)].
  - cbn [hd_or last_or seg app mem_empty_links bind] in *. gp H. cbn [free bind]. st H. last_store H l. eexists. split; [reflexivity|exact H].
  - rewrite last_or_app. cbn [mem_empty_links]. rewrite seg_app in H. cbn [hd_or seg] in H. rewrite <- app_assoc in H. cbn [app] in H.
    gp H. cbn [free bind]. rewrite (ptr_ok _ _ y _ L_bwd (last_or None pre) H (or_introl eq_refl) eq_refl). cbn [bind]. rewrite app_length in LX. cbn [List.length] in LX.
    match type of H with heap_is _ ((_, ?B) :: _) => set (by_ := B) in * end.
    match type of H with context [(l, ?B)] => set (bl := B) in * end.
    destruct (empty_links_ok pre m1 ((l, bl) :: f) y by_ (len m1)) as (m2 & b' & z & E & EH & H2).
    { eapply heap_perm; [|exact H]. perm. }
    { lia. }
    rewrite E. cbn [bind]. clear E H. rename H2 into H. unfold bl in H.
    assert (EH' : hd_or (pre ++ [(y, s)]) None = Some z). { destruct pre as [|(u, v) pre]; exact EH. }
    rewrite EH' in H. gp H. fr H. st H. last_store H l. eexists. split; [reflexivity|exact H].
Qed.
