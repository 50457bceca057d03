(** * Proofs about memory: series (C83) *)
From Coq Require Import Permutation.
From Verif Require Import Base BaseProofs HeapProofs MemoryModel MemorySpec MemoryProofs MemoryProofs2 MemoryProofs3 MemoryProofs4 MemoryProofs5.
Import ListNotations.
Open Scope nat_scope.
Local Open Scope res_scope.

Definition ptrs (l : list nat) : block := map (fun a => P (Some a)) l.

Lemma ptrs_tail : forall l n t, length l = t -> nth_error (ptrs l ++ repeat (P None) (S n)) t = Some (P None).
Proof. intros l n t H. apply nth_tail. unfold ptrs. rewrite map_length. exact H. Qed.
Lemma ptrs_set : forall l n t y, length l = t -> set_nth (ptrs l ++ repeat (P None) (S n)) t (P (Some y)) = ptrs (l ++ [y]) ++ repeat (P None) n.
Proof. intros l n t y H. rewrite set_tail by (unfold ptrs; rewrite map_length; exact H). unfold ptrs. rewrite map_app. reflexivity. Qed.
Lemma ptrs_length : forall l n t, length l = t -> t < length (ptrs l ++ repeat (P None) (S n)).
Proof. intros l n t H. rewrite app_length, repeat_length. unfold ptrs. rewrite map_length. lia. Qed.
Lemma addresses_nil : forall g, addresses g [] -> g = [].
Proof. intros x X. unfold addresses in X. apply Permutation_sym, Permutation_nil in X. destruct x; [reflexivity|discriminate]. Qed.

(** ** Time series *)
Lemma rows_ok : forall m f d n width, heap_is m ((d, repeat (P None) n) :: f) ->
  exists m' rs gr, rows m (Some d) n width = Ok m' /\ length rs = n /\ addresses gr rs /\ heap_is m' ((d, ptrs rs) :: gr ++ f).
Proof.
  intros m f d n width H. unfold rows.
  destruct (for_up_inv memory (fun t m => exists rs gr, length rs = t /\ addresses gr rs /\
      heap_is m ((d, ptrs rs ++ repeat (P None) (n - t)) :: gr ++ f))
    (fun t m => let '(m, r) := calloc m (N 0) width in store m (Some d) t (P (Some r))) 0 n m) as (m' & E & rs & gr & L & HA & HH).
  - lia.
  - exists [], []. split; [reflexivity|]. split; [apply Permutation_refl|]. rewrite Nat.sub_0_r. exact H.
  - intros t mt Ht (rs & gr & L & HA & HM). al HM. replace (n - t) with (S (n - S t)) in HM by lia.
    front HM d. destruct (store_ok _ _ d _ t (P (Some a)) HM (ptrs_length _ _ _ L)) as (m' & E & H' & _). exists m'. split; [exact E|].
    rewrite ptrs_set in H' by exact L. exists (rs ++ [a]). eexists ((a, _) :: gr). split; [rewrite app_length; cbn; lia|].
    split; [unfold addresses in *; cbn [map fst]; eapply perm_trans; [apply perm_skip; exact HA|apply Permutation_cons_append]|].
    cbn [app]. eapply heap_perm; [|exact H']. perm.
  - exists m', rs, gr. rewrite Nat.sub_diag in HH. cbn [repeat] in HH. rewrite app_nil_r in HH. auto.
Qed.

Definition ser (y : nat) (g : fp) : Prop :=
  exists n hid obs dat gh go gd, g = (y, [N n; P hid; P obs; P dat]) :: gh ++ go ++ gd /\
    addresses gh (opt hid) /\ addresses go (opt obs) /\
    match dat with
    | None => gd = []
    | Some d => exists rs gr, gd = (d, ptrs rs) :: gr /\ length rs = n /\ addresses gr rs
    end.

Lemma new_timeseries_ok : forall m f hidden observed n, heap_is m f ->
  exists m' y g, new_timeseries m hidden observed n = Ok (m', Some y) /\ ser y g /\ heap_is m' (g ++ f).
Proof.
  intros m f hidden observed n H. unfold new_timeseries. cbv zeta. al H. st H. st H. st H. st H.
  match goal with |- context [bind ?X _] =>
    assert (Y : exists m' hid gh, X = Ok m' /\ addresses gh (opt hid) /\ heap_is m' ((a, [N n; P hid; P None; P None]) :: gh ++ f)) end.
  { destruct hidden as [h|].
    - al H. last_store H a. eexists _, (Some a0), [(a0, _)]. split; [reflexivity|]. split; [apply Permutation_refl|]. cbn [app]. exact H.
    - eexists _, None, []. split; [reflexivity|]. split; [apply Permutation_refl|exact H]. }
  destruct Y as (m5 & hid & gh & E & HA & H'). rewrite E. cbn [bind]. clear E H. rename H' into H.
  destruct observed as [|ob].
  - cbn [bind]. eexists _, a, ((a, _) :: gh). split; [reflexivity|]. split; [|exact H].
    exists n, hid, None, None, gh, [], []. split; [rewrite !app_nil_r; reflexivity|]. split; [exact HA|]. split; [apply Permutation_refl|reflexivity].
  - set (z := S ob). al H. st H. al H. st H. gp H.
    front H a1. destruct (rows_ok _ _ a1 n z H) as (m80 & rs & gr & E & L & HR & H'). rewrite E. cbn [bind].
    eexists _, a, ((a, _) :: gh ++ [(a0, _)] ++ (a1, ptrs rs) :: gr). split; [reflexivity|]. split.
    2:{ eapply heap_perm; [|exact H']. cbn [app]. perm. }
    exists n, hid, (Some a0), (Some a1). eexists gh, [(a0, _)], _. split; [reflexivity|]. split; [exact HA|]. split; [apply Permutation_refl|].
    exists rs, gr. auto.
Qed.

Lemma free_timeseries_ok : forall m f y g, ser y g -> heap_is m (g ++ f) -> exists m', free_timeseries m (Some y) = Ok m' /\ heap_is m' f.
Proof.
  intros m f y g (n & hid & obs & dat & gh & go & gd & E & AH & AO & AD) H. subst g. cbn [app] in H. unfold free_timeseries. gp H.
  match goal with |- context [bind ?X _] =>
    assert (Y : exists m', X = Ok m' /\ heap_is m' ((y, [N n; P hid; P obs; P dat]) :: gh ++ go ++ f)) end.
  { destruct dat as [d|].
    - destruct AD as (rs & gr & -> & L & AR). gn H. rewrite <- L.
      match type of H with heap_is ?M ?F =>
        eapply (heap_perm M F ((d, _) :: ((y, _) :: gh ++ go ++ f) ++ gr)) in H; [|cbn [app]; perm] end.
      rewrite <- (app_nil_r rs) in AR.
      destruct (free_strings d _ rs _ gr [] AR H) as (m1 & b1 & E & A1 & H1). rewrite E. cbn [bind]. rewrite (addresses_nil _ A1) in H1.
      clear H E. rename H1 into H. rewrite app_nil_r in H. 
      destruct (free_ok _ _ d _ H) as (m' & E & H' & _). exists m'. split; [exact E|rewrite ?L; exact H'].
    - subst gd. exists m. split; [reflexivity|]. eapply heap_perm; [|exact H]. cbn [app]. perm. }
  destruct Y as (m1 & E & H'). rewrite E. cbn [bind]. clear E H. rename H' into H. gp H.
  rewrite <- (app_nil_r (opt hid)) in AH. fo H AH hid. rewrite (addresses_nil _ AH), app_nil_r in H. gp H.
  rewrite <- (app_nil_r (opt obs)) in AO. fo H AO obs. rewrite (addresses_nil _ AO), app_nil_r in H.
  front H y. destruct (free_ok _ _ y _ H) as (m' & E & H' & _). exists m'. split; [exact E|exact H'].
Qed.

(** ** Uncertain series *)
Definition row_blocks (R : list (nat * list nat)) : fp := map (fun x => (fst x, ptrs (snd x))) R.
Definition cells (R : list (nat * list nat)) : list nat := flat_map snd R.
Definition unc_of (u k n : nat) (g : fp) : Prop :=
  exists a d ba R gc, g = (u, [N k; P (Some a); N n; P (Some d)]) :: (a, ba) :: (d, ptrs (map fst R)) :: row_blocks R ++ gc /\
    length R = n /\ Forall (fun x => length (snd x) = k) R /\ addresses gc (cells R).
Definition unc (u : nat) (g : fp) : Prop := exists k n, unc_of u k n g.

Lemma fill_row : forall m f d r t cards db, heap_is m ((d, db) :: (r, repeat (P None) (length cards)) :: f) -> nth_error db t = Some (P (Some r)) ->
  exists m' cs gc, for_up 0 (length cards) (fun i m =>
      let* n := rd cards i in
      let* r := ptr m (Some d) t in
      let '(m, x) := calloc m (N 0) n in
      store m r i (P (Some x))) m = Ok m' /\ length cs = length cards /\ addresses gc cs /\ heap_is m' ((d, db) :: (r, ptrs cs) :: gc ++ f).
Proof.
  intros m f d r t cards db H ED.
  match goal with |- context [for_up 0 _ ?b m] =>
    destruct (for_up_inv memory (fun i m => exists cs gc, length cs = i /\ addresses gc cs /\
      heap_is m ((d, db) :: (r, ptrs cs ++ repeat (P None) (length cards - i)) :: gc ++ f)) b 0 (length cards) m) as (m' & E & cs & gc & L & HA & HH) end.
  - lia.
  - exists [], []. split; [reflexivity|]. split; [apply Permutation_refl|]. rewrite Nat.sub_0_r. exact H.
  - intros i mt Hi (cs & gc & L & HA & HM).
    rewrite (rd_ok _ cards i 0) by lia. cbn [bind]. rewrite (ptr_ok mt _ d db t (Some r) HM (or_introl eq_refl) ED). cbn [bind]. al HM.
    replace (length cards - i) with (S (length cards - S i)) in HM by lia. front HM r. destruct (store_ok _ _ r _ i (P (Some a)) HM (ptrs_length _ _ _ L)) as (m' & E & H' & _). exists m'. split; [exact E|].
    rewrite ptrs_set in H' by exact L. exists (cs ++ [a]). eexists ((a, _) :: gc). split; [rewrite app_length; cbn; lia|].
    split; [unfold addresses in *; cbn [map fst]; eapply perm_trans; [apply perm_skip; exact HA|apply Permutation_cons_append]|].
    cbn [app]. eapply heap_perm; [|exact H']. perm.
  - exists m', cs, gc. rewrite Nat.sub_diag in HH. cbn [repeat] in HH. rewrite app_nil_r in HH. auto.
Qed.

Lemma new_uncertainseries_of : forall m f cards n, heap_is m f ->
  exists m' u g, new_uncertainseries m cards n = Ok (m', Some u) /\ unc_of u (length cards) n g /\ heap_is m' (g ++ f).
Proof.
  intros m f cards n H. unfold new_uncertainseries. cbv zeta. al H. al H. st H. st H. st H. al H. st H. gp H.
  match type of H with heap_is ?M ((_, ?B) :: _) => set (bu := B) in * end.
  match type of H with context [(a0, ?B)] => set (ba := B) in * end.
  match goal with |- context [for_up 0 n ?b ?M] =>
    destruct (for_up_inv memory (fun t m => exists R gc, length R = t /\ Forall (fun x => length (snd x) = length cards) R /\ addresses gc (cells R) /\
      heap_is m ((a1, ptrs (map fst R) ++ repeat (P None) (n - t)) :: (a, bu) :: (a0, ba) :: row_blocks R ++ gc ++ f)) b 0 n M)
      as (m' & E & R & gc & L & HF & HA & HH) end.
  - lia.
  - exists [], []. split; [reflexivity|]. split; [constructor|]. split; [apply Permutation_refl|]. rewrite Nat.sub_0_r. cbn [map ptrs app row_blocks].
    eapply heap_perm; [|exact H]. perm.
  - intros t mt Ht (R & gc & L & HF & HA & HM). al HM. replace (n - t) with (S (n - S t)) in HM by lia. front HM a1.
    assert (L' : length (map fst R) = t) by (rewrite map_length; exact L).
    rename a2 into r.
    destruct (store_ok _ _ a1 _ t (P (Some r)) HM (ptrs_length _ _ _ L')) as (mu & E & H' & _). rewrite E. cbn [bind]. clear E.
    rewrite ptrs_set in H' by exact L'. 
    match type of H' with heap_is ?M ?F => eapply (heap_perm M F ((a1, _) :: (r, _) :: _)) in H'; [|apply perm_skip; pull] end.
    destruct (fill_row mu _ a1 r t cards _ H') as (m' & cs & gc' & E & LC & AC & HC).
    { unfold ptrs. rewrite nth_error_app1 by (rewrite map_length, app_length; cbn; lia). rewrite nth_error_map.
      rewrite nth_error_app2 by lia. rewrite L', Nat.sub_diag. reflexivity. }
    exists m'. split; [exact E|]. exists (R ++ [(r, cs)]), (gc ++ gc'). split; [rewrite app_length; cbn; lia|].
    split; [apply Forall_app; split; [exact HF|constructor; [exact LC|constructor]]|].
    split.
    + unfold addresses, cells in *. rewrite flat_map_app, map_app. cbn [flat_map snd]. rewrite app_nil_r. apply Permutation_app; assumption.
    + rewrite map_app. cbn [map fst]. unfold row_blocks in *. rewrite map_app. cbn [map fst snd]. eapply heap_perm; [|exact HC]. perm.
  - rewrite E. cbn [bind]. rewrite Nat.sub_diag in HH. cbn [repeat] in HH. rewrite app_nil_r in HH.
    exists m', a, ((a, bu) :: (a0, ba) :: (a1, ptrs (map fst R)) :: row_blocks R ++ gc). split; [reflexivity|]. split.
    2:{ eapply heap_perm; [|exact HH]. cbn [app]. perm. }
    exists a0, a1, ba, R, gc. split; [reflexivity|]. split; [exact L|]. split; [exact HF|exact HA].
Qed.
Lemma new_uncertainseries_ok : forall m f cards n, heap_is m f ->
  exists m' u g, new_uncertainseries m cards n = Ok (m', Some u) /\ unc u g /\ heap_is m' (g ++ f).
Proof. intros m f cards n H. destruct (new_uncertainseries_of m f cards n H) as (m' & u & g & E & U & H'). exists m', u, g. unfold unc. eauto. Qed.

Lemma free_row : forall m f d db r cs gc l t, heap_is m ((d, db) :: (r, ptrs cs) :: f ++ gc) -> addresses gc (cs ++ l) ->
  nth_error db t = Some (P (Some r)) ->
  exists m' gc', for_up 0 (length cs) (fun i m => let* r := ptr m (Some d) t in let* x := ptr m r i in free m x) m = Ok m' /\
    addresses gc' l /\ heap_is m' ((d, db) :: (r, ptrs cs) :: f ++ gc').
Proof.
  intros m f d db r cs gc l t H HA ED.
  match goal with |- context [for_up 0 _ ?b m] =>
    destruct (for_up_inv memory (fun i m => exists gc', addresses gc' (skipn i cs ++ l) /\
      heap_is m ((d, db) :: (r, ptrs cs) :: f ++ gc')) b 0 (length cs) m) as (m' & E & gc' & HB & HH) end.
  - lia.
  - exists gc. split; assumption.
  - intros i mt Hi (gc' & HB & HM). destruct (nth_error cs i) as [x|] eqn:EX; [|apply nth_error_None in EX; lia].
    rewrite (ptr_ok mt _ d db t (Some r) HM (or_introl eq_refl) ED). cbn [bind].
    rewrite (ptr_ok mt _ r (ptrs cs) i (Some x) HM (or_intror (or_introl eq_refl))) by (unfold ptrs; rewrite nth_error_map, EX; reflexivity). cbn [bind].
    assert (SK : skipn i cs = x :: skipn (S i) cs).
    { clear -EX. revert i EX. induction cs as [|y q IH]; intros [|t] EX; try discriminate.
      - injection EX as ->. reflexivity.
      - cbn in EX |- *. apply IH. exact EX. }
    rewrite SK in HB. destruct (free_one mt ((d, db) :: (r, ptrs cs) :: f) gc' x _ HB HM) as (m' & b2 & E & HB2 & HM2).
    exists m'. split; [exact E|]. exists b2. split; [exact HB2|exact HM2].
  - exists m', gc'. split; [exact E|]. rewrite skipn_all in HB. split; assumption.
Qed.

Lemma free_uncertainseries_ok : forall m f u g, unc u g -> heap_is m (g ++ f) -> exists m', free_uncertainseries m (Some u) = Ok m' /\ heap_is m' f.
Proof.
  intros m f u g (k & n & a & d & ba & R & gc & E & L & HF & HA) H. subst g. cbn [app] in H. unfold free_uncertainseries. gn H. gp H.
  match goal with |- context [for_up 0 n ?b m] =>
    destruct (for_up_inv memory (fun t m => exists gc', addresses gc' (cells (skipn t R)) /\
      heap_is m ((u, [N k; P (Some a); N n; P (Some d)]) :: (a, ba) :: (d, ptrs (map fst R)) :: row_blocks (skipn t R) ++ gc' ++ f)) b 0 n m)
      as (m' & E & gc' & HB & HH) end.
  - lia.
  - exists gc. split; [exact HA|]. cbn [skipn]. eapply heap_perm; [|exact H]. perm.
  - intros t mt Ht (gc' & HB & HM). destruct (nth_error R t) as [(r, cs)|] eqn:EX; [|apply nth_error_None in EX; lia].
    assert (SK : skipn t R = (r, cs) :: skipn (S t) R).
    { clear -EX. revert t EX. induction R as [|y q IH]; intros [|t] EX; try discriminate.
      - injection EX as ->. reflexivity.
      - cbn in EX |- *. apply IH. exact EX. }
    rewrite SK in HB, HM. cbn [row_blocks map fst snd app] in HM. fold (row_blocks (skipn (S t) R)) in HM. cbn [cells flat_map snd] in HB.
    gn HM.
    assert (LC : length cs = k). { rewrite Forall_forall in HF. apply (HF (r, cs)). eapply nth_error_In. exact EX. }
    rewrite <- LC.
    match type of HM with heap_is ?M ?F =>
      eapply (heap_perm M F ((d, _) :: (r, _) :: ((u, _) :: (a, ba) :: row_blocks (skipn (S t) R) ++ f) ++ gc')) in HM; [|cbn [app]; perm] end.
    assert (ED : nth_error (ptrs (map fst R)) t = Some (P (Some r))).
    { unfold ptrs. rewrite !nth_error_map, EX. reflexivity. }
    destruct (free_row mt _ d _ r cs gc' _ t HM HB ED) as (m1 & g1 & E1 & A1 & H1). rewrite E1. cbn [bind].
    rewrite (ptr_ok m1 _ d _ t (Some r) H1 (or_introl eq_refl) ED). cbn [bind]. cbn [app] in H1. front H1 r.
    destruct (free_ok _ _ r _ H1) as (m2 & E2 & H2 & _). exists m2. split; [exact E2|]. exists g1. split; [exact A1|].
    eapply heap_perm; [|exact H2]. rewrite LC. perm.
  - rewrite E. cbn [bind]. rewrite <- L in HB, HH. rewrite skipn_all in HB, HH. rewrite (addresses_nil _ HB) in HH. cbn [row_blocks map app] in HH. clear H. rename HH into H.
    gp H. fr H. gp H. fr H. front H u. destruct (free_ok _ _ u _ H) as (m2 & E2 & H2 & _). exists m2. split; [exact E2|exact H2].
Qed.
