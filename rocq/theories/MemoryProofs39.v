(** * Memory of nipbenchmark and nipconvert (C96) *)
From Coq Require Import Permutation String Ascii.
From Verif Require Import Base BaseProofs HeapProofs VariableModel VariableSpec JoinTreeModel NipModel NipSpec SliceSpec NipProofs3 SeriesFileModel ParseModel ParseSpec PropertiesParse MemoryModel MemorySpec MemoryProofs MemoryProofs2 MemoryProofs3 MemoryProofs4 MemoryProofs5 MemoryProofs6 MemoryProofs10 MemoryProofs12 MemoryProofs13 MemoryModel2 MemorySpec2 MemoryProofs15 MemoryProofs17 MemoryModel3 MemorySpec3 MemoryProofs20 MemoryModel4 MemorySpec4 MemoryModel5 MemoryProofs25 MemoryProofs26 MemoryProofs30 MemoryProofs32 MemoryProofs33 MemoryProofs34 MemoryProofs35 MemoryModel6 MemorySpec6 MemoryProofs36 MemoryProofs37 MemoryProofs38 MemoryModel7 MemorySpec7.
Import ListNotations.
Open Scope nat_scope.
Local Open Scope res_scope.
Local Open Scope list_scope.
Local Notation len := List.length.

(** ** The series without one *)
Definition without {A} (l : list A) (i : nat) : list A := firstn i l ++ skipn (S i) l.
Lemma without_length : forall A (l : list A) i, i < len l -> len (without l i) = len l - 1.
Proof. intros A l i K. unfold without. rewrite app_length, firstn_length, skipn_length. lia. Qed.
Lemma without_nth : forall A (l : list A) i k, i < len l -> nth_error (without l i) k = nth_error l (if Nat.ltb k i then k else S k).
Proof.
  intros A l i k K. unfold without. destruct (Nat.ltb_spec k i) as [L|L].
  - rewrite nth_error_app1 by (rewrite firstn_length; lia). revert i k K L. induction l as [|z l IH]; intros i k K L; [cbn in K; lia|]. destruct i; [lia|]. destruct k; [reflexivity|].
    cbn [firstn nth_error]. apply IH; cbn in K; lia.
  - rewrite nth_error_app2 by (rewrite firstn_length; lia). rewrite firstn_length, Nat.min_l by lia. replace (S k) with (S i + (k - i)) by lia. clear.
    generalize (k - i) as d. generalize (S i) as j. intros j. revert l. induction j as [|j IH]; intros l d; [reflexivity|]. destruct l as [|z l]; [destruct d; reflexivity|]. apply IH.
Qed.
Lemma without_in : forall A (l : list A) i z, In z (without l i) -> In z l.
Proof.
  intros A l i z H. unfold without in H. apply in_app_or in H. rewrite <- (firstn_skipn i l). apply in_or_app. destruct H as [H|H]; [left; exact H|right].
  revert i H. induction l as [|y l IH]; intros i H; [destruct i; exact H|]. destruct i as [|i]; [right; exact H|]. cbn [skipn] in *. apply IH. exact H.
Qed.
Lemma others_length : forall l i, i < len l -> len (others l i) = len l - 1.
Proof. intros l i K. exact (without_length _ l i K). Qed.
Lemma list_ext : forall A (l r : list A), (forall k, nth_error l k = nth_error r k) -> l = r.
Proof. induction l as [|z l IH]; intros [|y r] H; [reflexivity|discriminate (H 0)|discriminate (H 0)|]. f_equal; [specialize (H 0); cbn in H; congruence|]. apply IH. intros k. exact (H (S k)). Qed.

Lemma leave_ok : forall m F set loo ys lb i, heap_is m ((loo, lb) :: F) -> In (set, ptrs ys) F -> len lb = len ys - 1 -> i < len ys ->
  exists m', leave_one_out m (Some set) (Some loo) (len ys) i = Ok m' /\ heap_is m' ((loo, ptrs (without ys i)) :: F).
Proof.
  intros m F set loo ys lb i H IS L K. unfold leave_one_out. set (b := ptrs (without ys i)).
  assert (NB : forall k y, nth_error ys (if Nat.ltb k i then k else S k) = Some y -> nth_error b k = Some (P (Some y))).
  { intros k y E. unfold b, ptrs. rewrite nth_error_map, without_nth, E by exact K. reflexivity. }
  assert (LB : len b = len ys - 1) by (unfold b, ptrs; rewrite map_length; apply without_length; exact K).
  match goal with |- context [for_up 0 _ ?body m] =>
    destruct (for_up_inv memory (fun j m => exists lb, len lb = len ys - 1 /\ heap_is m ((loo, lb) :: F) /\
      forall k, k < (if Nat.leb j i then j else j - 1) -> nth_error lb k = nth_error b k) body 0 (len ys) m) as (m' & E & lb' & L' & H' & Q') end.
  - lia.
  - exists lb. split; [exact L|]. split; [exact H|]. intros k Kk. cbn in Kk. lia.
  - clear m lb H L. intros j m Kj (lb & L & H & Q). destruct (nth_error ys j) as [y|] eqn:EY; [|apply nth_error_None in EY; lia].
    assert (PY : forall m' lb', heap_is m' ((loo, lb') :: F) -> ptr m' (Some set) j = Ok (Some y)).
    { intros m' lb' H'. apply (ptr_ok m' _ set (ptrs ys) j (Some y) H'); [right; exact IS|]. unfold ptrs. rewrite nth_error_map, EY. reflexivity. }
    destruct (Nat.ltb_spec j i) as [J|J].
    + rewrite (PY m lb H). cbn [bind]. destruct (store_ok m F loo lb j (P (Some y)) H ltac:(lia)) as (m1 & E1 & H1 & _). rewrite E1. cbn [bind].
      destruct (Nat.ltb_spec i j); [lia|]. exists m1. split; [reflexivity|]. exists (set_nth lb j (P (Some y))). rewrite set_nth_length. split; [exact L|]. split; [exact H1|].
      destruct (Nat.leb_spec j i) as [J1|J1]; [|lia]. destruct (Nat.leb_spec (S j) i) as [J2|J2]; [|lia]. intros k Kk. destruct (Nat.eq_dec k j) as [->|D].
      * rewrite nth_error_set_nth_same by lia. symmetry. apply NB. destruct (Nat.ltb_spec j i); [exact EY|lia].
      * rewrite nth_error_set_nth_other by congruence. apply Q. lia.
    + cbn [bind]. destruct (Nat.ltb_spec i j) as [J3|J3].
      * rewrite (PY m lb H). cbn [bind]. destruct (store_ok m F loo lb (j - 1) (P (Some y)) H ltac:(lia)) as (m1 & E1 & H1 & _). exists m1. split; [exact E1|].
        exists (set_nth lb (j - 1) (P (Some y))). rewrite set_nth_length. split; [exact L|]. split; [exact H1|]. destruct (Nat.leb_spec j i) as [J1|J1]; [lia|]. destruct (Nat.leb_spec (S j) i) as [J2|J2]; [lia|].
        intros k Kk. destruct (Nat.eq_dec k (j - 1)) as [->|D].
        -- rewrite nth_error_set_nth_same by lia. symmetry. apply NB. destruct (Nat.ltb_spec (j - 1) i); [lia|]. replace (S (j - 1)) with j by lia. exact EY.
        -- rewrite nth_error_set_nth_other by congruence. apply Q. lia.
      * exists m. split; [reflexivity|]. exists lb. split; [exact L|]. split; [exact H|]. assert (j = i) by lia. subst j. rewrite Nat.leb_refl in Q. destruct (Nat.leb_spec (S i) i) as [J2|J2]; [lia|].
        intros k Kk. apply Q. lia.
  - exists m'. split; [exact E|]. replace b with lb'; [exact H'|]. apply list_ext. intros k. destruct (Nat.leb_spec (len ys) i) as [J|J]; [lia|].
    destruct (Nat.lt_ge_cases k (len ys - 1)) as [Kk|Kk]; [apply Q'; exact Kk|]. rewrite (proj2 (nth_error_None _ _)) by lia. symmetry. apply nth_error_None. lia.
Qed.

(** ** nipbenchmark *)
Lemma unc_blocks : forall us U, Forall2 unc us U -> 3 * len us <= len (concat U).
Proof.
  intros us U FF. induction FF as [|u h us U Q FF IH]; [apply Nat.le_refl|]. cbn [concat List.length]. rewrite app_length.
  destruct Q as (k & n & a & d & ba & R & gc & -> & _). cbn [List.length]. lia.
Qed.

Lemma series_blocks : forall ys GS, Forall2 ser ys GS -> len ys <= len (concat GS).
Proof.
  intros ys GS FF. induction FF as [|y h ys GS Q FF IH]; [apply Nat.le_refl|]. cbn [concat List.length]. rewrite app_length.
  destruct Q as (n & hid & obs & d & gh & go & gd & -> & _). cbn [List.length]. lia.
Qed.

Section Benchmark.
Variables (x : nat) (vs : list nat) (rest : fp) (names : list named_variable) (M : NipModel.model).
Hypothesis US : usable names M (len vs).
Variables (a results loo : nat) (ys : list nat) (GS : list fp) (nobs : list nat) (families : nat -> list nat).
Hypothesis FY : Forall2 ser ys GS.
Hypothesis LN : len nobs = len ys.
Let I (F : fp) := exists F1, F = concat GS ++ F1 /\ holds x vs rest F1.

Lemma bench_series : forall l, Forall (fun y => In (fst y) ys) l -> Forall (fun y : nat * nat => series_ok I (fst y)) l.
Proof.
  intros l FL. eapply Forall_impl; [|exact FL]. intros (y, k) Hy. cbn [fst] in *. apply In_nth_error in Hy. destruct Hy as (i & EY).
  destruct (nth_pair _ _ _ i FY) as (y' & g & _ & Q & IG & EY' & _). { apply nth_error_Some. congruence. }
  assert (y' = y) by congruence. subst y'. destruct (ser_length y g Q) as (n & LY). exists n. intros F (F1 & -> & _).
  eapply length_incl; [|exact LY]. intros z Hz. apply in_or_app. left. apply IG. exact Hz.
Qed.

Lemma clear_ok : forall m curve f, owns m (mblk curve) f ->
  exists m1 c1, match b_nodes curve with [] => Ok (m, curve) | _ => empty_curve m curve end = Ok (m1, c1) /\ owns m1 (mblk c1) f.
Proof. intros m curve f O. destruct (b_nodes curve); [exists m, curve; auto|apply empty_ok; exact O]. Qed.

Lemma attempts_ok : forall rem nob T, In (loo, ptrs rem) T -> len nob = len rem -> Forall (fun y => In y ys) rem ->
  forall l m F curve, holds x vs rest F -> owns m (mblk curve) (T ++ concat GS ++ F) ->
  exists m' F' curve' ok, attempts m (Some x) (Some loo) nob (len vs) (m_out M) families curve l = Ok (m', curve', ok) /\
    holds x vs rest F' /\ owns m' (mblk curve') (T ++ concat GS ++ F').
Proof.
  intros rem nob T IT LR FR. induction l as [|b l IH]; intros m0 F c0 HO O0; cbn [attempts]; [exists m0, F, c0, true; auto|].
  destruct (clear_ok m0 c0 _ O0) as (m & curve & EC & O). rewrite EC. cbn [bind]. clear O0 EC. unfold owns in O.
  assert (H : heap_is m ((led (mblk curve) ++ T ++ concat GS) ++ F)). { rewrite <- !app_assoc. exact O. }
  rewrite (variables_at_ok x vs rest F _ m HO H _ (in_seq_lt ys nobs LN _)). cbn [bind]. rewrite (out_at x vs rest names M US F _ m HO H). cbn [bind].
  rewrite (series_at_ok loo nob m _ rem 0 O) by (first [cbn; exact LR|apply in_or_app; right; apply in_or_app; left; exact IT]). cbn [bind skipn].
  destruct (em_learn_ok I _ _ (train_maps x vs rest ys GS nobs LN) (train_parents x vs rest ys GS nobs LN) (train_out x vs rest names M US GS) (b_first b :: b_others b) (combine rem nob) m (concat GS ++ F) (led (mblk curve) ++ T) families (b_random b) (b_search b))
    as (m1 & F0 & e & E1 & (F1 & -> & HO1) & H1).
  { apply bench_series. apply Forall_forall. intros (y, k) Hy. apply in_combine_l in Hy. rewrite Forall_forall in FR. exact (FR y Hy). }
  { exists F. auto. } { rewrite <- app_assoc. exact O. }
  rewrite E1. cbn [bind].
  destruct (grow_ok (b_values b) m1 curve (T ++ concat GS ++ F1)) as (m2 & c2 & E2 & O2). { unfold owns. rewrite <- app_assoc in H1. exact H1. }
  rewrite E2. cbn [bind]. destruct e; first [exact (IH m2 F1 c2 HO1 O2)|exists m2, F1, c2, false; auto].
Qed.

Lemma rounds_ok : forall v plan w, v < len vs -> forall k i m F curve us U lb, holds x vs rest F -> i + k = len ys -> len us = i -> Forall2 unc us U -> len lb = len ys - 1 ->
  owns m (mblk curve) ((results, ptrs us ++ repeat (P None) (len ys - i)) :: (loo, lb) :: (a, ptrs ys) :: concat U ++ concat GS ++ F) ->
  exists m' F' curve' o us' U' lb', rounds k i m (Some x) (Some a) (Some results) (Some loo) (len ys) nobs (len vs) (m_out M) (Some (nth v vs 0)) families plan w curve = Ok (m', curve', o) /\
    holds x vs rest F' /\ Forall2 unc us' U' /\ match o with None => len us' = len ys | Some j => len us' = j /\ j < len ys end /\
    owns m' (mblk curve') ((results, ptrs us' ++ repeat (P None) (len ys - len us')) :: (loo, lb') :: (a, ptrs ys) :: concat U' ++ concat GS ++ F').
Proof.
  intros v plan w KV. induction k as [|k IH]; intros i m F curve us U lb HO LI LU FU LB O; cbn [rounds].
  { exists m, F, curve, None, us, U, lb. subst i. split; [reflexivity|]. split; [exact HO|]. split; [exact FU|]. split; [lia|exact O]. }
  unfold owns in O.
  destruct (leave_ok m (led (mblk curve) ++ (results, ptrs us ++ repeat (P None) (len ys - i)) :: (a, ptrs ys) :: concat U ++ concat GS ++ F) a loo ys lb i) as (m1 & E1 & H1).
  { eapply heap_perm; [|exact O]. perm. } { apply in_or_app. right. right. left. reflexivity. } { exact LB. } { lia. }
  rewrite E1. cbn [bind]. clear O E1. set (rem := without ys i) in *. set (RA := (results, ptrs us ++ repeat (P None) (len ys - i))) in *.
  assert (O1 : owns m1 (mblk curve) ((RA :: (loo, ptrs rem) :: (a, ptrs ys) :: concat U) ++ concat GS ++ F)). { unfold owns. eapply heap_perm; [|exact H1]. perm. }
  rewrite (mark_ok x vs rest F ((loo, ptrs rem) :: led (mblk curve) ++ RA :: (a, ptrs ys) :: concat U ++ concat GS) m1 HO) by (eapply heap_perm; [|exact H1]; perm). cbn [bind].
  destruct (attempts_ok rem (others nobs i) (RA :: (loo, ptrs rem) :: (a, ptrs ys) :: concat U) ltac:(right; left; reflexivity)) with (l := plan i) (m := m1) (F := F) (curve := curve) as (m2 & F2 & c2 & ok & E2 & HO2 & O2).
  { rewrite others_length by lia. unfold rem. rewrite without_length by lia. lia. }
  { apply Forall_forall. intros y Hy. exact (without_in _ ys i y Hy). } { exact HO. } { exact O1. }
  rewrite E2. cbn [bind]. clear H1 O1 E2. destruct ok.
  2:{ exists m2, F2, c2, (Some i), us, U, (ptrs rem). split; [reflexivity|]. split; [exact HO2|]. split; [exact FU|]. split; [split; [exact LU|lia]|]. unfold owns in O2 |- *. subst i. eapply heap_perm; [|exact O2]. perm. }
  destruct (nth_pair _ _ _ i FY ltac:(lia)) as (y & g & EY & Q & IG & _). unfold owns in O2.
  assert (H2 : heap_is m2 ((led (mblk c2) ++ RA :: (loo, ptrs rem) :: (a, ptrs ys) :: concat U ++ concat GS) ++ F2)). { eapply heap_perm; [|exact O2]. perm. }
  clear O2. set (W := led (mblk c2) ++ RA :: (loo, ptrs rem) :: (a, ptrs ys) :: concat U ++ concat GS) in *.
  assert (IW : incl ((a, ptrs ys) :: concat GS) (W ++ F2)).
  { intros z Hz. apply in_or_app. left. unfold W. apply in_or_app. right. right. right. destruct Hz as [<-|Hz]; [left; reflexivity|]. right. apply in_or_app. right. exact Hz. }
  rewrite (ptr_ok m2 _ a (ptrs ys) i (Some y) H2 (IW _ (or_introl eq_refl)) EY). cbn [bind].
  destruct (has_one x vs rest F2 W v HO2 KV) as (bv & id & cv & IB & EI & EC). rewrite (num_ok m2 _ _ bv V_id id H2 IB EI). cbn [bind].
  rewrite (out_at x vs rest names M US F2 W m2 HO2 H2). cbn [bind]. destruct (ser_length y g Q) as (n & LY).
  destruct (forward_backward_ok m2 _ y n [nth v vs 0] (map (fun i => nth i vs 0) (m_out M)) (w i) H2) as (m3 & u & h & E3 & Q3 & H3).
  { eapply length_incl; [|exact LY]. intros z Hz. apply IW. right. apply IG. exact Hz. }
  { constructor; [exact (has_one x vs rest F2 W v HO2 KV)|constructor]. }
  { apply (has_at x vs rest F2 _ _ HO2). exact (us_out _ _ _ US). }
  cbn [map] in E3. rewrite E3. cbn [bind].
  destruct (fill_one m3 results us (len ys) i u (h ++ led (mblk c2) ++ (loo, ptrs rem) :: (a, ptrs ys) :: concat U ++ concat GS ++ F2)) as (m4 & E4 & H4); [|exact LU|lia|].
  { eapply heap_perm; [|exact H3]. unfold W, RA. perm. }
  rewrite E4. cbn [bind]. destruct LY as (by_ & IY & EL).
  rewrite (num_ok m4 _ y by_ Y_length n H4); [cbn [bind]| |exact EL].
  2:{ right. apply in_or_app. right. apply in_or_app. right. right. right. apply in_or_app. right. apply in_or_app. left. apply IG. exact IY. }
  apply (IH (S i) m4 F2 c2 (us ++ [u]) (U ++ [h]) (ptrs rem) HO2); [lia|rewrite app_length; cbn; lia| | |].
  - apply Forall2_app; [exact FU|constructor; [exact Q3|constructor]].
  - unfold ptrs, rem. rewrite map_length. apply without_length. lia.
  - unfold owns. eapply heap_perm; [|exact H4]. rewrite concat_app. cbn [concat]. rewrite app_nil_r. perm.
Qed.
End Benchmark.

(** What is left of nipbenchmark beside the memory that any program leaves: the
    array of a single series, and the results of the rounds before the one that
    fails. *)
Lemma benchmark_body : forall x vs rest names M, usable names M (len vs) ->
  forall F m data name series valid symbol families plan w opened, holds x vs rest F -> heap_is m F -> data_with names data series ->
  exists m' o e, nipbenchmark_memory m (Some x) names M data name series valid symbol families plan w opened = Ok (m', o) /\ heap_is m' (e ++ rest) /\
    match o with
    | None => if Nat.eqb (len series) 1 then 2 <= len e else len e = empty_array data series
    | Some i => 2 <= len series /\ i < len series /\ 3 * i <= len e
    end.
Proof.
  intros x vs rest names M US F m data name series valid symbol families plan w opened HO H D. unfold nipbenchmark_memory.
  destruct (read_any m F names name data series H D) as (m1 & set & E & [(ES & e & LE & H1)|(ES & a & ys & GS & -> & LS & FY & H1)]); rewrite E; cbn [bind]; clear H E.
  { subst series. cbn [List.length Nat.ltb Nat.leb Nat.eqb]. destruct (holds_free m1 x vs rest F e HO H1) as (m2 & E2 & H2). rewrite E2. cbn [bind]. exists m2, None, e. auto. }
  rewrite (none_left data series ES). destruct (Nat.ltb_spec (len series) 2) as [K|K].
  { assert (K1 : len series = 1) by (destruct series as [|? [|? ?]]; [congruence|reflexivity|cbn in K; lia]). rewrite K1. cbn [Nat.eqb].
    destruct (holds_free m1 x vs rest F ((a, ptrs ys) :: concat GS) HO H1) as (m2 & E2 & H2). rewrite E2. cbn [bind]. eexists m2, None, _. split; [reflexivity|]. split; [exact H2|].
    assert (B := series_blocks ys GS FY). cbn [List.length]. lia. }
  destruct (Nat.eqb_spec (len series) 1) as [K1|_]; [lia|]. set (nobs := map (fun ts => len (s_observed ts)) series). assert (LN : len nobs = len ys) by (unfold nobs; rewrite map_length; exact LS).
  rewrite LS in K |- *. al H1. rename a0 into results. al H1. rename a0 into loo.
  set (lb := repeat (P None) (len ys - 1)) in *. set (rb := repeat (P None) (len ys)) in *.
  assert (HV : exists o, (if valid then m_model_variable m2 (Some x) names symbol else Ok None) = Ok (option_map (fun i => nth i vs 0) o) /\ forall i, o = Some i -> i < len vs).
  { destruct valid; [|exists None; split; [reflexivity|discriminate]]. destruct (us_find _ _ _ US symbol) as (o & EV & KO). exists o. split; [|exact KO].
    exact (find_ok x vs rest F ((loo, lb) :: (results, rb) :: (a, ptrs ys) :: concat GS) _ HO H1 names symbol o EV KO). }
  destruct HV as (o & EV & KO). rewrite EV. cbn [bind]. destruct o as [v|]; cbn [option_map].
  2:{ destruct (free_series_ok m2 ((loo, lb) :: (results, rb) :: F) a ys GS FY) as (m3 & E3 & H3). { eapply heap_perm; [|exact H1]. perm. }
      rewrite E3. cbn [bind]. destruct (free_ok m3 ((loo, lb) :: F) results rb) as (m4 & E4 & H4 & _). { eapply heap_perm; [|exact H3]. perm. }
      rewrite E4. cbn [bind]. destruct (free_ok _ _ loo _ H4) as (m5 & E5 & H5 & _). rewrite E5. cbn [bind].
      destruct (holds_free m5 x vs rest F [] HO H5) as (m6 & E6 & H6). rewrite E6. cbn [bind]. exists m6, None, []. auto. }
  specialize (KO v eq_refl).
  destruct (m_list_ok m2 None [] ((loo, lb) :: (results, rb) :: (a, ptrs ys) :: concat GS ++ F)) as (m3 & c & E3 & O3 & _). { exact H1. }
  rewrite E3. rewrite app_nil_r in O3. clear H1.
  rewrite (nvars_at x vs rest F (led (mblk c) ++ (loo, lb) :: (results, rb) :: (a, ptrs ys) :: concat GS) m3 HO) by (rewrite <- app_assoc; exact O3). cbn [bind].
  destruct (rounds_ok x vs rest names M US a results loo ys GS nobs families FY LN v plan w KO (len ys) 0 m3 F c [] [] lb HO) as (m4 & F4 & c4 & o & us & U & lb4 & E4 & HO4 & FU & LO & O4).
  { reflexivity. } { reflexivity. } { constructor. } { unfold lb. apply repeat_length. }
  { unfold owns in *. rewrite Nat.sub_0_r. change (ptrs [] ++ repeat (P None) (len ys)) with rb. change (concat [] ++ concat GS ++ F) with (concat GS ++ F). eapply heap_perm; [|exact O3]. perm. }
  rewrite E4. cbn [bind]. clear O3 E4. unfold owns in O4. destruct o as [i|].
  - destruct LO as (LU & KI). set (rb4 := ptrs us ++ _) in O4.
    destruct (free_series_ok m4 ((results, rb4) :: (loo, lb4) :: led (mblk c4) ++ concat U ++ F4) a ys GS FY) as (m5 & E5 & H5). { eapply heap_perm; [|exact O4]. perm. }
    rewrite E5. cbn [bind]. destruct (free_ok _ _ results _ H5) as (m6 & E6 & H6 & _). rewrite E6. cbn [bind]. destruct (free_ok _ _ loo _ H6) as (m7 & E7 & H7 & _). rewrite E7. cbn [bind].
    destruct (holds_free m7 x vs rest F4 (led (mblk c4) ++ concat U) HO4) as (m8 & E8 & H8). { eapply heap_perm; [|exact H7]. perm. }
    rewrite E8. cbn [bind]. destruct (empty_ok m8 c4 (concat U ++ rest)) as (m9 & c9 & E9 & O9). { unfold owns. eapply heap_perm; [|exact H8]. perm. }
    rewrite E9. cbn [bind]. destruct (m_drop_ok m9 c9 [] (concat U ++ rest)) as (m10 & E10 & H10). { rewrite app_nil_r. exact O9. }
    rewrite E10. cbn [bind]. exists m10, (Some i), (concat U). split; [reflexivity|]. split; [exact H10|]. assert (B := unc_blocks us U FU). lia.
  - rewrite LO, Nat.sub_diag in O4. cbn [repeat] in O4. rewrite app_nil_r in O4.
    destruct (write_uncertainseries_ok m4 _ results us U (nth v vs 0) opened O4) as (m5 & E5 & H5).
    { apply in_or_app. right. left. reflexivity. } { exact FU. } { intros z Hz. apply in_or_app. right. right. right. right. apply in_or_app. left. exact Hz. }
    { destruct (has_one x vs rest F4 (led (mblk c4) ++ (results, ptrs us) :: (loo, lb4) :: (a, ptrs ys) :: concat U ++ concat GS) v HO4 KO) as (bv & id & cv & IB & Q).
      exists bv, id, cv. split; [|exact Q]. apply in_app_or in IB. destruct IB as [IB|IB].
      - apply in_app_or in IB. apply in_or_app. destruct IB as [IB|IB]; [left; exact IB|right].
        destruct IB as [IB|[IB|[IB|IB]]]; [left; exact IB|right; left; exact IB|right; right; left; exact IB|]. right. right. right. apply in_app_or in IB. apply in_or_app. destruct IB as [IB|IB]; [left; exact IB|right]. apply in_or_app. left. exact IB.
      - apply in_or_app. right. right. right. right. apply in_or_app. right. apply in_or_app. right. exact IB. }
    rewrite LO in E5. rewrite E5. cbn [bind]. clear O4.
    destruct (clear_ok m5 c4 _ H5) as (m6 & c6 & E6 & O6). rewrite E6. cbn [bind].
    destruct (m_drop_ok m6 c6 [] _ ltac:(rewrite app_nil_r; exact O6)) as (m7 & E7 & H7). rewrite E7. cbn [bind app].
    destruct (free_both m7 ((loo, lb4) :: F4) a results ys GS us U FY FU LO) as (m8 & E8 & H8). { eapply heap_perm; [|exact H7]. perm. }
    rewrite E8. cbn [bind]. destruct (free_ok _ _ a _ H8) as (m9 & E9 & H9 & _). rewrite E9. cbn [bind].
    destruct (free_ok _ _ results _ H9) as (m10 & E10 & H10 & _). rewrite E10. cbn [bind]. destruct (free_ok _ _ loo _ H10) as (m11 & E11 & H11 & _). rewrite E11. cbn [bind].
    destruct (holds_free m11 x vs rest F4 [] HO4 H11) as (m12 & E12 & H12). rewrite E12. cbn [bind]. exists m12, None, []. auto.
Qed.

(** ** nipconvert *)
Lemma columns_lt : forall names M n, usable names M n -> forall symbols cols, columns names symbols = Ok cols -> Forall (fun i => i < n) (SeriesFileModel.known cols).
Proof.
  intros names M n US. induction symbols as [|s r IH]; intros cols E; cbn [columns] in E; [injection E as <-; constructor|].
  step E v Q1. step E l Q2. injection E as <-. unfold variable_called in Q1. destruct (us_find _ _ _ US (string_of_list_ascii s)) as (o & EV & KO). rewrite EV in Q1. injection Q1 as <-.
  unfold SeriesFileModel.known. cbn [flat_map]. apply Forall_app. split; [|exact (IH l Q2)]. destruct o as [i|]; [constructor; [exact (KO i eq_refl)|constructor]|constructor].
Qed.
Lemma series_observed : forall names M n, usable names M n -> forall lengths df l, read_series names df lengths = Ok l -> Forall (fun s => Forall (fun i => i < n) (s_observed s)) l.
Proof.
  intros names M n US. induction lengths as [|k r IH]; intros df l E; cbn [read_series] in E; [injection E as <-; constructor|].
  step E cols Q1. step E hidden Q2. step E p Q3. destruct p as (df', data). step E rst Q4. injection E as <-. constructor; [exact (columns_lt _ _ _ US _ _ Q1)|exact (IH _ _ Q4)].
Qed.
Lemma data_observed : forall names M n data series, usable names M n -> data_with names data series -> Forall (fun s => Forall (fun i => i < n) (s_observed s)) series.
Proof.
  intros names M n [text|] series US D; cbn [data_with] in D; [|subst series; constructor]. unfold read_timeseries in D. step D p Q1. destruct p as (df, r).
  destruct (r <? 0)%Z; [discriminate|]. step D l Q2. injection D as <-. exact (series_observed _ _ _ US _ _ _ Q2).
Qed.

(** An array that may be NULL. *)
Definition array_of (o : option nat) (g : fp) : Prop :=
  match o with None => g = [] | Some a => exists b, g = [(a, b)] end.
Lemma union_ok : forall m F k, heap_is m F -> exists m' o g, union_array m k = (m', o) /\ array_of o g /\ (k = 0 -> o = None) /\ heap_is m' (g ++ F).
Proof.
  intros m F [|k] H; cbn [union_array]; [exists m, None, []; split; [reflexivity|]; split; [reflexivity|]; split; [reflexivity|exact H]|]. al H. eexists _, _, _. split; [reflexivity|]. split; [cbn; eauto|]. split; [discriminate|exact H].
Qed.
Lemma free_array : forall m F o g, array_of o g -> heap_is m (g ++ F) -> exists m', free m o = Ok m' /\ heap_is m' F.
Proof.
  intros m F [a|] g A H; cbn [array_of] in A.
  - destruct A as (b & ->). destruct (free_ok _ _ a _ H) as (m' & E & H' & _). eauto.
  - subst g. exists m. split; [reflexivity|exact H].
Qed.
Lemma read_observed : forall m F set ys GS i, heap_is m F -> In (set, ptrs ys) F -> incl (concat GS) F -> Forall2 ser ys GS -> i < len ys ->
  exists y o, ptr m (Some set) i = Ok (Some y) /\ ptr m (Some y) Y_observed = Ok o.
Proof.
  intros m F set ys GS i H IS IG FY K. destruct (nth_pair _ _ _ i FY K) as (y & g & EY & Q & IG1 & _). destruct Q as (n & hid & obs & dat & gh & go & gd & -> & _).
  exists y, obs. split; [exact (ptr_ok m F set _ i (Some y) H IS EY)|]. apply (ptr_ok m F y [N n; P hid; P obs; P dat] Y_observed obs H); [|reflexivity]. apply IG, IG1. left. reflexivity.
Qed.

Lemma write_unary_ok : forall x vs rest F m a ys GS series opened, holds x vs rest F -> Forall2 ser ys GS -> len series = len ys -> 0 < len ys ->
  Forall (fun s => Forall (fun i => i < len vs) (s_observed s)) series -> heap_is m ((a, ptrs ys) :: concat GS ++ F) ->
  exists m', write_unary m (Some x) (Some a) series opened = Ok m' /\ heap_is m' ((a, ptrs ys) :: concat GS ++ F).
Proof.
  intros x vs rest F m a ys GS series opened HO FY LS K KO H. unfold write_unary. rewrite LS. destruct (Nat.eqb_spec (len ys) 0) as [|_]; [lia|].
  set (B := (a, ptrs ys) :: concat GS ++ F) in *.
  assert (RD : forall i m g, i < len ys -> heap_is m (g ++ B) -> exists y o, ptr m (Some a) i = Ok (Some y) /\ ptr m (Some y) Y_observed = Ok o).
  { intros i m' g Ki H'. apply (read_observed m' (g ++ B) a ys GS i H'); [apply in_or_app; right; left; reflexivity| |exact FY|exact Ki].
    intros z Hz. apply in_or_app. right. right. apply in_or_app. left. exact Hz. }
  destruct (RD 0 m [] K H) as (y & o & E1 & E2). rewrite E1. cbn [bind]. rewrite E2. cbn [bind]. clear y o E1 E2.
  destruct (union_ok m B (len (observed_in series 1)) H) as (m1 & o1 & g1 & EU & A1 & Z1 & H1). rewrite EU. clear H EU.
  match goal with |- context [for_up 1 _ ?body (m1, o1)] =>
    destruct (for_up_inv (memory * option nat) (fun i st => exists g, array_of (snd st) g /\ (len (observed_in series i) = 0 -> snd st = None) /\ heap_is (fst st) (g ++ B)) body 1 (len ys) (m1, o1)) as ((m2 & o2) & E & g2 & A2 & Z2 & H2) end.
  - lia.
  - exists g1. auto.
  - intros i (mi & oi) Ki (g & A & _ & HM). cbn [fst snd] in *. destruct (RD i mi g ltac:(lia) HM) as (y & o & E1 & E2). rewrite E1. cbn [bind]. rewrite E2. cbn [bind].
    destruct (union_ok mi (g ++ B) (len (observed_in series (i + 1))) HM) as (m3 & o3 & g3 & EU & A3 & Z3 & H3). rewrite EU.
    destruct (free_array m3 (g3 ++ B) oi g A) as (m4 & E4 & H4). { eapply heap_perm; [|exact H3]. perm. }
    rewrite E4. cbn [bind]. eexists. split; [reflexivity|]. exists g3. cbn [fst snd]. replace (S i) with (i + 1) by lia. auto.
  - rewrite E. cbn [bind fst snd] in *. clear E. rewrite <- LS in Z2 |- *. unfold observed_in in Z2. rewrite firstn_all in *. destruct (flat_map s_observed series) as [|first more] eqn:EF.
    { rewrite (Z2 eq_refl) in A2. cbn [array_of] in A2. subst g2. exists m2. auto. }
    assert (KF : first < len vs).
    { assert (IF : In first (flat_map s_observed series)) by (rewrite EF; left; reflexivity). apply in_flat_map in IF. destruct IF as (ts & IT & IF).
      rewrite Forall_forall in KO. specialize (KO ts IT). rewrite Forall_forall in KO. exact (KO first IF). }
    assert (H2' : heap_is m2 ((g2 ++ (a, ptrs ys) :: concat GS) ++ F)). { rewrite <- app_assoc. exact H2. }
    rewrite (variable_at_ok x vs rest F _ m2 HO H2' first KF). cbn [bind].
    destruct (has_one x vs rest F (g2 ++ (a, ptrs ys) :: concat GS) first HO KF) as (bv & id & cv & IB & _ & EC). rewrite (num_ok m2 _ _ bv V_card cv H2' IB EC). cbn [bind].
    al H2. rename a0 into record. rewrite LS.
    assert (EL : (if opened then for_up 0 (len ys) (fun s m => let* y := ptr m (Some a) s in let* _ := num m y Y_length in Ok m) m0 else Ok m0) = Ok m0).
    { destruct opened; [|reflexivity]. apply const_loop; [lia|]. intros i Ki. destruct (nth_pair _ _ _ i FY ltac:(lia)) as (y & g & EY & Q & IG & _).
      assert (IB2 : incl B ((record, repeat (N 0) cv) :: g2 ++ B)). { intros z Hz. right. apply in_or_app. right. exact Hz. }
      rewrite (ptr_ok m0 _ a _ i (Some y) H2) by (first [exact EY|apply IB2; left; reflexivity]). cbn [bind]. destruct (ser_length y g Q) as (n & by_ & IY & EN).
      rewrite (num_ok m0 _ y by_ Y_length n H2); [reflexivity| |exact EN]. apply IB2. right. apply in_or_app. left. apply IG. exact IY. }
    rewrite EL. cbn [bind]. destruct (free_array m0 ((record, repeat (N 0) cv) :: B) o2 g2 A2) as (m3 & E3 & H3). { eapply heap_perm; [|exact H2]. perm. }
    rewrite E3. cbn [bind]. destruct (free_ok _ _ record _ H3) as (m4 & E4 & H4 & _). eauto.
Qed.

Lemma convert_body : forall x vs rest names M, usable names M (len vs) ->
  forall F m data name series formats opened, holds x vs rest F -> heap_is m F -> data_with names data series ->
  exists m' e, nipconvert_memory m (Some x) names data name series formats opened = Ok m' /\ len e = (if formats then empty_array data series else 0) /\ heap_is m' (e ++ rest).
Proof.
  intros x vs rest names M US F m data name series formats opened HO H D. unfold nipconvert_memory. destruct formats; cbn [negb].
  2:{ destruct (holds_free m x vs rest F [] HO H) as (m1 & E1 & H1). exists m1, []. auto. }
  destruct (read_any m F names name data series H D) as (m1 & set & E & [(ES & e & LE & H1)|(ES & a & ys & GS & -> & LS & FY & H1)]); rewrite E; cbn [bind]; clear H E.
  { subst series. cbn [List.length Nat.ltb Nat.leb]. destruct (holds_free m1 x vs rest F e HO H1) as (m2 & E2 & H2). eauto. }
  rewrite (none_left data series ES). destruct (Nat.ltb_spec (len series) 1) as [K|K]; [destruct series; [congruence|cbn in K; lia]|].
  destruct (write_unary_ok x vs rest F m1 a ys GS series opened HO FY LS ltac:(lia) (data_observed _ _ _ _ _ US D) H1) as (m2 & E2 & H2). rewrite E2. cbn [bind]. rewrite LS.
  destruct (free_series_ok m2 F a ys GS FY H2) as (m3 & E3 & H3). rewrite E3. cbn [bind]. destruct (holds_free m3 x vs rest F [] HO H3) as (m4 & E4 & H4). exists m4, []. auto.
Qed.

Section Whole.
Variables (k1 k2 : list pvar -> list nat -> Z) (s : source) (c : Z) (names : list named_variable) (M : NipModel.model) (g : globals).
Hypothesis OK : source_ok s.
Hypothesis HC : (c + Z.of_nat (len (s_nodes s)) <= LONG_MAX)%Z.
Hypothesis E : parse_model k1 k2 (fresh_globals c) (net_of s) = Ok (Some (names, M, g)).

Lemma benchmark_whole : forall data name series valid symbol families plan w opened, data_with names data series ->
  exists m o e, with_model_and k1 k2 (fresh_globals c) s (fun m x names M => nipbenchmark_memory m x names M data name series valid symbol families plan w opened) = Ok (Some (m, o)) /\
    left_of s M e m /\ match o with
    | None => if Nat.eqb (len series) 1 then 2 <= e else e = empty_array data series
    | Some i => 2 <= len series /\ i < len series /\ 3 * i <= e
    end.
Proof.
  intros data name series valid symbol families plan w opened D. destruct (whole_state k1 k2 s c names M g OK HC E) as (m & x & vs & leak & rest & F & E1 & LK & LV & US & HO & H & N).
  destruct (benchmark_body x vs rest names M US F m data name series valid symbol families plan w opened HO H D) as (m' & o & e & EM & H' & Q).
  exists m', o, (len e). unfold with_model_and. rewrite E1. cbn [bind]. rewrite EM. split; [reflexivity|]. split; [|exact Q].
  exists leak. split; [exact LK|]. rewrite (live_heap _ _ H'), app_length. lia.
Qed.
Lemma C96_benchmark_lemma : forall data name series valid symbol families plan w opened, data_with names data series -> len series <> 1 ->
  exists m o, with_model_and k1 k2 (fresh_globals c) s (fun m x names M => nipbenchmark_memory m x names M data name series valid symbol families plan w opened) = Ok (Some (m, o)) /\
    match o with
    | None => left_of s M (empty_array data series) m
    | Some i => i < len series /\ at_least_left s M (3 * i) m
    end.
Proof.
  intros data name series valid symbol families plan w opened D K. destruct (benchmark_whole data name series valid symbol families plan w opened D) as (m & o & e & EM & LF & Q).
  exists m, o. split; [exact EM|]. destruct o as [i|].
  - destruct Q as (_ & Ki & Q). split; [exact Ki|]. destruct LF as (leak & LK & N). exists leak. split; [exact LK|]. lia.
  - destruct (Nat.eqb_spec (len series) 1); [congruence|]. subst e. exact LF.
Qed.
Lemma C96_benchmark_single_lemma : forall data name series valid symbol families plan w opened, data_with names data series -> len series = 1 ->
  exists m, with_model_and k1 k2 (fresh_globals c) s (fun m x names M => nipbenchmark_memory m x names M data name series valid symbol families plan w opened) = Ok (Some (m, None)) /\
    at_least_left s M 2 m.
Proof.
  intros data name series valid symbol families plan w opened D K. destruct (benchmark_whole data name series valid symbol families plan w opened D) as (m & o & e & EM & LF & Q).
  destruct o as [i|]; [lia|]. rewrite K in Q. cbn [Nat.eqb] in Q. exists m. split; [exact EM|]. destruct LF as (leak & LK & N). exists leak. split; [exact LK|]. lia.
Qed.
Lemma C96_convert_lemma : forall data name series formats opened, data_with names data series ->
  exists m, with_model k1 k2 (fresh_globals c) s (fun m x names M => nipconvert_memory m x names data name series formats opened) = Ok (Some m) /\
    left_of s M (if formats then empty_array data series else 0) m.
Proof.
  intros data name series formats opened D. apply (program_left k1 k2 s c names M g OK HC E). intros m x vs rest F _ US HO H.
  exact (convert_body x vs rest names M US F m data name series formats opened HO H D).
Qed.
End Whole.
