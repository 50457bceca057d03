(** * Memory of joint probabilities (C100) *)
From Coq Require Import Permutation String Ascii.
From Verif Require Import Base BaseProofs HeapProofs MemoryModel MemorySpec MemoryProofs MemoryProofs2 MemoryProofs3 MemoryProofs4 MemoryProofs5 MemoryProofs10 MemoryModel3 MemorySpec3 MemoryModel5 MemoryProofs25 MemoryProofs33 MemoryModel6 MemorySpec8 MemoryModel8.
Import ListNotations.
Open Scope nat_scope.
Local Open Scope res_scope.
Local Open Scope list_scope.
Local Notation len := List.length.

Scheme visit_mut := Induction for visit Sort Prop
  with branches_mut := Induction for branches Sort Prop.
Combined Scheme visit_both from visit_mut, branches_mut.

Lemma touch_pot : forall m p d g f, pot p d g -> heap_is m (g ++ f) -> touch m (Some p) = Ok m.
Proof. intros m p d g f Q H. apply (touch_ok m (g ++ f) p H). eapply alive_incl; [|exact (pot_alive p d g Q)]. intros z Hz. apply in_or_app. auto. Qed.

Lemma mapper_ok : forall m F s, heap_is m F -> exists m' o g, m_mapper m s = (m', o) /\ addresses g (opt o) /\ heap_is m' (g ++ F) /\
  (s = None <-> o = None).
Proof.
  intros m F [n|] H; cbn [m_mapper].
  - al H. eexists _, (Some a), [(a, _)]. split; [reflexivity|]. split; [apply Permutation_refl|]. split; [exact H|]. split; discriminate.
  - exists m, None, []. split; [reflexivity|]. split; [apply Permutation_refl|]. split; [exact H|]. tauto.
Qed.

Lemma give_up_ok : forall m c bc a ba p d g F, pot p d g -> heap_is m (g ++ (c, bc) :: (a, ba) :: F) ->
  exists m', m_give_up m (Some c) (Some a) (Some p) = Ok m' /\ heap_is m' F.
Proof.
  intros m c bc a ba p d g F Q H. unfold m_give_up. reorder H ((c, bc) :: (a, ba) :: g ++ F). fr H. fr H.
  exact (free_potential_ok _ F p d g Q H).
Qed.

Definition lost (v : visit) : nat := messages v + failures v.
Definition lost_from (b : branches) : nat := messages_from b + failures_from b.

Lemma gather_both :
  (forall v m F, heap_is m F -> exists m' r L, m_gather m v = Ok (m', r) /\ len L = lost v /\
     match r with
     | Some p => answers v = true /\ exists d g, pot p d g /\ heap_is m' (g ++ L ++ F)
     | None => answers v = false /\ heap_is m' (L ++ F)
     end) /\
  (forall b m F a ba c bc p d g, pot p d g -> heap_is m (g ++ (c, bc) :: (a, ba) :: F) ->
     exists m' ok L, m_neighbours m (Some a) (Some c) (Some p) b = Ok (m', ok) /\ len L = lost_from b /\ goes_on b = ok /\
       heap_is m' (if ok : bool then g ++ (c, bc) :: (a, ba) :: L ++ F else L ++ F)).
Proof.
  apply visit_both.
  - intros m F H. cbn [m_gather]. destruct (new_potential_ok m F [] H) as (z1 & p & g & E & Q & H1). exists z1, (Some p), []. split; [exact E|].
    split; [reflexivity|]. split; [reflexivity|]. exists (len (@nil nat)), g. auto.
  - intros product mapping ff nb IH result sf m F H. cbn [m_gather]. al H. al H.
    destruct (new_potential_ok _ _ product H) as (z2 & p & g & E & Q & H2). rewrite E. cbn [bind]. clear H E. rename H2 into H.
    destruct (mapper_ok _ _ mapping H) as (z3 & o & gm & E & AM & H3 & SN). rewrite E. clear H E. rename H3 into H.
    destruct o as [mp|].
    2:{ rewrite (addresses_nil _ AM) in H. cbn [app] in H. destruct (give_up_ok _ _ _ _ _ _ _ _ _ Q H) as (z4 & E4 & H4). rewrite E4. cbn [bind].
        rewrite (proj2 SN eq_refl). exists z4, None, []. split; [reflexivity|]. split; [reflexivity|]. split; [reflexivity|exact H4]. }
    destruct mapping as [nm|]; [|destruct SN as [SN _]; discriminate (SN eq_refl)].
    reorder H (g ++ gm ++ (a0, repeat (N 0) (len product)) :: (a, repeat (P None) (len product)) :: F).
    rewrite (touch_pot _ _ _ _ _ Q H). cbn [bind].
    reorder H (gm ++ g ++ (a0, repeat (N 0) (len product)) :: (a, repeat (P None) (len product)) :: F).
    destruct (free_interface _ _ (Some mp) gm AM H) as (z4 & E4 & H4). rewrite E4. cbn [bind]. clear H E4. rename H4 into H.
    destruct ff.
    { destruct (give_up_ok _ _ _ _ _ _ _ _ _ Q H) as (z5 & E5 & H5). rewrite E5. cbn [bind]. exists z5, None, [].
      split; [reflexivity|]. split; [reflexivity|]. split; [reflexivity|exact H5]. }
    destruct (IH _ _ _ _ _ _ _ _ _ Q H) as (z5 & ok & L & E5 & LL & GO & H5). rewrite E5. cbn [bind]. clear H.
    destruct ok; cbn [negb].
    2:{ exists z5, None, L. split; [reflexivity|]. split; [exact LL|]. split; [cbn [answers negb andb]; rewrite GO; reflexivity|exact H5]. }
    rename H5 into H. reorder H ((a, repeat (P None) (len product)) :: g ++ (a0, repeat (N 0) (len product)) :: L ++ F). fr H.
    destruct (Nat.eqb (len product) (len result)) eqn:EQ.
    + reorder H ((a0, repeat (N 0) (len product)) :: g ++ L ++ F). fr H. eexists _, (Some p), L. split; [reflexivity|]. split; [exact LL|].
      split; [cbn [answers negb andb]; rewrite GO, EQ; reflexivity|]. exists (len product), g. split; [exact Q|exact H].
    + destruct (new_potential_ok _ _ result H) as (z7 & q & h & E7 & Q7 & H7). rewrite E7. cbn [bind]. clear H. rename H7 into H.
      reorder H ((a0, repeat (N 0) (len product)) :: h ++ g ++ L ++ F). fr H. al H.
      reorder H (g ++ (a1, repeat (N 0) (len result)) :: h ++ L ++ F). rewrite (touch_pot _ _ _ _ _ Q H). cbn [bind].
      reorder H (h ++ (a1, repeat (N 0) (len result)) :: g ++ L ++ F). rewrite (touch_pot _ _ _ _ _ Q7 H). cbn [bind].
      reorder H ((a1, repeat (N 0) (len result)) :: g ++ h ++ L ++ F). fr H.
      destruct (free_potential_ok _ _ _ _ _ Q H) as (z9 & E9 & H9). rewrite E9. cbn [bind]. clear H. rename H9 into H.
      destruct sf.
      * destruct (free_potential_ok _ _ _ _ _ Q7 H) as (z10 & E10 & H10). rewrite E10. cbn [bind]. exists z10, None, L. split; [reflexivity|].
        split; [exact LL|]. split; [cbn [answers negb andb]; rewrite GO, EQ; reflexivity|exact H10].
      * exists z9, (Some q), L. split; [reflexivity|]. split; [exact LL|]. split; [cbn [answers negb andb]; rewrite GO, EQ; reflexivity|].
        exists (len result), h. auto.
  - intros m F a ba c bc p d g Q H. cbn [m_neighbours]. exists m, true, []. auto.
  - intros sizes df common call IHc message mapping pf others IHo m F a ba c bc p d g Q H. cbn [m_neighbours]. wk H.
    rewrite (touch_pot _ _ _ _ _ Q H). cbn [bind].
    assert (GU : exists m' ok L, (let* m := m_give_up m0 (Some c) (Some a) (Some p) in Ok (m, false)) = Ok (m', ok) /\ L = @nil (nat * list val) /\ ok = false /\ heap_is m' (L ++ F)).
    { destruct (give_up_ok _ _ _ _ _ _ _ _ _ Q H) as (z5 & E5 & H5). rewrite E5. cbn [bind]. exists z5, false, []. auto. }
    destruct df.
    { destruct GU as (z1 & ok & L & E & -> & -> & H1). exists z1, false, []. split; [exact E|]. split; [destruct common; reflexivity|]. split; [reflexivity|exact H1]. }
    destruct common as [n|].
    2:{ destruct GU as (z1 & ok & L & E & -> & -> & H1). exists z1, false, []. split; [exact E|]. split; [reflexivity|]. split; [reflexivity|exact H1]. }
    clear GU. al H. destruct (IHc _ _ H) as (z2 & r & L & E2 & LL & R). rewrite E2. cbn [bind]. clear H.
    set (own := (a0, repeat (P None) n) :: L).
    assert (X : exists gr, heap_is z2 (gr ++ g ++ (c, bc) :: (a, ba) :: own ++ F) /\
       match r with Some q => exists d, pot q d gr | None => gr = [] end).
    { destruct r as [q|].
      - destruct R as (_ & d2 & gr & Q2 & H2). exists gr. split; [|exists d2; exact Q2]. eapply heap_perm; [|exact H2]. unfold own. perm.
      - destruct R as (_ & H2). exists []. split; [|reflexivity]. eapply heap_perm; [|exact H2]. unfold own. cbn [app]. perm. }
    destruct X as (gr & H & QR). clear R. al H. destruct (mapper_ok _ _ mapping H) as (z4 & o & gm & E4 & AM & H4 & _). rewrite E4. clear H E4. rename H4 into H.
    reorder H ((a1, repeat (P None) message) :: gr ++ gm ++ g ++ (c, bc) :: (a, ba) :: own ++ F). fr H.
    match goal with |- context [bind (match r with Some _ => touch ?mm r | None => Ok ?mm end) _] =>
      assert (T : match r with Some _ => touch mm r | None => Ok mm end = Ok mm) end.
    { destruct r as [q|]; [|reflexivity]. destruct QR as (d2 & Q2). exact (touch_pot _ _ _ _ _ Q2 H). }
    rewrite T. cbn [bind]. clear T. reorder H (g ++ gr ++ gm ++ (c, bc) :: (a, ba) :: own ++ F). rewrite (touch_pot _ _ _ _ _ Q H). cbn [bind].
    reorder H (gm ++ gr ++ g ++ (c, bc) :: (a, ba) :: own ++ F). destruct (free_interface _ _ o gm AM H) as (z6 & E6 & H6). rewrite E6. cbn [bind]. clear H E6. rename H6 into H.
    assert (T : exists m', free_potential z6 r = Ok m' /\ heap_is m' (g ++ (c, bc) :: (a, ba) :: own ++ F)).
    { destruct r as [q|]; [destruct QR as (d2 & Q2); exact (free_potential_ok _ _ _ _ _ Q2 H)|]. subst gr. exists z6. split; [reflexivity|exact H]. }
    destruct T as (z7 & E7 & H7). rewrite E7. cbn [bind]. clear H E7. rename H7 into H.
    assert (LO : len own = S (lost call)) by (rewrite <- LL; reflexivity). clearbody own.
    destruct pf.
    + reorder H ((c, bc) :: g ++ (a, ba) :: own ++ F). fr H. destruct (free_potential_ok _ _ _ _ _ Q H) as (z9 & E9 & H9). rewrite E9. cbn [bind].
      exists z9, false, ((a, ba) :: own). split; [reflexivity|]. split; [|split; [reflexivity|exact H9]].
      transitivity (S (len own)); [reflexivity|]. rewrite LO. unfold lost, lost_from. cbn [messages_from failures_from]. lia.
    + destruct (IHo z7 (own ++ F) a ba c bc p d g Q H) as (z8 & ok & L2 & E8 & LL2 & GO & H8). rewrite E8. exists z8, ok, (L2 ++ own). split; [reflexivity|].
      split; [transitivity (len L2 + len own); [apply app_length|]; rewrite LO, LL2; unfold lost, lost_from; cbn [messages_from failures_from]; lia|].
      split; [cbn [goes_on negb andb]; exact GO|]. destruct ok; (eapply heap_perm; [|exact H8]); perm.
Qed.

Lemma gather_ok : forall v m F, heap_is m F -> exists m' r L, m_gather m v = Ok (m', r) /\ len L = lost v /\
     match r with
     | Some p => answers v = true /\ exists d g, pot p d g /\ heap_is m' (g ++ L ++ F)
     | None => answers v = false /\ heap_is m' (L ++ F)
     end.
Proof. exact (proj1 gather_both). Qed.

(** Every memory is some heap. *)
Fixpoint blocks_from (i : nat) (m : memory) : fp :=
  match m with
  | [] => []
  | Some b :: m => (i, b) :: blocks_from (S i) m
  | None :: m => blocks_from (S i) m
  end.
Lemma blocks_in : forall m i a b, In (a, b) (blocks_from i m) <-> i <= a /\ nth_error m (a - i) = Some (Some b).
Proof.
  induction m as [|o m IH]; intros i a b; cbn [blocks_from].
  - split; [intros []|]. intros (_ & E). destruct (a - i); discriminate.
  - assert (T : In (a, b) (blocks_from (S i) m) <-> i < a /\ nth_error (o :: m) (a - i) = Some (Some b)).
    { rewrite IH. split; intros (K & E); (split; [lia|]); replace (a - i) with (S (a - S i)) in * by lia; exact E. }
    destruct o as [b0|].
    + cbn [In]. rewrite T. split.
      * intros [E|(K & E)]; [injection E as <- <-; split; [lia|]; rewrite Nat.sub_diag; reflexivity|split; [lia|exact E]].
      * intros (K & E). destruct (Nat.eq_dec a i) as [->|N]; [left; rewrite Nat.sub_diag in E; cbn in E; congruence|right; split; [lia|exact E]].
    + rewrite T. split; intros (K & E); (split; [|exact E]); [lia|].
      destruct (Nat.eq_dec a i) as [->|N]; [rewrite Nat.sub_diag in E; discriminate|lia].
Qed.
Lemma blocks_nodup : forall m i, NoDup (map fst (blocks_from i m)).
Proof.
  induction m as [|o m IH]; intros i; cbn [blocks_from]; [constructor|]. destruct o as [b|]; [|apply IH]. cbn [map fst]. constructor; [|apply IH].
  intros K. apply in_map_iff in K. destruct K as ((a, b') & E & K). cbn in E. subst a. apply blocks_in in K. lia.
Qed.
Lemma any_heap : forall m, heap_is m (blocks_from 0 m).
Proof.
  intros m. split; [apply blocks_nodup|]. intros a b. rewrite blocks_in, Nat.sub_0_r. split; [intros E; split; [lia|exact E]|intros (_ & E); exact E].
Qed.

Lemma C100_gather_lemma : forall v m, exists m' r, m_gather m v = Ok (m', r) /\
  ((answers v = true /\ exists p z2, r = Some p /\ free_potential m' r = Ok z2 /\ live z2 = live m + messages v + failures v) \/
   (answers v = false /\ r = None /\ live m' = live m + messages v + failures v)).
Proof.
  intros v m. destruct (gather_ok v m _ (any_heap m)) as (m' & r & L & E & LL & R). exists m', r. split; [exact E|].
  rewrite (live_heap _ _ (any_heap m)). unfold lost in LL. destruct r as [p|].
  - left. destruct R as (AN & d & g & Q & H). split; [exact AN|]. destruct (free_potential_ok _ _ _ _ _ Q H) as (z2 & E2 & H2). exists p, z2.
    split; [reflexivity|]. split; [exact E2|]. rewrite (live_heap _ _ H2), app_length. lia.
  - right. destruct R as (AN & H). split; [exact AN|]. split; [reflexivity|]. rewrite (live_heap _ _ H), app_length. lia.
Qed.
