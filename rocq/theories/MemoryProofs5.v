(** * Proofs about memory: connecting cliques *)
From Coq Require Import Permutation.
From Verif Require Import Base BaseProofs HeapProofs MemoryModel MemorySpec MemoryProofs MemoryProofs2 MemoryProofs3 MemoryProofs4.
Import ListNotations.
Open Scope nat_scope.
Local Open Scope res_scope.

(** What is read from a clique. *)
Lemma clq_read : forall m f c mem ls g, clq c mem ls g -> heap_is m f -> incl g f ->
  exists vs p, ptr m (Some c) C_variables = Ok (Some vs) /\ ptr m (Some c) C_p = Ok (Some p) /\
    num m (Some p) T_dim = Ok (length mem) /\ pointers m (Some vs) 0 (length mem) = Ok (map Some mem).
Proof.
  intros m f c mem ls g (p & o & vs & gp & go & E & (x1 & x2 & x3 & x4 & x5 & x6 & x7 & x8 & HP) & HO) H I.
  exists vs, p. subst g. repeat split.
  - eapply ptr_ok; [exact H|apply I; left; reflexivity|reflexivity].
  - eapply ptr_ok; [exact H|apply I; left; reflexivity|reflexivity].
  - eapply num_ok; [exact H|apply I; right; right; apply in_or_app; left; rewrite HP; left; reflexivity|reflexivity].
  - assert (X := pointers_ok m f vs mem 0 H). rewrite Nat.sub_0_r in X. apply X; [|lia]. apply I. right. left. reflexivity.
Qed.

Lemma new_sepset_ok : forall m f a b ma mb la lb ga gb, clq a ma la ga -> clq b mb lb gb ->
  heap_is m f -> incl ga f -> incl gb f -> Forall (has_var f) ma -> Forall (has_var f) mb ->
  exists m' s g, new_sepset m (Some a) (Some b) = Ok (m', Some s) /\ sep s a b g /\ heap_is m' (g ++ f).
Proof.
  intros m f a b ma mb la lb ga gb CA CB H IA IB VA VB. unfold new_sepset. cbv zeta. al H. st H. st H.
  match type of H with heap_is ?M ?F =>
    assert (IF : incl f F) by (intros x Hx; right; exact Hx);
    assert (RA := clq_read M F a ma la ga CA H (incl_tran IA IF)); assert (RB := clq_read M F b mb lb gb CB H (incl_tran IB IF))
  end.
  destruct RA as (va & pa & A1 & A2 & A3 & A4). destruct RB as (vb & pb & B1 & B2 & B3 & B4). fields.
  rewrite A1. cbn [bind]. rewrite A2. cbn [bind]. rewrite A3. cbn [bind]. rewrite B1. cbn [bind]. rewrite B2. cbn [bind]. rewrite B3. cbn [bind].
  rewrite A4. cbn [bind]. rewrite B4. cbn [bind].
  match type of H with heap_is ?M ?F => destruct (isect_ok M F ma mb H) as (l & E & IL) end.
  { eapply Forall_impl; [|exact VA]. intros v. apply has_var_incl. exact IF. }
  { eapply Forall_impl; [|exact VB]. intros v. apply has_var_incl. exact IF. }
  rewrite E. cbn [bind]. clear E.
  assert (VL : Forall (has_var f) l).
  { apply Forall_forall. intros v Hv. rewrite Forall_forall in VA. apply VA. apply IL. exact Hv. }
  clear A1 A2 A3 A4 B1 B2 B3 B4.
  match goal with |- context [bind ?X _] =>
    assert (Y : exists m' vars temp gv gt, X = Ok (m', temp) /\ addresses gv (opt vars) /\ addresses gt (opt temp) /\
      heap_is m' ((a0, [Junk; Junk; P vars; P (Some a); P (Some b)]) :: gv ++ gt ++ f)) end.
  { destruct l as [|v l]; cbn [map].
    - st H. eexists _, None, None, [], []. split; [reflexivity|]. split; [apply Permutation_refl|]. split; [apply Permutation_refl|]. exact H.
    - al H. st H. al H. eexists _, (Some a1), (Some a2), [(a1, _)], [(a2, _)]. split; [reflexivity|].
      split; [apply Permutation_refl|]. split; [apply Permutation_refl|]. cbn [app]. eapply heap_perm; [|exact H]. perm. }
  destruct Y as (m3 & vars & temp & gv & gt & E & AV & AT & H'). rewrite E. cbn [bind]. clear E H IF. rename H' into H.
  match type of H with heap_is ?M ?F => destruct (cardinalities_ok M F l H) as (cards & E & L) end.
  { eapply Forall_impl; [|exact VL]. intros v. apply has_var_incl. intros x Hx. right. apply in_or_app. right. apply in_or_app. right. exact Hx. }
  rewrite E. cbn [bind]. clear E.
  destruct (new_potential_ok _ _ cards H) as (m50 & p & gp & E & HP & H5). rewrite E. cbn [bind]. clear E H. rename H5 into H. st H.
  destruct (new_potential_ok _ _ cards H) as (m70 & o & go & E & HO & H7). rewrite E. cbn [bind]. clear E H. rename H7 into H. st H.
  rewrite <- (app_nil_r (opt temp)) in AT.
  fo H AT temp. eexists _, a0, ((a0, _) :: gp ++ go ++ gv). split; [reflexivity|]. split.
  2:{ unfold addresses in AT. apply Permutation_sym, Permutation_nil in AT.
      match type of AT with map fst ?g = [] => destruct g; [|discriminate] end.
      eapply heap_perm; [|exact H]. cbn [app]. perm. }
  eexists p, o, vars, _, gp, go, gv. split; [reflexivity|]. split; [exact HP|]. split; [exact HO|exact AV].
Qed.

Lemma free_sepset_ok : forall m f s a b g, sep s a b g -> heap_is m (g ++ f) ->
  exists m', free_sepset m (Some s) = Ok m' /\ heap_is m' f.
Proof.
  intros m f s a b g (old & new & vars & d & gp & gn & gv & E & HP & HN & HV) H. subst g. cbn [app] in H.
  unfold free_sepset. gp H.
  match type of H with heap_is ?M ?F => apply (heap_perm M F (gp ++ (s, [P (Some old); P (Some new); P vars; P (Some a); P (Some b)]) :: gn ++ gv ++ f)) in H; [|perm] end.
  destruct (free_potential_ok _ _ _ _ _ HP H) as (m1 & E & H1). rewrite E. cbn [bind]. clear E H. rename H1 into H. gp H.
  match type of H with heap_is ?M ?F => apply (heap_perm M F (gn ++ (s, [P (Some old); P (Some new); P vars; P (Some a); P (Some b)]) :: gv ++ f)) in H; [|perm] end.
  destruct (free_potential_ok _ _ _ _ _ HN H) as (m2 & E & H1). rewrite E. cbn [bind]. clear E H. rename H1 into H. gp H.
  rewrite <- (app_nil_r (opt vars)) in HV. fo H HV vars.
  unfold addresses in HV. apply Permutation_sym, Permutation_nil in HV.
  match type of HV with map fst ?g = [] => destruct g; [|discriminate] end.
  front H s. destruct (free_ok _ _ s _ H) as (m' & E & H' & _). exists m'. split; [exact E|]. rewrite app_nil_r in H'. exact H'.
Qed.

Lemma confirm_loop_ok : forall m f c mem ls g s new j1 j2 j3, clq c mem ls g ->
  heap_is m (((new, [j1; j2; j3]) :: g) ++ f) ->
  exists m' g', confirm_loop m (Some s) (Some new) (Some c) = Ok m' /\ clq c mem ((new, s) :: ls) g' /\ heap_is m' (g' ++ f).
Proof.
  intros m f c mem ls g s new j1 j2 j3 (p & o & vs & gp & go & E & HP & HO) H. subst g. unfold clq_block in H. cbn [app] in H.
  unfold confirm_loop. st H. gp H. st H. st H. destruct ls as [|(h, s0) ls]; cbn [hd_or seg] in *.
  - cbn [bind]. last_store H c. eexists _, ((c, _) :: (vs, _) :: gp ++ go ++ [(new, _)]). split; [reflexivity|]. split.
    2:{ eapply heap_perm; [|exact H]. cbn [app]. perm. }
    exists p, o, vs, gp, go. split; [reflexivity|]. auto.
  - st H. cbn [bind]. last_store H c.
    eexists _, ((c, _) :: (vs, _) :: gp ++ go ++ (new, _) :: (h, _) :: seg (Some h) ls None). split; [reflexivity|]. split.
    2:{ eapply heap_perm; [|exact H]. cbn [app]. perm. }
    exists p, o, vs, gp, go. split; [reflexivity|]. auto.
Qed.

Lemma confirm_sepset_ok : forall m f s a b ma mb la lb ga gb gs, clq a ma la ga -> clq b mb lb gb -> sep s a b gs ->
  heap_is m (gs ++ ga ++ gb ++ f) ->
  exists m' l1 l2 ga' gb', confirm_sepset m (Some s) = Ok m' /\ clq a ma ((l1, s) :: la) ga' /\ clq b mb ((l2, s) :: lb) gb' /\
    heap_is m' (gs ++ ga' ++ gb' ++ f).
Proof.
  intros m f s a b ma mb la lb ga gb gs CA CB (old & new & vars & d & gp & gn & gv & E & HP & HN & HV) H. subst gs. cbn [app] in H.
  unfold confirm_sepset. al H. al H. gp H.
  match type of H with heap_is ?M ?F =>
    eapply (heap_perm M F (((a0, _) :: ga) ++ (s, _) :: (a1, _) :: gp ++ gn ++ gv ++ gb ++ f)) in H; [|cbn [app]; perm] end.
  destruct (confirm_loop_ok _ _ a ma la ga s a0 _ _ _ CA H) as (m2 & ga' & E & CA' & H2). rewrite E. cbn [bind]. clear E H. rename H2 into H.
  gp H.
  match type of H with heap_is ?M ?F =>
    eapply (heap_perm M F (((a1, _) :: gb) ++ (s, _) :: gp ++ gn ++ gv ++ ga' ++ f)) in H; [|cbn [app]; perm] end.
  destruct (confirm_loop_ok _ _ b mb lb gb s a1 _ _ _ CB H) as (m3 & gb' & E & CB' & H3).
  exists m3, a0, a1, ga', gb'. split; [exact E|]. split; [exact CA'|]. split; [exact CB'|].
  eapply heap_perm; [|exact H3]. cbn [app]. perm.
Qed.

(** Memory is large enough for what is in it. *)
Lemma heap_length : forall m f, heap_is m f -> length f <= length m.
Proof.
  intros m f [ND H]. rewrite <- (map_length fst f). rewrite <- (seq_length (length m) 0).
  apply NoDup_incl_length; [exact ND|]. intros a Ha. apply in_map_iff in Ha. destruct Ha as ((x & b) & E & I). cbn in E. subst x.
  apply in_seq. cbn. split; [lia|]. apply nth_error_Some. apply H in I. rewrite I. discriminate.
Qed.

Lemma remove_loop_ok : forall mid fuel m f c mem pre l s post g, clq c mem (pre ++ mid ++ (l, s) :: post) g ->
  ~ In s (map snd mid) -> length mid < fuel -> heap_is m (g ++ f) ->
  exists m' g', remove_loop fuel m (Some c) (Some s) (hd_or (mid ++ (l, s) :: post) None) = Ok m' /\
    clq c mem (pre ++ mid ++ post) g' /\ heap_is m' (g' ++ f).
Proof.
  induction mid as [|(l', s') mid IH]; intros fuel m f c mem pre l s post g C NI HF H.
  - destruct fuel as [|fuel]; [lia|]. destruct C as (p & o & vs & gp & go & E & HP & HO). subst g. cbn [app] in H |- *.
    cbn [hd_or remove_loop]. rewrite seg_app in H. cbn [app hd_or seg] in H. unfold clq_block in H.
    gp H. unfold same at 1. rewrite Nat.eqb_refl. gp H. gp H.
    destruct (list_eq_dec (fun x y : nat * nat => ltac:(repeat decide equality)) pre []) as [EP|EP].
    + subst pre. cbn [app last_or hd_or seg] in *. st H. destruct post as [|(h, s0) post]; cbn [hd_or seg] in *.
      * cbn [bind]. front H l. destruct (free_ok _ _ l _ H) as (m' & E & H' & _). exists m'. eexists ((c, _) :: (vs, _) :: gp ++ go).
        split; [exact E|]. split; [|eapply heap_perm; [|exact H']; cbn [app]; perm].
        exists p, o, vs, gp, go. split; [cbn [seg]; rewrite app_nil_r; reflexivity|]. auto.
      * st H. cbn [bind]. front H l. destruct (free_ok _ _ l _ H) as (m' & E & H' & _).
        exists m'. eexists ((c, _) :: (vs, _) :: gp ++ go ++ (h, _) :: seg (Some h) post None).
        split; [exact E|]. split; [|eapply heap_perm; [|exact H']; cbn [app]; perm].
        exists p, o, vs, gp, go. split; [reflexivity|]. auto.
    + destruct (exists_last EP) as (pre' & (b & sb) & EQ). subst pre. clear EP. rewrite last_or_app in *.
      assert (HH : forall x, hd_or ((pre' ++ [(b, sb)]) ++ x) None = hd_or (pre' ++ [(b, sb)]) None) by (intros; destruct pre' as [|(? & ?) ?]; reflexivity).
      rewrite HH in H. rewrite seg_app in H. cbn [hd_or seg] in H. st H.
      destruct post as [|(h, s0) post]; cbn [hd_or seg] in *.
      * cbn [bind]. front H l. destruct (free_ok _ _ l _ H) as (m' & E & H' & _).
        exists m'. eexists ((c, _) :: (vs, _) :: gp ++ go ++ seg None pre' (Some b) ++ [(b, _)]).
        split; [exact E|]. split; [|eapply heap_perm; [|exact H']; cbn [app]; perm].
        exists p, o, vs, gp, go. split; [|auto]. rewrite app_nil_r, seg_app. cbn [hd_or seg]. reflexivity.
      * st H. cbn [bind]. front H l. destruct (free_ok _ _ l _ H) as (m' & E & H' & _).
        exists m'. eexists ((c, _) :: (vs, _) :: gp ++ go ++ seg None pre' (Some b) ++ (b, _) :: (h, _) :: seg (Some h) post None).
        split; [exact E|]. split; [|eapply heap_perm; [|exact H']; cbn [app]; perm].
        exists p, o, vs, gp, go. split; [|auto]. rewrite HH, <- app_assoc, seg_app. cbn [hd_or seg app]. reflexivity.
  - destruct fuel as [|fuel]; [cbn in HF; lia|]. cbn [map snd In] in NI. cbn [length] in HF.
    assert (C' := C). destruct C as (p & o & vs & gp & go & E & HP & HO).
    assert (I : In (l', [P (Some s'); P (hd_or (mid ++ (l, s) :: post) None); P (last_or None pre)]) (g ++ f)).
    { apply in_or_app. left. subst g. right. right. apply in_or_app. right. apply in_or_app. right.
      rewrite seg_app. apply in_or_app. right. left. reflexivity. }
    cbn [app hd_or remove_loop].
    rewrite (ptr_ok m _ l' _ L_data (Some s') H I eq_refl). cbn [bind same].
    destruct (Nat.eqb_spec s' s) as [D|D]; [exfalso; apply NI; left; exact D|].
    rewrite (ptr_ok m _ l' _ L_fwd _ H I eq_refl). cbn [bind].
    destruct (IH fuel m f c mem (pre ++ [(l', s')]) l s post g) as (m' & g' & E' & CC & HH).
    + rewrite <- app_assoc. cbn [app]. exact C'.
    + tauto.
    + lia.
    + exact H.
    + exists m', g'. split; [exact E'|]. split; [|exact HH]. rewrite <- app_assoc in CC. exact CC.
Qed.

Lemma remove_sepset_ok : forall m f c mem mid l s post g, clq c mem (mid ++ (l, s) :: post) g ->
  ~ In s (map snd mid) -> heap_is m (g ++ f) ->
  exists m' g', remove_sepset m (Some c) (Some s) = Ok m' /\ clq c mem (mid ++ post) g' /\ heap_is m' (g' ++ f).
Proof.
  intros m f c mem mid l s post g C NI H. unfold remove_sepset.
  assert (C' := C). destruct C as (p & o & vs & gp & go & E & HP & HO).
  rewrite (ptr_ok m _ c (clq_block p o vs (hd_or (mid ++ (l, s) :: post) None)) C_sepsets (hd_or (mid ++ (l, s) :: post) None) H);
    [|apply in_or_app; left; subst g; left; reflexivity|reflexivity]. cbn [bind].
  apply (remove_loop_ok mid (S (length m)) m f c mem [] l s post g C' NI); [|exact H].
  assert (L := heap_length m _ H). subst g. rewrite app_length in L. cbn [length] in L. rewrite !app_length, seg_length, app_length in L. cbn [length] in L. lia.
Qed.

(** The rest of nip_free_clique, once there are no sepsets. *)
Lemma free_empty_clique : forall m f c mem g, clq c mem [] g -> heap_is m (g ++ f) ->
  exists m', (let* x := ptr m (Some c) C_p in let* m := free_potential m x in
      let* x := ptr m (Some c) C_original in let* m := free_potential m x in
      let* x := ptr m (Some c) C_variables in let* m := free m x in
      free m (Some c)) = Ok m' /\ heap_is m' f.
Proof.
  intros m f c mem g (p & o & vs & gp & go & E & HP & HO) H. subst g. unfold clq_block in H. cbn [app seg hd_or] in H. rewrite app_nil_r in H.
  gp H.
  match type of H with heap_is ?M ?F => eapply (heap_perm M F (gp ++ (c, _) :: (vs, _) :: go ++ f)) in H; [|perm] end.
  destruct (free_potential_ok _ _ _ _ _ HP H) as (m1 & E & H1). rewrite E. cbn [bind]. clear E H. rename H1 into H. gp H.
  match type of H with heap_is ?M ?F => eapply (heap_perm M F (go ++ (c, _) :: (vs, _) :: f)) in H; [|perm] end.
  destruct (free_potential_ok _ _ _ _ _ HO H) as (m2 & E & H1). rewrite E. cbn [bind]. clear E H. rename H1 into H. gp H. fr H.
  front H c. destruct (free_ok _ _ c _ H) as (m' & E & H' & _). exists m'. split; [exact E|exact H'].
Qed.
