(** * Proofs about memory: models (C82) *)
From Coq Require Import Permutation.
From Verif Require Import Base BaseProofs HeapProofs MemoryModel MemorySpec MemoryProofs MemoryProofs2 MemoryProofs3 MemoryProofs4 MemoryProofs5 MemoryProofs6 MemoryProofs7 MemoryProofs8 MemoryProofs9 MemoryProofs10.
Import ListNotations.
Open Scope nat_scope.
Local Open Scope res_scope.

Definition mdl_block (nc A nv : nat) (vo : option nat) (a1 a2 a3 a4 a5 a6 a7 : nat) : block :=
  [N nc; P (Some A); N nv; P vo; P (Some a1); P (Some a2); P (Some a3); P (Some a4); P (Some a5); P (Some a6); P (Some a7)].
Definition mdl (x : nat) (cs vs : list nat) (g : fp) : Prop :=
  exists nc A nv vo a1 a2 a3 a4 a5 a6 a7 gv ga, nc = length cs /\ nv = length vs /\
    g = (x, mdl_block nc A nv vo a1 a2 a3 a4 a5 a6 a7) :: (A, ptrs cs) :: gv ++ ga /\
    match vo with None => vs = [] /\ gv = [] | Some V => gv = [(V, ptrs vs)] end /\
    addresses ga [a1; a2; a3; a4; a5; a6; a7].

Lemma new_model_ok : forall m f cs vs z, heap_is m f ->
  exists m' x g, new_model m (map Some cs) (map Some vs) z = Ok (m', Some x) /\ mdl x cs vs g /\ heap_is m' (g ++ f).
Proof.
  intros m f cs vs z H. unfold new_model. cbv zeta. rewrite !map_length, map_map. fold (ptrs cs). al H. al H.
  set (nc := length cs). set (nv := length vs). st H. st H. st H.
  match goal with |- context [bind ?X _] =>
    assert (Y : exists m' vo gv, X = Ok m' /\ match vo with None => vs = [] /\ gv = [] | Some V => gv = [(V, ptrs vs)] end /\
      heap_is m' ((a, [N nc; P (Some a0); N nv; P vo; Junk; Junk; Junk; Junk; Junk; Junk; Junk]) :: (a0, ptrs cs) :: gv ++ f)) end.
  { destruct vs as [|v vs]; cbn [map].
    - last_store H a. eexists _, None, []. split; [reflexivity|]. split; [auto|exact H].
    - al H. last_store H a. eexists _, (Some a1), [(a1, _)]. split; [reflexivity|]. split; [|cbn [app]; eapply heap_perm; [|exact H]; perm].
      unfold ptrs. cbn [map]. rewrite map_map. reflexivity. }
  destruct Y as (m5 & vo & gv & E & HV & H'). rewrite E. cbn [bind]. clear E H. rename H' into H.
  al H. st H. al H. st H. al H. st H. al H. st H. al H. st H. al H. st H. al H. st H.
  eexists _, a, ((a, _) :: (a0, _) :: gv ++ [(a1, _); (a2, _); (a3, _); (a4, _); (a5, _); (a6, _); (a7, _)]). split; [reflexivity|]. split.
  2:{ eapply heap_perm; [|exact H]. cbn [app]. perm. }
  eexists nc, a0, nv, vo, a1, a2, a3, a4, a5, a6, a7, gv, _. split; [reflexivity|]. split; [reflexivity|]. split; [reflexivity|]. split; [exact HV|].
  apply Permutation_refl.
Qed.

Lemma in_skipn : forall (l : list nat) i x, nth_error l i = Some x -> skipn i l = x :: skipn (S i) l.
Proof.
  induction l as [|y q IH]; intros [|t] x EX; try discriminate.
  - injection EX as ->. reflexivity.
  - cbn in EX |- *. apply IH. exact EX.
Qed.

Lemma inv_rest_in : forall m vs cl live t rest a b, inv m vs cl live t rest -> In (a, b) rest -> In (a, b) (blocks_of t ++ rest).
Proof. intros. apply in_or_app. right. assumption. Qed.

Lemma free_model_ok : forall m vs cl live t x ks is g, inv m vs cl live t g -> mdl x (map (fun k => nth k cl 0) ks) (map (fun v => nth v vs 0) is) g ->
  NoDup ks -> (forall k, In k ks <-> nth k (t_members t) None <> None) -> NoDup is -> (forall v, In v is <-> nth v live false = true) ->
  exists m', free_model m (Some x) = Ok m' /\ heap_is m' [].
Proof.
  intros m vs cl live t x ks is g INV M NK KK NI II.
  destruct M as (nc & A & nv & vo & a1 & a2 & a3 & a4 & a5 & a6 & a7 & gv & ga & EC & EV & EG & HV & HA). rewrite map_length in EC, EV.
  set (bx := mdl_block nc A nv vo a1 a2 a3 a4 a5 a6 a7) in *. subst g. unfold free_model.
  rewrite (num_ok m _ x bx M_ncliques nc (proj2 (proj2 (proj2 INV)))) by (first [reflexivity|apply in_or_app; right; left; reflexivity]). cbn [bind].
  (* cliques *)
  match goal with |- context [for_up 0 nc ?b m] =>
    destruct (for_up_inv memory (fun i m => exists t, inv m vs cl live t ((x, bx) :: (A, ptrs (map (fun k => nth k cl 0) ks)) :: gv ++ ga) /\
      forall k, In k (skipn i ks) <-> nth k (t_members t) None <> None) b 0 nc m) as (m1 & E1 & t1 & INV1 & K1) end.
  - lia.
  - exists t. split; [exact INV|exact KK].
  - intros i mt Hi (ti & INVi & Ki). assert (Hh := proj2 (proj2 (proj2 INVi))).
    rewrite (ptr_ok mt _ x bx M_cliques (Some A) Hh) by (first [reflexivity|apply in_or_app; right; left; reflexivity]). cbn [bind].
    destruct (nth_error ks i) as [k|] eqn:EK; [|apply nth_error_None in EK; lia].
    rewrite (ptr_ok mt _ A (ptrs (map (fun k => nth k cl 0) ks)) i (Some (nth k cl 0)) Hh);
      [|apply in_or_app; right; right; left; reflexivity|unfold ptrs; rewrite !nth_error_map, EK; reflexivity]. cbn [bind].
    rewrite (in_skipn ks i k EK) in Ki. destruct (nth k (t_members ti) None) as [mem|] eqn:EM.
    2:{ exfalso. apply (proj1 (Ki k)); [left; reflexivity|exact EM]. }
    destruct (free_clique_ok mt vs cl live ti _ k mem INVi EM) as (m' & t' & E & INV' & _ & QM & _). exists m'. split; [exact E|].
    exists t'. split; [exact INV'|]. intros j. rewrite QM. rewrite nth_set by (eapply nth_some; exact EM).
    assert (NJ : ~ In k (skipn (S i) ks)).
    { assert (N2 : NoDup (skipn i ks)). { rewrite <- (firstn_skipn i ks) in NK. apply NoDup_right in NK. exact NK. }
      rewrite (in_skipn ks i k EK) in N2. inversion N2. assumption. }
    destruct (Nat.eqb_spec j k) as [D|D].
    + subst j. split; [intros Z; contradiction|congruence].
    + rewrite <- Ki. cbn [In]. split; [auto|]. intros [Z|Z]; [congruence|exact Z].
  - rewrite E1. cbn [bind]. clear E1 INV t KK. rewrite EC, skipn_all in K1. assert (Hh := proj2 (proj2 (proj2 INV1))).
    rewrite (ptr_ok m1 _ x bx M_cliques (Some A) Hh) by (first [reflexivity|apply in_or_app; right; left; reflexivity]). cbn [bind].
    destruct INV1 as (V1 & C1 & X1 & H1).
    match type of H1 with heap_is ?M ?F => eapply (heap_perm M F ((A, _) :: blocks_of t1 ++ (x, bx) :: gv ++ ga)) in H1; [|perm] end.
    destruct (free_ok _ _ A _ H1) as (m2 & E2 & H2 & _). rewrite E2. cbn [bind]. clear E2 H1 Hh.
    assert (INV2 : inv m2 vs cl live t1 ((x, bx) :: gv ++ ga)) by (split; [exact V1|split; [exact C1|split; [exact X1|exact H2]]]).
    rewrite (num_ok m2 _ x bx M_nvars nv H2) by (first [reflexivity|apply in_or_app; right; left; reflexivity]). cbn [bind].
    (* variables *)
    match goal with |- context [for_up 0 nv ?b m2] =>
      destruct (for_up_inv memory (fun i m => exists live t, inv m vs cl live t ((x, bx) :: gv ++ ga) /\ t_members t = t_members t1 /\
        forall v, In v (skipn i is) <-> nth v live false = true) b 0 nv m2) as (m3 & E3 & live3 & t3 & INV3 & QM & K3) end.
    + lia.
    + exists live, t1. split; [exact INV2|]. split; [reflexivity|exact II].
    + intros i mt Hi (li & ti & INVi & QM & Ki). assert (Hh := proj2 (proj2 (proj2 INVi))).
      rewrite (ptr_ok mt _ x bx M_vars vo Hh) by (first [reflexivity|apply in_or_app; right; left; reflexivity]). cbn [bind].
      destruct (nth_error is i) as [v|] eqn:EK; [|apply nth_error_None in EK; lia].
      destruct vo as [V|]; [|destruct HV as (HV & _); apply map_eq_nil in HV; subst is; destruct i; discriminate]. subst gv.
      rewrite (ptr_ok mt _ V (ptrs (map (fun v => nth v vs 0) is)) i (Some (nth v vs 0)) Hh);
        [|apply in_or_app; right; right; left; reflexivity|unfold ptrs; rewrite !nth_error_map, EK; reflexivity]. cbn [bind].
      rewrite (in_skipn is i v EK) in Ki. assert (LV : nth v li false = true) by (apply Ki; left; reflexivity).
      assert (VO := proj1 INVi). destruct (live_has vs li (t_vars ti) v VO LV) as (_ & LT).
      assert (X := proj2 (proj2 VO) v LT). rewrite LV in X. destruct X as (card & X).
      destruct (free_variable_ok mt _ _ _ _ _ X (take_var _ _ _ _ _ _ v INVi LT)) as (m' & E & H').
      exists m'. split; [exact E|].
      destruct (change_var mt vs cl li ti _ v [] INVi LT m' (set_nth li v false)) as (t' & INV' & Q1 & Q2 & Q3 & Q4).
      * rewrite set_nth_length. exact (proj1 VO).
      * intros j D. rewrite nth_set by (rewrite (proj1 VO); exact LT). destruct (Nat.eqb_spec j v); [congruence|reflexivity].
      * rewrite nth_set, Nat.eqb_refl by (rewrite (proj1 VO); exact LT). reflexivity.
      * exact H'.
      * exists (set_nth li v false), t'. split; [exact INV'|]. split; [congruence|]. intros j. rewrite nth_set by (rewrite (proj1 VO); exact LT).
        assert (NJ : ~ In v (skipn (S i) is)).
        { assert (N2 : NoDup (skipn i is)). { rewrite <- (firstn_skipn i is) in NI. apply NoDup_right in NI. exact NI. }
          rewrite (in_skipn is i v EK) in N2. inversion N2. assumption. }
        destruct (Nat.eqb_spec j v) as [D|D].
        -- subst j. split; [intros Z; contradiction|congruence].
        -- rewrite <- Ki. cbn [In]. split; [auto|]. intros [Z|Z]; [congruence|exact Z].
    + rewrite E3. cbn [bind]. clear E3. rewrite EV, skipn_all in K3.
      assert (H : heap_is m3 ((x, bx) :: gv ++ ga)).
      { apply (inv_empty m3 vs cl live3 t3 _ INV3).
        - intros v. destruct (nth v live3 false) eqn:EE; [exfalso; exact (proj2 (K3 v) EE)|reflexivity].
        - intros k. rewrite QM. destruct (nth k (t_members t1) None) as [mm|] eqn:EE; [exfalso; apply (K1 k); rewrite EE; discriminate|reflexivity]. }
      clear INV3 INV2 H2 V1 C1 X1. unfold bx, mdl_block in H. clear bx.
      assert (AV : addresses gv (opt vo ++ [])) by (destruct vo as [V|]; [subst gv; apply Permutation_refl|destruct HV as (_ & ->); apply Permutation_refl]).
      change [a1; a2; a3; a4; a5; a6; a7] with (opt (Some a1) ++ opt (Some a2) ++ opt (Some a3) ++ opt (Some a4) ++ opt (Some a5) ++ opt (Some a6) ++ opt (Some a7)) in HA.
      gp H. fo H AV vo. rewrite (addresses_nil _ AV), app_nil_r in H.
      gp H. fo H HA (Some a1). gp H. fo H HA (Some a2). gp H. fo H HA (Some a3). gp H. fo H HA (Some a4). gp H. fo H HA (Some a5).
      gp H. fo H HA (Some a6). gp H. rewrite <- (app_nil_r (opt (Some a7))) in HA. fo H HA (Some a7). rewrite (addresses_nil _ HA) in H.
      front H x. destruct (free_ok _ _ x _ H) as (m' & E & H' & _). exists m'. split; [exact E|exact H'].
Qed.

Lemma C82_model_lemma : forall cs w, meanings nothing cs = Some w ->
  forall ks is z, lists_cliques w ks -> lists_variables w is ->
  exists m vs cl m1 x m2, run_calls start cs = Ok (m, vs, cl) /\
    new_model m (map (nth_error cl) ks) (map (nth_error vs) is) z = Ok (m1, Some x) /\
    free_model m1 (Some x) = Ok m2 /\ all_free m2.
Proof.
  intros cs w HM ks is z (NK & KK) (NI & II). destruct (program_ok cs w HM) as (m & vs & cl & t & E & INV & R).
  assert (R2 := proj2 R).
  assert (EK : map (nth_error cl) ks = map Some (map (fun k => nth k cl 0) ks)).
  { rewrite map_map. apply map_ext_in. intros k Hk. apply KK in Hk. rewrite R2 in Hk.
    destruct (nth k (t_members t) None) as [mem|] eqn:EM; [|congruence]. apply nth_error_nth'. eapply inv_member_lt; eassumption. }
  assert (EI : map (nth_error vs) is = map Some (map (fun k => nth k vs 0) is)).
  { rewrite map_map. apply map_ext_in. intros v Hv. apply II in Hv. apply nth_error_nth'.
    exact (proj2 (live_has vs (w_vars w) (t_vars t) v (proj1 INV) Hv)). }
  destruct INV as (V & C & X & H). rewrite app_nil_r in H.
  destruct (new_model_ok m _ (map (fun k => nth k cl 0) ks) (map (fun k => nth k vs 0) is) z H) as (m1 & x & g & E1 & MD & H1).
  destruct (free_model_ok m1 vs cl (w_vars w) t x ks is g) as (m2 & E2 & H2).
  - split; [exact V|]. split; [exact C|]. split; [exact X|]. eapply heap_perm; [|exact H1]. apply Permutation_app_comm.
  - exact MD.
  - exact NK.
  - intros k. rewrite KK, R2. destruct (nth k (t_members t) None); split; congruence.
  - exact NI.
  - exact II.
  - exists m, vs, cl, m1, x, m2. split; [exact E|]. split; [rewrite EK, EI; exact E1|]. split; [exact E2|]. apply heap_none. exact H2.
Qed.
