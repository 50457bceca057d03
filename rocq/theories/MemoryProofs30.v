(** * Memory of parsing: freeing the model, and the whole (for C92) *)
From Coq Require Import Permutation String.
From Verif Require Import Base BaseProofs PotentialModel VariableModel HeapProofs GraphModel JoinTreeModel NipModel MemoryModel MemorySpec MemoryProofs MemoryProofs2 MemoryProofs3 MemoryProofs4 MemoryProofs5 MemoryProofs6 MemoryProofs7 MemoryProofs8 MemoryProofs9 MemoryProofs10 MemoryProofs12 MemoryModel3 MemorySpec3 MemoryProofs20 MemoryProofs21 MemoryProofs23 ParseModel NetGrammarModel NetSpec NetGrammarProofs MemoryModel4 MemorySpec4 MemoryProofs26 MemoryProofs28 MemoryProofs29.
Import ListNotations.
Open Scope nat_scope.
Local Open Scope res_scope.
Local Open Scope list_scope.
Local Notation len := List.length.

(** As free_model_ok of MemoryProofs12.v, beside other blocks. *)
Lemma free_model_frame : forall m vs cl live t x ks is g fr, inv m vs cl live t (g ++ fr) -> mdl x (map (fun k => nth k cl 0) ks) (map (fun v => nth v vs 0) is) g ->
  NoDup ks -> (forall k, In k ks <-> nth k (t_members t) None <> None) -> NoDup is -> (forall v, In v is <-> nth v live false = true) ->
  exists m', free_model m (Some x) = Ok m' /\ heap_is m' fr.
Proof.
  intros m vs cl live t x ks is g fr INV M NK KK NI II.
  destruct M as (nc & A & nv & vo & a1 & a2 & a3 & a4 & a5 & a6 & a7 & gv & ga & EC & EV & EG & HV & HA). rewrite map_length in EC, EV.
  set (bx := mdl_block nc A nv vo a1 a2 a3 a4 a5 a6 a7) in *. subst g. cbn [app] in INV. rewrite <- app_assoc in INV. unfold free_model.
  rewrite (num_ok m _ x bx M_ncliques nc (proj2 (proj2 (proj2 INV)))) by (first [reflexivity|apply in_or_app; right; left; reflexivity]). cbn [bind].
  (* cliques *)
  match goal with |- context [for_up 0 nc ?b m] =>
    destruct (for_up_inv memory (fun i m => exists t, inv m vs cl live t ((x, bx) :: (A, ptrs (map (fun k => nth k cl 0) ks)) :: gv ++ ga ++ fr) /\
      forall k, In k (skipn i ks) <-> nth k (t_members t) None <> None) b 0 nc m) as (m1 & E1 & t1 & INV1 & K1) end.
  - lia.
  - exists t. split; [exact INV|exact KK].
  - intros i mt Hi (ti & INVi & Ki). assert (Hh := proj2 (proj2 (proj2 INVi))).
    rewrite (ptr_ok mt _ x bx M_cliques (Some A) Hh) by (first [reflexivity|apply in_or_app; right; left; reflexivity]). cbn [bind].
    destruct (nth_error ks i) as [k|] eqn:EK; [|apply nth_error_None in EK; lia].
    rewrite (ptr_ok mt _ A (ptrs (map (fun k => nth k cl 0) ks)) i (Some (nth k cl 0)) Hh);
      [|apply in_or_app; right; right; left; reflexivity|unfold ptrs; rewrite !nth_error_map, EK; reflexivity]. cbn [bind].
    rewrite (in_skipn ks i k EK) in Ki. destruct (nth k (t_members ti) None) as [mem|] eqn:EM.
    2:{ exfalso. apply (proj1 (Ki k)); [left; reflexivity|exact EM]. }
    destruct (free_clique_ok mt vs cl live ti _ k mem INVi EM) as (m' & t' & E & INV' & _ & QM & _). exists m'. split; [exact E|].
    exists t'. split; [exact INV'|]. intros j. rewrite QM. rewrite nth_set by (eapply nth_some; exact EM).
    assert (NJ : ~ In k (skipn (S i) ks)).
    { assert (N2 : NoDup (skipn i ks)). { rewrite <- (firstn_skipn i ks) in NK. apply NoDup_right in NK. exact NK. }
      rewrite (in_skipn ks i k EK) in N2. inversion N2. assumption. }
    destruct (Nat.eqb_spec j k) as [D|D].
    + subst j. split; [intros Z; contradiction|congruence].
    + rewrite <- Ki. cbn [In]. split; [auto|]. intros [Z|Z]; [congruence|exact Z].
  - rewrite E1. cbn [bind]. clear E1 INV t KK. rewrite EC, skipn_all in K1. assert (Hh := proj2 (proj2 (proj2 INV1))).
    rewrite (ptr_ok m1 _ x bx M_cliques (Some A) Hh) by (first [reflexivity|apply in_or_app; right; left; reflexivity]). cbn [bind].
    destruct INV1 as (V1 & C1 & X1 & H1).
    match type of H1 with heap_is ?M ?F => eapply (heap_perm M F ((A, _) :: blocks_of t1 ++ (x, bx) :: gv ++ ga ++ fr)) in H1; [|perm] end.
    destruct (free_ok _ _ A _ H1) as (m2 & E2 & H2 & _). rewrite E2. cbn [bind]. clear E2 H1 Hh.
    assert (INV2 : inv m2 vs cl live t1 ((x, bx) :: gv ++ ga ++ fr)) by (split; [exact V1|split; [exact C1|split; [exact X1|exact H2]]]).
    rewrite (num_ok m2 _ x bx M_nvars nv H2) by (first [reflexivity|apply in_or_app; right; left; reflexivity]). cbn [bind].
    (* variables *)
    match goal with |- context [for_up 0 nv ?b m2] =>
      destruct (for_up_inv memory (fun i m => exists live t, inv m vs cl live t ((x, bx) :: gv ++ ga ++ fr) /\ t_members t = t_members t1 /\
        forall v, In v (skipn i is) <-> nth v live false = true) b 0 nv m2) as (m3 & E3 & live3 & t3 & INV3 & QM & K3) end.
    + lia.
    + exists live, t1. split; [exact INV2|]. split; [reflexivity|exact II].
    + intros i mt Hi (li & ti & INVi & QM & Ki). assert (Hh := proj2 (proj2 (proj2 INVi))).
      rewrite (ptr_ok mt _ x bx M_vars vo Hh) by (first [reflexivity|apply in_or_app; right; left; reflexivity]). cbn [bind].
      destruct (nth_error is i) as [v|] eqn:EK; [|apply nth_error_None in EK; lia].
      destruct vo as [V|]; [|destruct HV as (HV & _); apply map_eq_nil in HV; subst is; destruct i; discriminate]. subst gv.
      rewrite (ptr_ok mt _ V (ptrs (map (fun v => nth v vs 0) is)) i (Some (nth v vs 0)) Hh);
        [|apply in_or_app; right; right; left; reflexivity|unfold ptrs; rewrite !nth_error_map, EK; reflexivity]. cbn [bind].
      rewrite (in_skipn is i v EK) in Ki. assert (LV : nth v li false = true) by (apply Ki; left; reflexivity).
      assert (VO := proj1 INVi). destruct (live_has vs li (t_vars ti) v VO LV) as (_ & LT).
      assert (X := proj2 (proj2 VO) v LT). rewrite LV in X. destruct X as (card & X).
      destruct (free_variable_ok mt _ _ _ _ _ X (take_var _ _ _ _ _ _ v INVi LT)) as (m' & E & H').
      exists m'. split; [exact E|].
      destruct (change_var mt vs cl li ti _ v [] INVi LT m' (set_nth li v false)) as (t' & INV' & Q1 & Q2 & Q3 & Q4).
      * rewrite set_nth_length. exact (proj1 VO).
      * intros j D. rewrite nth_set by (rewrite (proj1 VO); exact LT). destruct (Nat.eqb_spec j v); [congruence|reflexivity].
      * rewrite nth_set, Nat.eqb_refl by (rewrite (proj1 VO); exact LT). reflexivity.
      * exact H'.
      * exists (set_nth li v false), t'. split; [exact INV'|]. split; [congruence|]. intros j. rewrite nth_set by (rewrite (proj1 VO); exact LT).
        assert (NJ : ~ In v (skipn (S i) is)).
        { assert (N2 : NoDup (skipn i is)). { rewrite <- (firstn_skipn i is) in NI. apply NoDup_right in NI. exact NI. }
          rewrite (in_skipn is i v EK) in N2. inversion N2. assumption. }
        destruct (Nat.eqb_spec j v) as [D|D].
        -- subst j. split; [intros Z; contradiction|congruence].
        -- rewrite <- Ki. cbn [In]. split; [auto|]. intros [Z|Z]; [congruence|exact Z].
    + rewrite E3. cbn [bind]. clear E3. rewrite EV, skipn_all in K3.
      assert (H : heap_is m3 ((x, bx) :: gv ++ ga ++ fr)).
      { apply (inv_empty m3 vs cl live3 t3 _ INV3).
        - intros v. destruct (nth v live3 false) eqn:EE; [exfalso; exact (proj2 (K3 v) EE)|reflexivity].
        - intros k. rewrite QM. destruct (nth k (t_members t1) None) as [mm|] eqn:EE; [exfalso; apply (K1 k); rewrite EE; discriminate|reflexivity]. }
      clear INV3 INV2 H2 V1 C1 X1. unfold bx, mdl_block in H. clear bx.
      assert (AV : addresses gv (opt vo ++ [])) by (destruct vo as [V|]; [subst gv; apply Permutation_refl|destruct HV as (_ & ->); apply Permutation_refl]).
      change [a1; a2; a3; a4; a5; a6; a7] with (opt (Some a1) ++ opt (Some a2) ++ opt (Some a3) ++ opt (Some a4) ++ opt (Some a5) ++ opt (Some a6) ++ opt (Some a7)) in HA.
      gp H. fo H AV vo. rewrite (addresses_nil _ AV), app_nil_r in H.
      gp H. fo H HA (Some a1). gp H. fo H HA (Some a2). gp H. fo H HA (Some a3). gp H. fo H HA (Some a4). gp H. fo H HA (Some a5).
      gp H. fo H HA (Some a6). gp H. rewrite <- (app_nil_r (opt (Some a7))) in HA. fo H HA (Some a7). rewrite (addresses_nil _ HA) in H.
      front H x. destruct (free_ok _ _ x _ H) as (m' & E & H' & _). rewrite !app_nil_r in H'. exists m'. split; [exact E|exact H'].
Qed.


(** ** Calls that build *)
Definition building (c : call) : Prop := match c with NewClique _ | Connect _ _ => True | _ => False end.
Lemma change_some : forall f w, (forall k c, f k c <> None) -> Forall (fun c => c <> None) (w_cliques w) -> Forall (fun c => c <> None) (w_cliques (MemorySpec.change f w)) /\ w_vars (MemorySpec.change f w) = w_vars w.
Proof.
  intros f w F H. split; [|reflexivity]. unfold MemorySpec.change. cbn [w_cliques]. generalize 0. induction H as [|c l Hc H IH]; intros i; cbn [len seq combine map]; constructor.
  - cbn [fst snd]. destruct c; [apply F|congruence].
  - apply IH.
Qed.
Lemma building_ok : forall cs w w', Forall building cs -> meanings w cs = Some w' -> Forall (fun c => c <> None) (w_cliques w) ->
  Forall (fun c => c <> None) (w_cliques w') /\ w_vars w' = w_vars w.
Proof.
  intros cs w w' B. revert w. induction B as [|c cs Bc B IH]; intros w E H; cbn [meanings] in E; [injection E as <-; auto|].
  destruct (meaning w c) as [w1|] eqn:E1; [|discriminate E]. destruct c; cbn in Bc; try contradiction; cbn [meaning] in E1.
  - destruct (forallb (exists_var w) members); [|discriminate E1]. injection E1 as <-. destruct (IH _ E) as (A1 & A2); [|auto]. cbn [w_cliques]. apply Forall_app. split; [exact H|]. constructor; [discriminate|constructor].
  - destruct (clique_of w a) as [[ma na]|]; [|discriminate E1]. destruct (clique_of w b) as [[mb nb]|]; [|discriminate E1].
    match type of E1 with (if ?q then _ else _) = _ => destruct q end; [|discriminate E1]. injection E1 as <-.
    destruct (change_some (fun k c => Some (if Nat.eqb k a then (fst c, b :: snd c) else c)) w) as (H1 & V1); [discriminate|exact H|].
    destruct (change_some (fun k c => Some (if Nat.eqb k b then (fst c, a :: snd c) else c)) (with_neighbour a b w)) as (H2 & V2); [discriminate|exact H1|].
    destruct (IH _ E H2) as (A1 & A2). split; [exact A1|]. rewrite A2. exact (eq_trans V2 V1).
Qed.
Lemma tree_building : forall base jt, Forall building (tree_calls base jt).
Proof. intros base jt. unfold tree_calls. apply Forall_app. split; apply Forall_forall; intros c Hc; apply in_map_iff in Hc; destruct Hc as (x & <- & _); exact Logic.I. Qed.
Lemma all_members : forall w cl t, rep w cl t -> Forall (fun c => c <> None) (w_cliques w) ->
  forall k, In k (rev (seq 0 (len cl))) <-> nth k (t_members t) None <> None.
Proof.
  intros w cl t (L & R) H k. rewrite <- in_rev, in_seq. rewrite Forall_forall in H.
  assert (Q : nth k (t_members t) None <> None <-> clique_of w k <> None) by (rewrite R; destruct (nth k (t_members t) None); split; congruence).
  rewrite Q. unfold clique_of. destruct (nth_error (w_cliques w) k) as [c|] eqn:E.
  - split; [intros _; apply H; eapply nth_error_In; exact E|]. intros _. split; [lia|]. cbn. rewrite <- L. apply nth_error_Some. congruence.
  - apply nth_error_None in E. split; [lia|congruence].
Qed.

(** The memory [F] of the model at [x] with the variables at [vs], and [rest]. *)
Definition holds (x : nat) (vs : list nat) (rest F : fp) : Prop :=
  exists cl live t gm ks, F = blocks_of t ++ gm ++ rest /\ vars_ok vs live (t_vars t) /\ cliques_ok vs cl t /\
    Forall (edge_ok cl (t_members t)) (t_edges t) /\ mdl x (map (fun k => nth k cl 0) ks) vs gm /\ NoDup ks /\
    (forall k, In k ks <-> nth k (t_members t) None <> None) /\ (forall v, v < length vs -> nth v live false = true).
Lemma holds_free : forall m x vs rest F tmp, holds x vs rest F -> heap_is m (tmp ++ F) ->
  exists m', free_model m (Some x) = Ok m' /\ heap_is m' (tmp ++ rest).
Proof.
  intros m x vs rest F tmp (cl & live & t & gm & ks & -> & V & C & E & MD & NK & KK & LV) H.
  destruct (free_model_frame m vs cl live t x ks (seq 0 (length vs)) gm (tmp ++ rest)) as (m' & EF & HF).
  - split; [exact V|]. split; [exact C|]. split; [exact E|]. eapply heap_perm; [|exact H]. perm.
  - assert (ES : forall (l : list nat), map (fun v => nth v l 0) (seq 0 (length l)) = l).
    { induction l as [|a l IH]; [reflexivity|]. cbn [length seq map]. f_equal. rewrite <- seq_shift, map_map. exact IH. }
    rewrite ES. exact MD.
  - exact NK.
  - exact KK.
  - apply seq_NoDup.
  - intros v. rewrite in_seq. split; [intros (_ & Q); apply LV; exact Q|]. intros Q. split; [lia|]. exact (proj2 (live_has vs live _ v V Q)).
  - exists m'. auto.
Qed.
