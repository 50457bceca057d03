(** * Proofs about memory: series beside join trees (C83) and models (C82) *)
From Coq Require Import Permutation.
From Verif Require Import Base BaseProofs HeapProofs MemoryModel MemorySpec MemoryProofs MemoryProofs2 MemoryProofs3 MemoryProofs4 MemoryProofs5 MemoryProofs6 MemoryProofs7 MemoryProofs8 MemoryProofs9 MemoryProofs10.
Import ListNotations.
Open Scope nat_scope.
Local Open Scope res_scope.

(** ** Series *)
Definition all_ok (Q : nat -> fp -> Prop) (ys : list nat) (live : list bool) (G : list fp) : Prop :=
  length live = length ys /\ length G = length ys /\
  forall i, i < length ys -> if nth i live false then Q (nth i ys 0) (nth i G []) else nth i G [] = [].

Lemma all_new : forall (Q : nat -> fp -> Prop) ys live G y g, all_ok Q ys live G -> Q y g -> all_ok Q (ys ++ [y]) (live ++ [true]) (G ++ [g]).
Proof.
  intros Q ys live G y g (L1 & L2 & H) HQ. unfold all_ok. rewrite !app_length. cbn [length]. split; [lia|]. split; [lia|]. intros i Hi.
  destruct (Nat.eq_dec i (length ys)) as [D|D].
  - subst i. rewrite !nth_new by lia. exact HQ.
  - rewrite !app_nth1 by lia. apply H. lia.
Qed.
Lemma all_live : forall (Q : nat -> fp -> Prop) ys live G y, all_ok Q ys live G -> nth y live false = true -> y < length ys /\ Q (nth y ys 0) (nth y G []).
Proof.
  intros Q ys live G y (L1 & L2 & H) HL. assert (LI : y < length ys).
  { rewrite <- L1. destruct (Nat.lt_ge_cases y (length live)) as [X|X]; [exact X|]. rewrite nth_overflow in HL by exact X. discriminate. }
  split; [exact LI|]. assert (X := H y LI). rewrite HL in X. exact X.
Qed.
Lemma all_free_one : forall (Q : nat -> fp -> Prop) ys live G y, all_ok Q ys live G -> y < length ys -> all_ok Q ys (set_nth live y false) (set_nth G y []).
Proof.
  intros Q ys live G y (L1 & L2 & H) HL. unfold all_ok. rewrite !set_nth_length. split; [exact L1|]. split; [exact L2|]. intros i Hi.
  rewrite !nth_set by lia. destruct (Nat.eqb_spec i y); [reflexivity|]. apply H. exact Hi.
Qed.
Lemma all_none : forall (Q : nat -> fp -> Prop) ys live G, all_ok Q ys live G -> (forall i, nth i live false = false) -> concat G = [].
Proof.
  intros Q ys live G (L1 & L2 & H) HN. apply concat_nil. intros k. destruct (Nat.lt_ge_cases k (length ys)) as [L|L]; [|apply nth_overflow; lia].
  assert (X := H k L). rewrite HN in X. exact X.
Qed.

Definition goal2 (t : things) (r : res (state * list nat * list nat)) : Prop :=
  exists m vs cl ys us T G U, r = Ok ((m, vs, cl), ys, us) /\ inv m vs cl (w_vars (t_world t)) T (concat G ++ concat U) /\ rep (t_world t) cl T /\
    all_ok ser ys (t_series t) G /\ all_ok unc us (t_results t) U.

Lemma run_action_ok : forall t t' m vs cl ys us T G U a,
  inv m vs cl (w_vars (t_world t)) T (concat G ++ concat U) -> rep (t_world t) cl T ->
  all_ok ser ys (t_series t) G -> all_ok unc us (t_results t) U -> effect t a = Some t' ->
  goal2 t' (run_action ((m, vs, cl), ys, us) a).
Proof.
  intros t t' m vs cl ys us T G U a INV R AS AU HE. destruct a as [c|h o n|y|cards n|u]; cbn [effect] in HE; unfold run_action.
  - destruct (meaning (t_world t) c) as [w|] eqn:HM; [|discriminate]. injection HE as <-.
    destruct (run_call_ok m vs cl (t_world t) w T _ c INV R HM) as (m' & vs' & cl' & T' & E & INV' & R'). rewrite E. cbn [bind].
    exists m', vs', cl', ys, us, T', G, U. cbn [t_world t_series t_results]. auto.
  - injection HE as <-. destruct INV as (A & B & C & H). destruct (new_timeseries_ok m _ h o n H) as (m' & y & g & E & Y & H').
    rewrite E. cbn [bind address]. exists m', vs, cl, (ys ++ [y]), us, T, (G ++ [g]), U. cbn [t_world t_series t_results].
    split; [reflexivity|]. split; [|split; [exact R|split; [apply all_new; assumption|exact AU]]].
    split; [exact A|]. split; [exact B|]. split; [exact C|]. rewrite concat_add. eapply heap_perm; [|exact H']. perm.
  - destruct (nth y (t_series t) false) eqn:HL; [|discriminate]. injection HE as <-. destruct (all_live _ _ _ _ _ AS HL) as (LY & Y).
    rewrite (rd_nth _ ys y 0 LY). cbn [bind]. destruct INV as (A & B & C & H).
    apply (heap_perm m _ (nth y G [] ++ blocks_of T ++ concat (set_nth G y []) ++ concat U)) in H.
    2:{ eapply perm_trans; [apply Permutation_app_head; apply Permutation_app_tail; apply (concat_pull G y)|perm]. destruct AS as (_ & L2 & _). lia. }
    destruct (free_timeseries_ok m _ _ _ Y H) as (m' & E & H'). rewrite E. cbn [bind].
    exists m', vs, cl, ys, us, T, (set_nth G y []), U. cbn [t_world t_series t_results].
    split; [reflexivity|]. split; [|split; [exact R|split; [apply all_free_one; assumption|exact AU]]].
    split; [exact A|]. split; [exact B|]. split; [exact C|exact H'].
  - injection HE as <-. destruct INV as (A & B & C & H). destruct (new_uncertainseries_ok m _ cards n H) as (m' & u & g & E & Y & H').
    rewrite E. cbn [bind address]. exists m', vs, cl, ys, (us ++ [u]), T, G, (U ++ [g]). cbn [t_world t_series t_results].
    split; [reflexivity|]. split; [|split; [exact R|split; [exact AS|apply all_new; assumption]]].
    split; [exact A|]. split; [exact B|]. split; [exact C|]. rewrite concat_add. eapply heap_perm; [|exact H']. perm.
  - destruct (nth u (t_results t) false) eqn:HL; [|discriminate]. injection HE as <-. destruct (all_live _ _ _ _ _ AU HL) as (LY & Y).
    rewrite (rd_nth _ us u 0 LY). cbn [bind]. destruct INV as (A & B & C & H).
    apply (heap_perm m _ (nth u U [] ++ blocks_of T ++ concat G ++ concat (set_nth U u []))) in H.
    2:{ eapply perm_trans; [apply Permutation_app_head; apply Permutation_app_head; apply (concat_pull U u)|perm]. destruct AU as (_ & L2 & _). lia. }
    destruct (free_uncertainseries_ok m _ _ _ Y H) as (m' & E & H'). rewrite E. cbn [bind].
    exists m', vs, cl, ys, us, T, G, (set_nth U u []). cbn [t_world t_series t_results].
    split; [reflexivity|]. split; [|split; [exact R|split; [exact AS|apply all_free_one; assumption]]].
    split; [exact A|]. split; [exact B|]. split; [exact C|exact H'].
Qed.

Lemma run_actions_ok : forall l t t' m vs cl ys us T G U,
  inv m vs cl (w_vars (t_world t)) T (concat G ++ concat U) -> rep (t_world t) cl T ->
  all_ok ser ys (t_series t) G -> all_ok unc us (t_results t) U -> effects t l = Some t' ->
  goal2 t' (run_actions ((m, vs, cl), ys, us) l).
Proof.
  induction l as [|a l IH]; intros t t' m vs cl ys us T G U INV R AS AU HE; cbn [effects run_actions] in *.
  - injection HE as <-. exists m, vs, cl, ys, us, T, G, U. auto.
  - destruct (effect t a) as [t1|] eqn:E; [|discriminate].
    destruct (run_action_ok t t1 m vs cl ys us T G U a INV R AS AU E) as (m1 & vs1 & cl1 & ys1 & us1 & T1 & G1 & U1 & E1 & I1 & R1 & A1 & B1).
    rewrite E1. cbn [bind]. eapply IH; eassumption.
Qed.

Lemma C83_lemma : forall l t, effects no_things l = Some t ->
  exists m vs cl ys us, run_actions (start, [], []) l = Ok ((m, vs, cl), ys, us) /\
    length vs = length (w_vars (t_world t)) /\ length cl = length (w_cliques (t_world t)) /\
    length ys = length (t_series t) /\ length us = length (t_results t) /\
    (forall a mem nb, clique_of (t_world t) a = Some (mem, nb) -> has_neighbours m (nth a cl 0) (map (fun b => nth b cl 0) nb)) /\
    ((forall v, exists_var (t_world t) v = false) -> (forall a, clique_of (t_world t) a = None) ->
     (forall y, nth y (t_series t) false = false) -> (forall u, nth u (t_results t) false = false) -> all_free m).
Proof.
  intros l t HE. destruct start_ok as (A & B).
  assert (Z : forall Q, all_ok Q [] [] []) by (intros Q; split; [reflexivity|split; [reflexivity|intros i Hi; cbn in Hi; lia]]).
  destruct (run_actions_ok l no_things t [] [] [] [] [] _ [] [] A B (Z ser) (Z unc) HE) as (m & vs & cl & ys & us & T & G & U & E & INV & R & AS & AU).
  exists m, vs, cl, ys, us. split; [exact E|]. split; [symmetry; exact (proj1 (proj1 INV))|]. split; [symmetry; exact (proj1 R)|].
  split; [symmetry; exact (proj1 AS)|]. split; [symmetry; exact (proj1 AU)|]. split.
  - intros a mem nb CA. destruct (rep_some _ cl T a mem nb R CA) as (MA & ->). eapply inv_neighbours; eassumption.
  - intros NV NC NS NU. apply heap_none. rewrite (all_none _ _ _ _ AS NS), (all_none _ _ _ _ AU NU) in INV.
    apply (inv_empty m vs cl _ T [] INV NV). intros k. destruct R as (_ & R2). assert (X := NC k). rewrite R2 in X.
    destruct (nth k (t_members T) None); [discriminate|reflexivity].
Qed.
