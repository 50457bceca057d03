(** * Examples for learning and sampling *)
From Coq Require Import Permutation.
From Verif Require Import Base BaseProofs PotentialModel PotentialSpec VariableModel JoinTreeModel
  AssignSpec JoinTreeSpec JoinTreeCheck NipModel NipSpec NipCheck SliceModel SliceSpec SliceCheck
  LearnModel LearnSpec.
Import ListNotations.
Open Scope nat_scope.

Lemma dbn_topological : topological dbn [0; 1; 2; 3].
Proof.
  split; [reflexivity|]. intros l1 v l2 E p Hp.
  do 4 (destruct l1 as [|? l1]; [inversion E; subst; vm_compute in Hp; vm_compute; tauto|injection E; clear E; intros E <-]).
  destruct l1; discriminate.
Qed.
Lemma dbn_learnable : learnable dbn_card dbn.
Proof.
  split.
  - exact dbn_ok.
  - intros v Hv. do 4 (destruct v as [|v]; [apply nodupb_ok; reflexivity|]). cbn in Hv. lia.
  - intros v Hv. do 4 (destruct v as [|v]; [cbn; split; [intros; try discriminate; tauto|intros K; try reflexivity; lia]|]).
    cbn in Hv. lia.
  - intros v [<-|[]]. cbn. tauto.
  - exists [0; 1; 2; 3]. exact dbn_topological.
Qed.

(** Expected counts for dbn. *)
Definition dbn_ps : list potential :=
  [mkPot [2] [qn 1; qn 2]; mkPot [2; 2] [qn 1; qn 0; qn 3; qn 2]; mkPot [2] [qn 0; qn 1];
   mkPot [3; 2; 2] (map qn [1; 2; 3; 0; 1; 0; 4; 4; 1; 1; 1; 1]%Z)].
Lemma dbn_ps_ok : params_ok dbn_card dbn dbn_ps.
Proof.
  split; [reflexivity|]. intros v Hv.
  do 4 (destruct v as [|v]; [split; [apply wfb_ok; vm_compute; reflexivity|split; [reflexivity|apply nonnegb_ok; vm_compute; reflexivity]]|]).
  cbn in Hv. lia.
Qed.

(** One binary variable. *)
Definition coin : model :=
  mkModel [mkVar 2 [qn 1; qn 1] (Some [qr 1 4; qr 3 4]) false [] None None false 2]
    (mkJT [mkClique [0] (mkPot [2] [qn 1; qn 1]) (mkPot [2] [qn 1; qn 1]) [] false] []) [0] [] [] [] 0 0.
Definition coin_card (v : nat) : nat := 2.
Lemma coin_learnable : learnable coin_card coin.
Proof.
  split.
  - apply (slicesb_ok _ _ []); [intros; unfold coin_card; lia|]. vm_compute. reflexivity.
  - intros [|v] Hv; [apply nodupb_ok; reflexivity|cbn in Hv; lia].
  - intros [|v] Hv; [cbn; tauto|cbn in Hv; lia].
  - intros v [].
  - exists [0]. split; [reflexivity|]. intros l1 v l2 E p Hp. destruct l1 as [|x l1]; [inversion E; subst; destruct Hp|].
    destruct l1; discriminate.
Qed.
Definition coin_ts : time_series := mkTS [0] [[0]]%Z.
Lemma coin_ts_ok : series_ok coin coin_ts.
Proof. split; [apply nodupb_ok; reflexivity|]. split; [intros v [<-|[]]; cbn; lia|repeat constructor]. Qed.

(** Two variables that are parents of each other. *)
Definition ring2 : model :=
  mkModel [dbn_var 0 [1] None false 2; dbn_var 1 [0] None false 2]
    (mkJT [mkClique [0; 1] dbn_t dbn_t [] false] []) [] [0; 1] [] [] 0 0.
Lemma ring2_ok : slices_ok dbn_card ring2.
Proof. apply (slicesb_ok _ _ []); [exact dbn_card_pos|]. vm_compute. reflexivity. Qed.
Lemma ring2_cyclic : forall l, ~ topological ring2 l.
Proof.
  intros l (P & F). destruct l as [|x l]; [apply Permutation_length in P; discriminate|].
  assert (X : x < 2). { assert (K : In x (seq 0 2)) by (eapply Permutation_in; [exact P|now left]). apply in_seq in K. lia. }
  assert (K := F [] x l eq_refl). destruct x as [|[|x]]; [| |lia]; cbn in K; specialize (K _ (or_introl eq_refl)); destruct K.
Qed.

(** The factors of dbn. *)
Definition dbn_factor (v : nat) : (nat -> nat) -> Qc :=
  match v with 1 => den [0; 1] dbn_t | _ => den [1; 2; 3] dbn_e end.
Lemma dbn_cases : forall a, valid dbn_card a -> a 0 < 2 /\ a 1 < 2 /\ a 2 < 2 /\ a 3 < 3.
Proof. intros a H. exact (conj (H 0) (conj (H 1) (conj (H 2) (H 3)))). Qed.
Lemma dbn_factored : factored dbn_card dbn dbn_factor.
Proof.
  intros k a Hk Ha.
  assert (H0 : housed dbn 0 (seq 0 4) = [1]) by reflexivity. assert (H1 : housed dbn 1 (seq 0 4) = [3]) by reflexivity.
  change (length (m_vars dbn)) with 4. destruct k as [|[|k]]; [rewrite H0|rewrite H1|cbn in Hk; lia]; cbn [map qprod]; rewrite Qcmult_1_r; reflexivity.
Qed.
Lemma dbn_factors : conditional_factors dbn_card dbn dbn_factor.
Proof.
  intros v Hv HP. destruct v as [|[|[|[|v]]]]; try (cbn in HP; congruence); [| |cbn in Hv; lia]; (split; [intros a b E; unfold dbn_factor, den; f_equal; apply map_ext_in; intros w Hw; apply E; cbn in *; tauto|]);
    intros a Ha; destruct (dbn_cases a Ha) as (A0 & A1 & A2 & A3); apply Qc_is_canon; unfold dbn_factor, den; cbn [map sumv upd Nat.eqb dbn_card seq].
  - destruct (a 0) as [|[|]]; try lia; vm_compute; reflexivity.
  - destruct (a 1) as [|[|]]; try lia; destruct (a 2) as [|[|]]; try lia; vm_compute; reflexivity.
Qed.
Lemma dbn_initial : initial_ok dbn_card dbn None.
Proof.
  intros k v a Hk Hv HI Ha E. destruct (dbn_cases a Ha) as (A0 & A1 & A2 & A3). apply (f_equal this) in E. revert E.
  destruct k as [|[|k]]; [| |cbn in Hk; lia]; destruct v as [|[|[|[|v]]]]; try (cbn in Hv; lia);
    try (exfalso; specialize (HI _ (or_introl eq_refl)); vm_compute in HI; lia);
    try (exfalso; specialize (HI _ (or_intror (or_introl eq_refl))); vm_compute in HI; lia).
  all: unfold den; cbn -[cell this dbn_t dbn_e];
    try destruct (a 0) as [|[|]]; try lia; try destruct (a 1) as [|[|]]; try lia; try destruct (a 2) as [|[|]]; try lia; vm_compute; discriminate.
Qed.
