(** * A concrete file for the theorems about the parser *)
From Coq Require Import Permutation Sorted String QArith Qcanon.
From Verif Require Import Base BaseProofs PotentialModel PotentialSpec VariableModel JoinTreeModel
  AssignSpec JoinTreeSpec NipModel NipSpec SliceModel SliceSpec LearnSpec GraphModel GraphSpec
  GraphCheck ParseModel ParseSpec ParseProofs3 ParseProofs8 ParseProofs9.
Import ListNotations.
Open Scope nat_scope.
Local Open Scope string_scope.
Local Notation len := List.length.

(** A hidden Markov model: Y depends on X, X on X0, the X of the previous time
    slice. *)
Definition px_net : net := mkNet
  [ mkNode "Y" (Some "output") (Some ["low"; "high"; "off"]) None;
    mkNode "X" (Some "state") (Some ["a"; "b"]) None;
    mkNode "X0" (Some "old state") (Some ["a"; "b"]) (Some "X") ]
  [ mkDecl "X0" None (Some [Q2Qc (1 # 4); Q2Qc (3 # 4)]);
    mkDecl "X" (Some ["X0"]) (Some [Q2Qc (9 # 10); Q2Qc (1 # 10); Q2Qc (2 # 10); Q2Qc (8 # 10)]);
    mkDecl "Y" (Some ["X"]) (Some [Q2Qc (1 # 2); Q2Qc (1 # 4); Q2Qc (1 # 4); Q2Qc (1 # 8); Q2Qc (3 # 8); Q2Qc (4 # 8)]) ].
(** The same with the nodes in the opposite order. *)
Definition px_rev : net := mkNet (rev (n_nodes px_net)) (n_potentials px_net).
(** Any costs. *)
Definition kz : list pvar -> list nat -> Z := fun _ _ => 0%Z.

Ltac in_cases H := repeat (destruct H as [<-|H]; [|]); [..|destruct H].
Ltac pots H := cbn in H; repeat (destruct H as [<-|H]; [try reflexivity|]); [..|try destruct H].

Lemma px_decl_ok : forall t, t = px_net \/ t = px_rev -> forall d, In d (n_potentials t) -> decl_ok t d.
Proof.
  intros t Ht d Hd. assert (Hd' : In d (n_potentials px_net)) by (destruct Ht; subst; exact Hd). clear Hd.
  assert (SY : forall s, In s ["X0"; "X"; "Y"] -> In s (symbols t)).
  { intros s Hs. destruct Ht; subst t; cbn in *; tauto. }
  assert (C : forall l, cells_of t d <= len l -> Forall (fun x => (0 <= x)%Qc) l -> pd_data d = Some l ->
     forall l', pd_data d = Some l' -> cells_of t d <= len l' /\ Forall (fun x => (0 <= x)%Qc) l').
  { intros l A B E l' E'. rewrite E in E'. injection E' as <-. auto. }
  assert (Q : exists l, pd_data d = Some l /\ cells_of t d = len l /\ len l <= 6 /\ Forall (fun x => (0 <= x)%Qc) l).
  { cbn in Hd'. destruct Ht; subst t; repeat (destruct Hd' as [<-|Hd']; [eexists; split; [reflexivity|]; split; [reflexivity|]; split; [cbn; lia|repeat constructor; discriminate]|]); destruct Hd'. }
  destruct Q as (l & E & L & L6 & F). split; [|split; [|split; [|split]]].
  - intros s Hs. apply SY. cbn in Hd'. repeat (destruct Hd' as [<-|Hd']; [cbn in *; tauto|]). destruct Hd'.
  - cbn in Hd'. repeat (destruct Hd' as [<-|Hd']; [repeat constructor; cbn; intuition discriminate|]). destruct Hd'.
  - cbn in Hd'. repeat (destruct Hd' as [<-|Hd']; [discriminate|]). destruct Hd'.
  - apply (C l); auto. lia.
  - rewrite L. unfold INT_MAX. lia.
Qed.

Lemma px_ok_gen : forall t, t = px_net \/ t = px_rev -> net_ok t.
Proof.
  intros t Ht. constructor.
  - destruct Ht; subst t; discriminate.
  - split; destruct Ht; subst t; cbn; repeat constructor; cbn; intuition (try discriminate; lia).
  - intros d Hd. destruct Ht; subst t; cbn in Hd; repeat (destruct Hd as [<-|Hd]; [split; discriminate|]); destruct Hd.
  - intros l1 d1 l2 d2 l3 E _. assert (I : In d2 (n_nodes t)) by (rewrite E; apply in_or_app; right; right; apply in_elt).
    destruct Ht; subst t; cbn in I; repeat (destruct I as [<-|I]; [discriminate|]); destruct I.
  - destruct Ht; subst t.
    + apply Permutation_sym. apply (Permutation_rev ["Y"; "X"; "X0"]).
    + apply Permutation_refl.
  - now apply px_decl_ok.
  - intros d s Hd. destruct Ht; subst t; cbn in Hd;
      repeat (destruct Hd as [<-|Hd]; [cbn; intros E; first [discriminate E|injection E as <-; cbn; auto 6]|]); destruct Hd.
  - intros d1 d2 s H1 H2 E1 E2.
    destruct Ht; subst t; cbn in H1, H2;
    (repeat (destruct H1 as [<-|H1]; [try discriminate E1|]); [..|try destruct H1]);
    (repeat (destruct H2 as [<-|H2]; [try discriminate E2|]); [..|try destruct H2]); reflexivity.
  - intros d Hd HP. assert (Hd' : In d (n_potentials px_net)) by (destruct Ht; subst; exact Hd). cbn in Hd'.
    destruct Hd' as [<-|[<-|[<-|[]]]]; try discriminate HP.
    exists (Q2Qc (1 # 4)). split; [|reflexivity]. destruct Ht; subst t; cbn; auto.
  - destruct Ht; subst t; cbn; unfold INT_MAX; lia.
Qed.
Lemma px_ok : net_ok px_net.
Proof. apply px_ok_gen. auto. Qed.
Lemma px_rev_ok : net_ok px_rev.
Proof. apply px_ok_gen. auto. Qed.

Lemma px_children_first : children_first px_net.
Proof.
  intros u v (d & Hd & <- & Hu). cbn in Hd.
  destruct Hd as [<-|[<-|[<-|[]]]]; cbn in Hu; repeat (destruct Hu as [<-|Hu]; [cbn; lia|]); destruct Hu.
Qed.
Lemma px_roots : roots_given px_net.
Proof. intros d Hd. cbn in Hd. destruct Hd as [<-|[<-|[<-|[]]]]; discriminate. Qed.

Lemma card_two : forall a, valid (card_in px_net) a -> a 0 < 3 /\ a 1 < 2 /\ a 2 < 2.
Proof. intros a H. split; [|split]; apply H. Qed.
Lemma px_proper : proper px_net.
Proof.
  intros d a Hd Ha. destruct (card_two a Ha) as (A0 & A1 & A2). cbn in Hd.
  destruct Hd as [<-|[<-|[<-|[]]]]; unfold sumv, upd, den, cell, family_of, child_of, parents_of; cbn;
    destruct (a 2) as [|[|]]; try lia; destruct (a 1) as [|[|]]; try lia; apply Qc_is_canon; vm_compute; reflexivity.
Qed.
