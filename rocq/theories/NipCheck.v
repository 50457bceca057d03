(** * Boolean checks of the hypotheses about models, and an example model *)
From Coq Require Import String.
From Verif Require Import Base BaseProofs PotentialModel PotentialSpec VariableModel JoinTreeModel
  AssignSpec JoinTreeSpec JoinTreeCheck VariableProofs NipModel NipSpec.
Import ListNotations.
Open Scope nat_scope.

Definition vectorb (card : nat -> nat) (v : nat) (l : list Qc) : bool :=
  Nat.eqb (length l) (card v) && forallb (fun x => if Qclt_le_dec x 0%Qc then false else true) l.
Lemma vectorb_ok : forall card v l, vectorb card v l = true -> vector_ok card v l.
Proof.
  intros card v l H. apply andb_prop in H. destruct H as (H1 & H2). split; [now apply Nat.eqb_eq|].
  apply Forall_forall. intros x Hx. rewrite forallb_forall in H2. specialize (H2 x Hx).
  destruct (Qclt_le_dec x 0%Qc); [discriminate|auto].
Qed.
(** (For variables without a remembered clique and mapping.) *)
Definition varb (card : nat -> nat) (jt : jtree) (v : nat) (x : vrec) : bool :=
  Nat.eqb (v_card x) (card v) && vectorb card v (v_lik x) &&
  existsb (fun k => inclb (v :: v_parents x) (c_vars (clq jt k))) (seq 0 (length (cls jt))) &&
  match v_family x with None => true | _ => false end &&
  match v_fmap x with None => true | _ => false end.
Lemma varb_ok : forall card jt v x, varb card jt v x = true -> var_ok card jt v x.
Proof.
  intros card jt v x H. unfold varb in H. rewrite !andb_true_iff in H.
  destruct H as ((((H1 & H2) & H3) & H4) & H5). split; [now apply Nat.eqb_eq|].
  split; [now apply vectorb_ok|]. split.
  { apply existsb_exists in H3. destruct H3 as (k & Hk & H3). apply in_seq in Hk. exists k.
    split; [lia|]. now apply inclb_ok. }
  destruct (v_family x), (v_fmap x); try discriminate. split; intros ? K; discriminate.
Qed.
Definition priorb (card : nat -> nat) (v : nat) (x : vrec) : bool :=
  match v_prior x with
  | Some l => vectorb card v l && existsb (fun y => if Qclt_le_dec 0%Qc y then true else false) l
  | None => false
  end.
Lemma priorb_ok : forall card v x, priorb card v x = true -> prior_ok card v x.
Proof.
  intros card v x H. unfold priorb in H. destruct (v_prior x) as [l|] eqn:E; [|discriminate].
  apply andb_prop in H. destruct H as (H1 & H2). exists l. split; auto. split; [now apply vectorb_ok|].
  apply existsb_exists in H2. destruct H2 as (y & Hy & H). exists y. split; auto.
  destruct (Qclt_le_dec 0%Qc y); [auto|discriminate].
Qed.
Definition modelb (card : nat -> nat) (m : model) (l : list (nat * nat * nat)) : bool :=
  shapeb card (m_jt m) && is_treeb (m_jt m) l && ripb (m_jt m) && nonneg_treeb (m_jt m) &&
  allb (length (cls (m_jt m))) (fun i => nonnegb (c_orig (clq (m_jt m) i))) &&
  allb (length (cls (m_jt m))) (fun i =>
    forallb (fun v => Nat.ltb v (length (m_vars m))) (c_vars (clq (m_jt m) i))) &&
  allb (length (m_vars m)) (fun v => varb card (m_jt m) v (var m v)) &&
  nodupb (m_indep m) &&
  forallb (fun v => Nat.ltb v (length (m_vars m)) && priorb card v (var m v)) (m_indep m).
Lemma modelb_ok : forall card m l, (forall v, 0 < card v) -> modelb card m l = true -> model_ok card m.
Proof.
  intros card m l HC H. unfold modelb in H. rewrite !andb_true_iff in H.
  destruct H as ((((((((H1 & H2) & H3) & H4) & H5) & H6) & H7) & H8) & H9). split.
  - now apply shapeb_ok.
  - now apply (is_treeb_ok _ l).
  - now apply ripb_ok.
  - now apply nonneg_treeb_ok.
  - intros i Hi. apply nonnegb_ok. now apply (allb_ok _ _ H5).
  - intros i v Hi Hv. apply allb_ok with (i := i) in H6; auto. rewrite forallb_forall in H6.
    apply Nat.ltb_lt. auto.
  - intros v Hv. apply varb_ok. now apply (allb_ok _ _ H7).
  - split; [now apply nodupb_ok|]. intros v Hv. rewrite forallb_forall in H9. specialize (H9 v Hv).
    apply andb_prop in H9. destruct H9. split; [now apply Nat.ltb_lt|]. now apply priorb_ok.
Qed.

(** A network 0 -> 1, 1 -> 2, 1 -> 3 with cliques {0,1}, {1,2}, {1,3}; zeros in
    two conditional distributions. *)
Definition ex_orig0 : potential := mkPot [2; 3] [qr 1 2; qn 0; qr 1 4; qr 1 2; qr 1 4; qr 1 2].
Definition ex_orig1 : potential := mkPot [3; 2] [qn 1; qr 1 3; qr 1 2; qn 0; qr 2 3; qr 1 2].
Definition ex_orig2 : potential := mkPot [3; 2] [qr 1 4; qr 1 2; qr 3 4; qr 3 4; qr 1 2; qr 1 4].
Definition ex_ones : potential := mkPot [3] (repeat (qn 1) 3).
Definition ex_jt : jtree :=
  mkJT
    [mkClique [0; 1] ex_orig0 ex_orig0 [0] false;
     mkClique [1; 2] ex_orig1 ex_orig1 [1; 0] true;
     mkClique [1; 3] ex_orig2 ex_orig2 [1] false]
    [mkSepset [1] ex_ones ex_ones 0 1; mkSepset [1] ex_ones ex_ones 1 2].
Definition ex_var (v : nat) (ps : list nat) (prior : option (list Qc)) : vrec :=
  mkVar (ex_card v) (repeat 1%Qc (ex_card v)) prior false ps None None false 2.
Definition ex_model : model :=
  mkModel [ex_var 0 [] (Some [qr 1 3; qr 2 3]); ex_var 1 [0] None; ex_var 2 [1] None; ex_var 3 [1] None]
    ex_jt [0] [1; 2; 3] [] [] 0 0.
Definition ex_names : list named_variable :=
  [mkNamed 0 (Some "A"%string) 2 (Names ["no"; "yes"]%string) [];
   mkNamed 1 (Some "B"%string) 3 (Names ["low"; "mid"; "high"]%string) [];
   mkNamed 2 (Some "C"%string) 2 (Names ["no"; "yes"]%string) [];
   mkNamed 3 (Some "D"%string) 2 (Names ["no"; "yes"]%string) []].
Lemma ex_model_ok : model_ok ex_card ex_model.
Proof.
  apply (modelb_ok _ _ [(1, 1, 2); (0, 0, 1)]); [exact ex_card_pos|]. vm_compute. reflexivity.
Qed.
Lemma ex_names_ok : names_ok ex_card ex_model ex_names.
Proof.
  split; [reflexivity|]. intros v nv H.
  destruct v as [|[|[|[|v]]]]; simpl in H; inversion H; subst; try (destruct v; discriminate);
  (split; [discriminate|]); (split; [reflexivity|]); eexists; split; reflexivity.
Qed.

(** The same network as a single clique. *)
Definition ex_big : potential := mkPot [2; 3] [qr 1 6; qn 0; qr 1 12; qr 1 3; qr 1 12; qr 1 3].
Definition ex_single : model :=
  mkModel [ex_var 0 [] (Some [qr 1 3; qr 2 3]); ex_var 1 [0] None]
    (mkJT [mkClique [0; 1] ex_big ex_big [] false] []) [0] [1] [] [] 0 0.
Lemma ex_single_ok : model_ok ex_card ex_single.
Proof. apply (modelb_ok _ _ []); [exact ex_card_pos|]. vm_compute. reflexivity. Qed.
