(** * Boolean checks of the hypotheses about join trees

    Used to show that concrete trees satisfy the hypotheses of the theorems. *)
From Coq Require Import Permutation Relations.
From Verif Require Import Base BaseProofs PotentialModel PotentialSpec JoinTreeModel
  AssignSpec AssignProofs JoinTreeSpec JoinTreeProofs JoinTreeProofs2 VariableProofs.
Import ListNotations.
Open Scope nat_scope.

(** The number [n / d]. *)
Definition qr (n : Z) (d : positive) : Qc := Q2Qc (QArith_base.Qmake n d).
Definition qn (n : Z) : Qc := qr n 1.

Fixpoint nodupb (l : list nat) : bool :=
  match l with [] => true | x :: t => negb (memb x t) && nodupb t end.
Lemma nodupb_ok : forall l, nodupb l = true -> NoDup l.
Proof.
  induction l as [|x l IH]; intros H; constructor; simpl in H; apply andb_prop in H; destruct H as (H1 & H2); auto.
  apply memb_notin. now destruct (memb x l).
Qed.
Definition inclb (a b : list nat) : bool := forallb (fun x => memb x b) a.
Lemma inclb_ok : forall a b, inclb a b = true -> incl a b.
Proof. intros a b H x Hx. unfold inclb in H. rewrite forallb_forall in H. apply memb_in. auto. Qed.

Definition wfb (p : potential) : bool :=
  forallb (fun d => Nat.ltb 0 d) (dims p) && Nat.eqb (length (data p)) (prod (dims p)) &&
  (Z.of_nat (prod (dims p)) <=? INT_MAX)%Z.
Lemma wfb_ok : forall p, wfb p = true -> wf p.
Proof.
  intros p H. unfold wfb in H. apply andb_prop in H. destruct H as (H & H3). apply andb_prop in H.
  destruct H as (H1 & H2). split.
  - apply Forall_forall. intros d Hd. rewrite forallb_forall in H1. apply Nat.ltb_lt. auto.
  - split; [now apply Nat.eqb_eq|]. now apply Z.leb_le.
Qed.
Definition tableb (card : nat -> nat) (vs : list nat) (p : potential) : bool :=
  nodupb vs && wfb p && (if list_eq_dec Nat.eq_dec (dims p) (map card vs) then true else false).
Lemma tableb_ok : forall card vs p, tableb card vs p = true -> table card vs p.
Proof.
  intros card vs p H. unfold tableb in H. apply andb_prop in H. destruct H as (H & H3).
  apply andb_prop in H. destruct H as (H1 & H2). split; [now apply nodupb_ok|].
  split; [now apply wfb_ok|]. destruct (list_eq_dec _ _ _); [auto|discriminate].
Qed.
Definition nonnegb (p : potential) : bool :=
  forallb (fun x => if Qclt_le_dec x 0%Qc then false else true) (data p).
Lemma nonnegb_ok : forall p, nonnegb p = true -> nonneg p.
Proof.
  intros p H. unfold nonneg. apply Forall_forall. intros x Hx. unfold nonnegb in H.
  rewrite forallb_forall in H. specialize (H x Hx). destruct (Qclt_le_dec x 0%Qc); [discriminate|auto].
Qed.

Definition allb (n : nat) (f : nat -> bool) : bool := forallb f (seq 0 n).
Lemma allb_ok : forall n f, allb n f = true -> forall i, i < n -> f i = true.
Proof. intros n f H i Hi. unfold allb in H. rewrite forallb_forall in H. apply H. apply in_seq. lia. Qed.

Definition shapeb (card : nat -> nat) (jt : jtree) : bool :=
  allb (length (cls jt)) (fun i =>
    tableb card (c_vars (clq jt i)) (c_p (clq jt i)) &&
    tableb card (c_vars (clq jt i)) (c_orig (clq jt i)) &&
    negb (Nat.eqb (length (c_vars (clq jt i))) 0) &&
    nodupb (c_sepsets (clq jt i)) &&
    forallb (fun s => Nat.ltb s (length (sps jt)) && incident jt s i) (c_sepsets (clq jt i)) &&
    allb (length (sps jt)) (fun s => implb (incident jt s i) (memb s (c_sepsets (clq jt i))))) &&
  allb (length (sps jt)) (fun s =>
    tableb card (s_vars (sep jt s)) (s_old (sep jt s)) &&
    tableb card (s_vars (sep jt s)) (s_new (sep jt s)) &&
    Nat.ltb (s_first (sep jt s)) (length (cls jt)) &&
    Nat.ltb (s_second (sep jt s)) (length (cls jt)) &&
    negb (Nat.eqb (s_first (sep jt s)) (s_second (sep jt s))) &&
    inclb (s_vars (sep jt s)) (c_vars (clq jt (s_first (sep jt s)))) &&
    inclb (s_vars (sep jt s)) (c_vars (clq jt (s_second (sep jt s))))).

Lemma shapeb_ok : forall card jt, (forall v, 0 < card v) -> shapeb card jt = true -> shape_ok card jt.
Proof.
  intros card jt HC H. unfold shapeb in H. apply andb_prop in H. destruct H as (H1 & H2).
  split; auto. split.
  - intros i Hi. apply allb_ok with (i := i) in H1; auto.
    rewrite !andb_true_iff in H1. destruct H1 as (((((A1 & A2) & A3) & A4) & A5) & A6).
    split; [now apply tableb_ok|]. split; [now apply tableb_ok|].
    split; [destruct (c_vars (clq jt i)); [discriminate|congruence]|].
    split; [now apply nodupb_ok|]. intros s. split.
    + intros Hs. rewrite forallb_forall in A5. specialize (A5 s Hs). apply andb_prop in A5.
      destruct A5 as (A & B). split; [now apply Nat.ltb_lt|]. now apply incident_spec.
    + intros (Hs & HI). apply allb_ok with (i := s) in A6; auto. apply incident_spec in HI.
      rewrite HI in A6. simpl in A6. now apply memb_in.
  - intros s Hs. apply allb_ok with (i := s) in H2; auto.
    rewrite !andb_true_iff in H2. destruct H2 as ((((((A1 & A2) & A3) & A4) & A5) & A6) & A7).
    split; [now apply tableb_ok|]. split; [now apply tableb_ok|].
    split; [now apply Nat.ltb_lt|]. split; [now apply Nat.ltb_lt|].
    split; [intros K; rewrite K, Nat.eqb_refl in A5; discriminate|].
    split; now apply inclb_ok.
Qed.

Definition nonneg_treeb (jt : jtree) : bool :=
  allb (length (cls jt)) (fun i => nonnegb (c_p (clq jt i))) &&
  allb (length (sps jt)) (fun i => nonnegb (s_new (sep jt i))).
Lemma nonneg_treeb_ok : forall jt, nonneg_treeb jt = true -> tables_nonneg jt.
Proof.
  intros jt H. apply andb_prop in H. destruct H as (H1 & H2). split; intros i Hi; apply nonnegb_ok.
  - now apply (allb_ok _ _ H1).
  - now apply (allb_ok _ _ H2).
Qed.

(** A tree given by its leaves in the order of hanging them: (sepset, old
    clique, new clique), from clique 0 on; the last one first. *)
Fixpoint tree_ofb (jt : jtree) (l : list (nat * nat * nat)) : option (list nat * list nat) :=
  match l with
  | [] => Some ([0], [])
  | (s, i, j) :: l' =>
      match tree_ofb jt l' with
      | Some (ns, es) =>
          if memb i ns && negb (memb j ns) && negb (memb s es) &&
             ((Nat.eqb (s_first (sep jt s)) i && Nat.eqb (s_second (sep jt s)) j) ||
              (Nat.eqb (s_first (sep jt s)) j && Nat.eqb (s_second (sep jt s)) i))
          then Some (j :: ns, s :: es) else None
      | None => None
      end
  end.
Lemma tree_ofb_ok : forall jt l ns es, tree_ofb jt l = Some (ns, es) -> tree_of jt ns es.
Proof.
  intros jt. induction l as [|((s & i) & j) l IH]; intros ns es H; simpl in H.
  - inversion H. constructor.
  - destruct (tree_ofb jt l) as [(ns' & es')|]; [|discriminate].
    destruct (memb i ns') eqn:E1; [|discriminate]. destruct (memb j ns') eqn:E2; [discriminate|].
    destruct (memb s es') eqn:E3; [discriminate|]. simpl in H.
    match goal with H : (if ?b then _ else _) = _ |- _ => destruct b eqn:E4; [|discriminate] end.
    inversion H; subst. apply tree_leaf with (i := i); auto.
    + now apply memb_in.
    + now apply memb_notin.
    + now apply memb_notin.
    + apply orb_prop in E4. destruct E4 as [E|E]; apply andb_prop in E; destruct E as (A & B);
      apply Nat.eqb_eq in A, B; [left|right]; auto.
Qed.
Definition is_treeb (jt : jtree) (l : list (nat * nat * nat)) : bool :=
  match tree_ofb jt l with
  | Some (ns, es) =>
      Nat.eqb (length ns) (length (cls jt)) && allb (length (cls jt)) (fun i => memb i ns) &&
      Nat.eqb (length es) (length (sps jt)) && allb (length (sps jt)) (fun i => memb i es)
  | None => false
  end.
Lemma all_perm : forall l n, length l = n -> (forall i, i < n -> In i l) -> Permutation l (seq 0 n).
Proof.
  intros l n HL H. symmetry. apply NoDup_Permutation_bis.
  - apply seq_NoDup.
  - rewrite seq_length. lia.
  - intros i Hi. apply in_seq in Hi. apply H. lia.
Qed.
Lemma is_treeb_ok : forall jt l, is_treeb jt l = true -> is_tree jt.
Proof.
  intros jt l H. unfold is_treeb in H. destruct (tree_ofb jt l) as [(ns & es)|] eqn:E; [|discriminate].
  apply andb_prop in H. destruct H as (H & H4). apply andb_prop in H. destruct H as (H & H3).
  apply andb_prop in H. destruct H as (H1 & H2). exists ns, es. split; [now apply (tree_ofb_ok jt l)|].
  split; apply all_perm; try (now apply Nat.eqb_eq).
  - intros i Hi. apply memb_in. now apply (allb_ok _ _ H2).
  - intros i Hi. apply memb_in. now apply (allb_ok _ _ H4).
Qed.

(** Walks through sepsets that contain [v]. *)
Fixpoint reachb (n : nat) (jt : jtree) (v i j : nat) : bool :=
  Nat.eqb i j ||
  match n with
  | O => false
  | S n' =>
      existsb (fun s => memb v (s_vars (sep jt s)) &&
        ((Nat.eqb (s_first (sep jt s)) i && reachb n' jt v (s_second (sep jt s)) j) ||
         (Nat.eqb (s_second (sep jt s)) i && reachb n' jt v (s_first (sep jt s)) j)))
        (seq 0 (length (sps jt)))
  end.
Lemma reachb_ok : forall n jt v i j, reachb n jt v i j = true ->
  clos_refl_trans nat (step_through jt v) i j.
Proof.
  induction n as [|n IH]; intros jt v i j H; simpl in H.
  - apply orb_prop in H. destruct H as [H|H]; [|discriminate]. apply Nat.eqb_eq in H. subst. apply rt_refl.
  - apply orb_prop in H. destruct H as [H|H]; [apply Nat.eqb_eq in H; subst; apply rt_refl|].
    apply existsb_exists in H. destruct H as (s & Hs & H). apply in_seq in Hs.
    apply andb_prop in H. destruct H as (H1 & H2). apply memb_in in H1.
    apply orb_prop in H2. destruct H2 as [H2|H2]; apply andb_prop in H2; destruct H2 as (A & B);
    apply Nat.eqb_eq in A; apply IH in B; eapply rt_trans; try exact B; apply rt_step; exists s;
    (split; [lia|]); (split; [|auto]); [left|right]; auto.
Qed.
Definition ripb (jt : jtree) : bool :=
  allb (length (cls jt)) (fun i => allb (length (cls jt)) (fun j =>
    forallb (fun v => implb (memb v (c_vars (clq jt j))) (reachb (length (cls jt)) jt v i j))
      (c_vars (clq jt i)))).
Lemma ripb_ok : forall jt, ripb jt = true -> running_intersection jt.
Proof.
  intros jt H v i j Hi Hj Vi Vj. apply (reachb_ok (length (cls jt))).
  apply allb_ok with (i := i) in H; auto. apply allb_ok with (i := j) in H; auto.
  rewrite forallb_forall in H. specialize (H v Vi). apply memb_in in Vj. rewrite Vj in H. exact H.
Qed.

(** A tree of three cliques {0,1}, {1,2}, {1,3} with sepsets {1}, {1}, with
    zeros in the tables. *)
Definition ex_card (v : nat) : nat := match v with 1 => 3 | _ => 2 end.
Definition ex_tree : jtree :=
  mkJT
    [mkClique [0; 1] (mkPot [2; 3] [qn 1; qn 2; qn 0; qn 0; qn 3; qn 1])
       (mkPot [2; 3] (repeat (qn 1) 6)) [0] false;
     mkClique [1; 2] (mkPot [3; 2] [qn 1; qn 0; qn 2; qn 5; qn 0; qn 1])
       (mkPot [3; 2] (repeat (qn 1) 6)) [1; 0] true;
     mkClique [1; 3] (mkPot [3; 2] [qn 1; qn 4; qn 2; qn 1; qn 2; qn 0])
       (mkPot [3; 2] (repeat (qn 1) 6)) [1] false]
    [mkSepset [1] (mkPot [3] (repeat (qn 1) 3)) (mkPot [3] (repeat (qn 1) 3)) 0 1;
     mkSepset [1] (mkPot [3] (repeat (qn 1) 3)) (mkPot [3] (repeat (qn 1) 3)) 1 2].
Lemma ex_card_pos : forall v, 0 < ex_card v.
Proof. intros [|[|v]]; simpl; lia. Qed.
