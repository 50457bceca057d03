(** * Boolean checks of the hypotheses about time slices, and an example *)
From Verif Require Import Base BaseProofs PotentialModel PotentialSpec VariableModel JoinTreeModel
  AssignSpec JoinTreeSpec JoinTreeCheck NipModel NipSpec NipCheck SliceModel SliceSpec.
Import ListNotations.
Open Scope nat_scope.

Definition slicesb (card : nat -> nat) (m : model) (l : list (nat * nat * nat)) : bool :=
  modelb card m l && nodupb (m_out m) && nodupb (m_prev m) &&
  ix_eqb (map card (m_out m)) (map card (m_prev m)) &&
  Nat.ltb (m_out_clique m) (length (cls (m_jt m))) && inclb (m_out m) (c_vars (clq (m_jt m) (m_out_clique m))) &&
  Nat.ltb (m_in_clique m) (length (cls (m_jt m))) && inclb (m_prev m) (c_vars (clq (m_jt m) (m_in_clique m))) &&
  forallb (fun v => Bool.eqb (v_old (var m v)) (existsb (Nat.eqb v) (m_prev m))) (m_indep m).
Lemma slicesb_ok : forall card m l, (forall v, 0 < card v) -> slicesb card m l = true -> slices_ok card m.
Proof.
  intros card m l HC H. unfold slicesb in H. rewrite !andb_true_iff in H.
  destruct H as ((((((((H1 & H2) & H3) & H4) & H5) & H6) & H7) & H8) & H9). split.
  - now apply (modelb_ok _ _ l).
  - now apply nodupb_ok.
  - now apply nodupb_ok.
  - unfold ix_eqb in H4. destruct (list_eq_dec _ _ _); [auto|discriminate].
  - split; [now apply Nat.ltb_lt|now apply inclb_ok].
  - split; [now apply Nat.ltb_lt|now apply inclb_ok].
  - intros v Hv. rewrite forallb_forall in H9. specialize (H9 v Hv). now apply eqb_prop.
Qed.

(** A hidden Markov model with an input: variable 0 is the hidden state of the
    step before, 1 the hidden state, 2 an input with a prior, 3 the observation
    with parents 1 and 2.  Cliques {0,1} and {1,2,3}. *)
Definition dbn_card (v : nat) : nat := match v with 3 => 3 | _ => 2 end.
Definition dbn_t : potential := mkPot [2; 2] [qr 3 4; qr 1 3; qr 1 4; qr 2 3].
Definition dbn_e : potential :=
  mkPot [2; 2; 3] [qr 1 2; qr 1 4; qr 1 3; qn 0; qr 1 4; qr 1 4; qr 1 3; qr 1 5; qr 1 4; qr 1 2; qr 1 3; qr 4 5].
Definition dbn_ones : potential := mkPot [2] (repeat (qn 1) 2).
Definition dbn_jt : jtree :=
  mkJT
    [mkClique [0; 1] dbn_t dbn_t [0] false; mkClique [1; 2; 3] dbn_e dbn_e [0] false]
    [mkSepset [1] dbn_ones dbn_ones 0 1].
Definition dbn_var (v : nat) (ps : list nat) (prior : option (list Qc)) (old : bool) (mark : nat) : vrec :=
  mkVar (dbn_card v) (repeat 1%Qc (dbn_card v)) prior false ps None None old mark.
Definition dbn : model :=
  mkModel [dbn_var 0 [] (Some [qr 1 2; qr 1 2]) true 2; dbn_var 1 [0] None false 2;
           dbn_var 2 [] (Some [qr 1 4; qr 3 4]) false 2; dbn_var 3 [1; 2] None false 2]
    dbn_jt [0; 2] [1; 3] [1] [0] 0 0.
Lemma dbn_card_pos : forall v, 0 < dbn_card v.
Proof. intros [|[|[|[|v]]]]; simpl; lia. Qed.
Lemma dbn_ok : slices_ok dbn_card dbn.
Proof. apply (slicesb_ok _ _ [(0, 0, 1)]); [exact dbn_card_pos|]. vm_compute. reflexivity. Qed.

(** Three steps: observations of variable 3 with a missing value, inputs. *)
Definition dbn_ts : time_series := mkTS [3; 2] [[1; 1]; [(-1); 0]; [2; (-1)]]%Z.
Lemma dbn_ts_ok : series_ok dbn dbn_ts.
Proof.
  split; [apply nodupb_ok; reflexivity|]. split.
  - intros v [<-|[<-|[]]]; simpl; lia.
  - repeat constructor.
Qed.
Lemma dbn_conditional : conditional_slices dbn_card dbn.
Proof.
  split.
  - apply Qc_is_canon. vm_compute. reflexivity.
  - intros a Ha. apply Qc_is_canon. assert (V := Ha 0). cbn in V.
    unfold original, priors, den, at_state. cbn.
    destruct (a 0) as [|[|]]; try lia; vm_compute; reflexivity.
Qed.
