(** * Proofs: writing what was read *)
From Coq Require Import String Ascii Permutation QArith.QArith QArith.Qcanon Field.
From Verif Require Import Base BaseProofs StringSpec PotentialModel PotentialSpec PotentialProofs VariableModel VariableProofs JoinTreeModel
  AssignSpec AssignProofs JoinTreeSpec JoinTreeProofs NipModel NipSpec NipProofs SliceModel SliceSpec LearnSpec
  ParseModel ParseSpec ParseProofs3 ParseProofs6 ParseProofs8 ParseProofs9 ParseProofs10
  NetLexModel NetGrammarModel NetSpec NetLexProofs NetGrammarProofs WriteModel WriteSpec WriteProofs WriteProofs4 WriteProofs6 WriteProofs7.
From Verif Require LearnProofs3 LearnProofs5 FactorProofs ParseProofs5.
Import ListNotations.
Open Scope nat_scope.
Local Open Scope res_scope.
Local Notation len := List.length.

Add Field Qcfield_write8 : Qcft.

(** ** Which columns are lost *)
Definition extensional (f : (nat -> nat) -> Qc) : Prop := forall a b : nat -> nat, (forall w, a w = b w) -> f a = f b.
Lemma upd_same_fun : forall a b v x, (forall w : nat, a w = b w) -> forall w, upd a v x w = upd b v x w.
Proof. intros a b v x H w. unfold upd. destruct (Nat.eqb w v); auto. Qed.
Lemma sumv_extensional : forall card vs f, extensional f -> extensional (sumv card vs f).
Proof.
  induction vs as [|v vs IH]; intros f E a b H; [now apply E|]. cbn [sumv]. apply qsum_map_ext. intros x _. apply IH; auto.
  now apply upd_same_fun.
Qed.
Lemma sumv_members : forall card vs f a, valid card a -> (forall b, valid card b -> (0 <= f b)%Qc) -> extensional f ->
  (f a <= sumv card vs f a)%Qc.
Proof.
  induction vs as [|v vs IH]; intros f a Ha Hf E; [apply Qcle_refl|].
  eapply Qcle_trans; [apply (IH f a Ha Hf E)|]. change (sumv card (v :: vs) f a) with (sumv card [v] (sumv card vs f) a).
  apply sumv_member; auto.
  - intros b Hb. now apply sumv_nonneg.
  - now apply sumv_extensional.
Qed.
Lemma den_extensional : forall vs p, extensional (den vs p).
Proof. intros vs p a b H. unfold den. f_equal. apply map_ext. auto. Qed.
Lemma qprod_nonzero : forall l x, qprod l <> 0%Qc -> In x l -> x <> 0%Qc.
Proof. intros l x H Hx ->. apply H. now apply qprod_zero. Qed.

Section Lost.
Variable card : nat -> nat.
Variable m : model.
Hypothesis HL : learnable card m.
Local Notation n := (len (m_vars m)).
Let HM : model_ok card m := so_model _ _ (le_slices _ _ HL).
Let C0 : forall v, 0 < card v := shape_card card _ (mo_shape _ _ HM).
Variable f : nat -> (nat -> nat) -> Qc.
Hypothesis HF : factored card m f.
Hypothesis HC : conditional_factors card m f.

Lemma family_column : forall v, v < n -> v_parents (var m v) <> [] ->
  exists g, dep (v_parents (var m v)) g /\ forall a, valid card a ->
    sumv card [v] (family_sum card m v) a = g a /\ family_sum card m v a = (f v a * g a)%Qc.
Proof.
  intros v Hv NP. destruct (FactorProofs.marginal_at card m HL f HF HC v Hv) as (g & G1 & G2). cbv zeta in G2.
  assert (HPt : has_parents m v = true) by (unfold has_parents; destruct (v_parents (var m v)); [congruence|auto]). rewrite HPt in G2.
  exists g. split; auto. intros a Ha. split; [|now apply G2].
  transitivity (sumv card [v] (fun b => g b * f v b)%Qc a).
  - apply sumv_ext; auto. intros b Hb. unfold family_sum. rewrite G2 by auto. ring.
  - assert (ND := le_family _ _ HL v Hv). assert (NI : ~ In v (v_parents (var m v))) by (inversion ND; auto).
    rewrite (sumv_scale card (v_parents (var m v))); auto. 2:{ intros w Hw [<-|[]]. contradiction. }
    destruct (HC v Hv NP) as (_ & S1). rewrite S1 by auto. ring.
Qed.
Lemma possible_dec : forall v a, {possible card m v a} + {~ possible card m v a}.
Proof. intros v a. unfold possible. destruct (Qc_eq_dec (sumv card [v] (family_sum card m v) a) 0); [right|left]; tauto. Qed.

Lemma distributions_lemma : forall v a, v < n -> v_parents (var m v) <> [] -> valid card a ->
  (possible card m v a -> distribution card m v a = f v a) /\
  (~ possible card m v a -> distribution card m v a = 0%Qc).
Proof.
  intros v a Hv NP Ha. destruct (family_column v Hv NP) as (g & G1 & G2). destruct (G2 a Ha) as (A & B).
  assert (HPt : has_parents m v = true) by (unfold has_parents; destruct (v_parents (var m v)); [congruence|auto]).
  unfold distribution, possible. rewrite HPt, A, B. split; intros H.
  - field. exact H.
  - destruct (Qc_eq_dec (g a) 0) as [->|K]; [|contradiction]. apply Qc_div_zero. ring.
Qed.

Lemma possible_where : forall v a b, v < n -> v_parents (var m v) <> [] -> valid card a -> valid card b ->
  (forall u, In u (v_parents (var m v)) -> b u = a u) -> original m b <> 0%Qc -> possible card m v a.
Proof.
  intros v a b Hv NP Ha Hb AG NZ. destruct (family_column v Hv NP) as (g & G1 & G2). destruct (G2 a Ha) as (A & _). destruct (G2 b Hb) as (B & _).
  unfold possible. rewrite A, <- (G1 b a AG), <- B. destruct (FactorProofs.home_ok card m HL v Hv) as (K & _).
  assert (P : (0 < den (c_vars (clq (m_jt m) (home m v))) (c_orig (clq (m_jt m) (home m v))) b)%Qc).
  { assert (HCl := proj1 (proj2 (mo_shape _ _ HM))). destruct (HCl _ K) as (_ & TO & _).
    assert (NN : forall c, valid card c -> (0 <= den (c_vars (clq (m_jt m) (home m v))) (c_orig (clq (m_jt m) (home m v))) c)%Qc).
    { intros c Hc. eapply den_nonneg; eauto. now apply (mo_orig _ _ HM). }
    destruct (Qcle_lt_or_eq _ _ (NN b Hb)) as [?|E]; auto. exfalso. apply NZ. unfold original. apply qprod_zero.
    apply in_map_iff. exists (home m v). split; [now rewrite E|]. apply in_seq. lia. }
  intros Z. apply (Qclt_not_le _ _ P). rewrite <- Z.
  eapply Qcle_trans; [|apply (sumv_members card [v] (family_sum card m v) b Hb)].
  - unfold family_sum. cbv zeta. apply sumv_members; auto; [|apply den_extensional].
    intros c Hc. assert (HCl := proj1 (proj2 (mo_shape _ _ HM))). destruct (HCl _ K) as (_ & TO & _).
    eapply den_nonneg; eauto. now apply (mo_orig _ _ HM).
  - intros c Hc. apply family_sum_nonneg; auto.
  - unfold family_sum. cbv zeta. apply sumv_extensional, den_extensional.
Qed.
End Lost.
