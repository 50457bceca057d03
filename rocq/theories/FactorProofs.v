(** * Proofs: the conditional distributions can be read off the clique tables *)
From Coq Require Import Permutation Field Relations.
From Verif Require Import Base BaseProofs PotentialModel PotentialSpec PotentialProofs
  PotentialProofs2 PotentialProofs3 VariableModel VariableProofs JoinTreeModel
  AssignSpec AssignProofs JoinTreeSpec JoinTreeProofs JoinTreeProofs2 JoinTreeProofs3
  JoinTreeProofs4 JoinTreeProofs5 JoinTreeProofs6 JoinTreeProofs7 NipModel NipSpec NipProofs
  NipProofs2 NipProofs3 NipProofs4 GatherProofs GatherProofs2 SliceModel SliceSpec SliceProofs SliceProofs2 SliceProofs3
  SliceProofs4 SliceProofs5 LearnModel LearnSpec LearnProofs LearnProofs2 LearnProofs3 LearnProofs4 LearnProofs5.
Import ListNotations.
Open Scope nat_scope.
Local Open Scope res_scope.

Add Field Qcfield_factor : Qcft.

Definition inb (l : list nat) (v : nat) : bool := existsb (Nat.eqb v) l.
Lemma inb_in : forall l v, inb l v = true <-> In v l.
Proof.
  intros l v. unfold inb. rewrite existsb_exists. split.
  - intros (w & Hw & E). apply Nat.eqb_eq in E. now subst.
  - intros H. exists v. rewrite Nat.eqb_refl. auto.
Qed.

Lemma NoDup_app_remove_l : forall A (a b : list A), NoDup (a ++ b) -> NoDup b.
Proof. intros A a b. induction a as [|x a IH]; cbn [app]; auto. intros H. inversion H; auto. Qed.

Section Factor.
Variable card : nat -> nat.
Variable m : model.
Hypothesis HL : learnable card m.
Local Notation n := (length (m_vars m)).
Local Notation jt := (m_jt m).
Let HM : model_ok card m := so_model _ _ (le_slices _ _ HL).
Variable f : nat -> (nat -> nat) -> Qc.
Hypothesis HF : factored card m f.
Hypothesis HD : forall v, v < n -> has_parents m v = true -> dep (family m v) (f v).
Hypothesis HS : forall v a, v < n -> has_parents m v = true -> valid card a -> sumv card [v] (f v) a = 1%Qc.

Lemma home_ok : forall v, v < n -> first_clique jt (family m v) (home m v).
Proof.
  intros v Hv. destruct (find_family_ok card m v HM Hv) as (m1 & k & E & _).
  assert (F := find_family_first card m v m1 k HM Hv E). now rewrite (home_first m v k F).
Qed.

Definition factors (vs : list nat) (a : nat -> nat) : Qc := qprod (map (fun v => f v a) vs).
Lemma factors_app : forall vs ws a, factors (vs ++ ws) a = (factors vs a * factors ws a)%Qc.
Proof. intros. unfold factors. now rewrite map_app, qprod_app. Qed.
Lemma factors_dep : forall V vs, (forall v, In v vs -> v < n /\ has_parents m v = true /\ incl (family m v) V) -> dep V (factors vs).
Proof.
  intros V vs H a b E. unfold factors. apply qprod_map_ext. intros v Hv. destruct (H v Hv) as (Hn & Hp & I).
  apply (HD v Hn Hp). intros w Hw. apply E. now apply I.
Qed.

(** Summing the variables in an order with children last: the factor of a
    variable gives one, a variable without factor its number of states. *)
Definition states_out (Q : nat -> bool) (vs : list nat) : Qc :=
  qprod (map (fun v => if Q v then 1%Qc else qsum (map (fun _ => 1%Qc) (seq 0 (card v)))) vs).
Lemma sum_out : forall (Q : nat -> bool) vs, (forall v, In v vs -> v < n /\ (Q v = true -> has_parents m v = true)) ->
  (forall vs1 v vs2, vs = vs1 ++ v :: vs2 -> forall w, In w vs1 -> ~ In v (family m w)) ->
  forall a, valid card a -> sumv card vs (factors (filter Q vs)) a = states_out Q vs.
Proof.
  intros Q. induction vs as [|v vs IH] using rev_ind; intros HI HT a Ha; [reflexivity|].
  assert (HI' : forall w, In w vs -> w < n /\ (Q w = true -> has_parents m w = true)) by (intros w Hw; apply HI, in_app_iff; auto).
  destruct (HI v) as (Hv & HQ). { apply in_app_iff; simpl; auto. }
  rewrite sumv_last. unfold states_out. rewrite map_app, qprod_app. cbn [map qprod]. rewrite Qcmult_1_r. fold (states_out Q vs).
  rewrite <- (IH HI') with (a := a); auto.
  2:{ intros vs1 u vs2 E. apply (HT vs1 u (vs2 ++ [v])). rewrite E, <- app_assoc. reflexivity. }
  rewrite Qcmult_comm, <- sumv_const_out. apply sumv_ext; auto. intros b Hb.
  assert (FR : forall d, (forall w, ~ In w [v] -> d w = b w) -> factors (filter Q vs) d = factors (filter Q vs) b).
  { intros d Hd. unfold factors. apply qprod_map_ext. intros w Hw. apply filter_In in Hw. destruct Hw as (Hw & Qw).
    apply (HD w); [apply HI'; auto|apply HI'; auto|]. intros u Hu. apply Hd. intros [<-|[]]. revert Hu. apply (HT vs v []); auto. }
  rewrite filter_app. cbn [filter]. destruct (Q v).
  - transitivity (sumv card [v] (fun d => factors (filter Q vs) b * f v d)%Qc b).
    + apply sumv_ext_free. intros d Hd. rewrite factors_app. rewrite FR by auto. unfold factors at 2. cbn [map qprod]. ring.
    + rewrite sumv_const_out. rewrite HS by auto. ring.
  - rewrite app_nil_r. transitivity (sumv card [v] (fun d => factors (filter Q vs) b * 1)%Qc b).
    + apply sumv_ext_free. intros d Hd. rewrite FR by auto. ring.
    + rewrite sumv_const_out. cbn [sumv]. ring.
Qed.

Lemma housed_in : forall k v, In v (housed m k (seq 0 n)) ->
  v < n /\ has_parents m v = true /\ home m v = k /\ incl (family m v) (c_vars (clq jt k)).
Proof.
  intros k v H. apply filter_In in H. destruct H as (Hv & H). apply in_seq in Hv. apply andb_true_iff in H. destruct H as (H1 & H2).
  apply Nat.eqb_eq in H2. assert (Hn : v < n) by lia. split; auto. split; auto. split; auto. rewrite <- H2. apply home_ok. auto.
Qed.

(** Marginal of the table of a clique on the family of a variable: the factor
    of the variable, if it lives there, times a function of the parents. *)
Lemma family_marginal : forall v k, v < n -> k < length (cls jt) -> incl (family m v) (c_vars (clq jt k)) ->
  (has_parents m v = true -> home m v = k) ->
  exists g, dep (v_parents (var m v)) g /\ forall a, valid card a ->
    sumv card (minus (c_vars (clq jt k)) (family m v)) (den (c_vars (clq jt k)) (c_orig (clq jt k))) a =
    ((if has_parents m v then f v a else 1) * g a)%Qc.
Proof.
  intros v k Hv Hk HI HH. set (C := c_vars (clq jt k)) in *. set (H := housed m k (seq 0 n)).
  assert (NC : NoDup C) by (apply (shape_clq card jt k (mo_shape _ _ HM) Hk)).
  destruct (le_acyclic _ _ HL) as (l & HPm & HT).
  assert (ND : NoDup l) by (eapply Permutation_NoDup; [symmetry; exact HPm|apply seq_NoDup]).
  assert (IL : forall w, In w l <-> w < n).
  { intros w. split; intros K.
    - eapply Permutation_in in K; [|exact HPm]. apply in_seq in K. lia.
    - eapply Permutation_in; [symmetry; exact HPm|]. apply in_seq. lia. }
  destruct (in_split v l) as (l1 & l2 & El). { now apply IL. }
  assert (HP := HT l1 v l2 El).
  assert (N1 : ~ In v l1 /\ ~ In v l2 /\ forall w, In w l1 -> ~ In w l2).
  { rewrite El in ND. assert (K := NoDup_remove_2 _ _ _ ND). rewrite in_app_iff in K. split; [tauto|]. split; [tauto|].
    intros w W1 W2. apply NoDup_remove_1 in ND. apply in_split in W1. destruct W1 as (x & y & ->). rewrite <- app_assoc in ND.
    apply NoDup_remove_2 in ND. apply ND. rewrite !in_app_iff. auto. }
  destruct N1 as (N1 & N2 & N3).
  assert (CN : forall w, In w C -> w < n) by (intros w Hw; apply (mo_scope _ _ HM k w); auto).
  assert (CL : forall w, w < n -> In w l1 \/ w = v \/ In w l2).
  { intros w Hw. apply IL in Hw. rewrite El, in_app_iff in Hw. simpl in Hw. destruct Hw as [|[|]]; auto. }
  (* before and after v *)
  assert (BF : forall w, In w l1 -> incl (family m w) l1).
  { intros w Hw u [<-|Hu]; auto. apply in_split in Hw. destruct Hw as (x & y & E1). rewrite E1 in El. rewrite <- app_assoc in El.
    assert (K := HT x w (y ++ v :: l2) El u Hu). rewrite E1, in_app_iff. auto. }
  set (Hb := filter (inb l1) H). set (Ha := filter (inb l2) H).
  set (Cb := filter (inb l1) (minus C (family m v))). set (Ca := filter (inb C) l2).
  assert (Hin := housed_in k). fold H in Hin. fold C in Hin.
  assert (NH : NoDup H) by (apply NoDup_filter, seq_NoDup).
  assert (PH : Permutation H (Hb ++ (if has_parents m v then [v] else []) ++ Ha)).
  { apply NoDup_Permutation; auto.
    - apply NoDup_app_intro; [apply NoDup_filter; auto|apply NoDup_app_intro|].
      + destruct (has_parents m v); repeat constructor; auto.
      + apply NoDup_filter; auto.
      + intros w W1 W2. unfold Ha in W2. apply filter_In in W2. destruct W2 as (_ & W2). apply inb_in in W2. destruct (has_parents m v); [|contradiction].
        destruct W1 as [<-|[]]. contradiction.
      + intros w W1 W2. unfold Hb in W1. apply filter_In in W1. destruct W1 as (_ & W1). apply inb_in in W1. apply in_app_iff in W2. destruct W2 as [W2|W2].
        * destruct (has_parents m v); [|contradiction]. destruct W2 as [<-|[]]. contradiction.
        * unfold Ha in W2. apply filter_In in W2. destruct W2 as (_ & W2). apply inb_in in W2. apply (N3 w); auto.
    - intros w. rewrite !in_app_iff. unfold Ha, Hb. rewrite !filter_In, !inb_in. split.
      + intros W. destruct (Hin w W) as (Wn & Wp & Wh & Wi). destruct (CL w Wn) as [|[->|]]; auto. right. left. rewrite Wp. left. auto.
      + intros [W|[W|W]]; try tauto. destruct (has_parents m v) eqn:EP; [|contradiction]. destruct W as [<-|[]].
        apply filter_In. split; [apply in_seq; lia|]. rewrite EP, (HH eq_refl), Nat.eqb_refl. reflexivity. }
  assert (PC : Permutation (minus C (family m v)) (Cb ++ Ca)).
  { assert (NM : NoDup (minus C (family m v))) by now apply minus_nodup.
    assert (ND2 : NoDup l2). { rewrite El in ND. apply NoDup_app_remove_l in ND. now inversion ND. }
    apply NoDup_Permutation; auto.
    - apply NoDup_app_intro; try (apply NoDup_filter; auto). intros w W1 W2. unfold Cb, Ca in W1, W2. apply filter_In in W1. apply filter_In in W2.
      destruct W1 as (_ & W1), W2 as (W2 & _). apply inb_in in W1. apply (N3 w); auto.
    - intros w. rewrite in_app_iff. unfold Cb, Ca. rewrite !filter_In, !inb_in, minus_in. split.
      + intros (W1 & W2). destruct (CL w (CN w W1)) as [|[->|]]; auto. exfalso. apply W2. left. auto.
      + intros [W|(W1 & W2)]; [tauto|]. split; auto. intros [<-|W3]; [contradiction|]. apply (N3 w); auto. }
  assert (OF : forall a, valid card a -> den C (c_orig (clq jt k)) a =
     (factors Hb a * ((if has_parents m v then f v a else 1) * factors Ha a))%Qc).
  { intros a Va. unfold C. rewrite HF by auto. fold H. change (factors H a = (factors Hb a * ((if has_parents m v then f v a else 1) * factors Ha a))%Qc).
    unfold factors at 1. rewrite (qprod_perm _ _ (Permutation_map (fun v => f v a) PH)).
    change (factors (Hb ++ (if has_parents m v then [v] else []) ++ Ha) a = (factors Hb a * ((if has_parents m v then f v a else 1) * factors Ha a))%Qc).
    rewrite !factors_app. f_equal. f_equal. destruct (has_parents m v); unfold factors; cbn [map qprod]; ring. }
  (* the later variables are summed out *)
  assert (EA : forall a, factors Ha a = factors (filter (inb H) Ca) a).
  { intros a. unfold factors. apply qprod_perm, Permutation_map. apply NoDup_Permutation.
    - apply NoDup_filter; auto.
    - unfold Ca. apply NoDup_filter, NoDup_filter. rewrite El in ND. apply NoDup_app_remove_l in ND. now inversion ND.
    - intros w. unfold Ha, Ca. rewrite !filter_In, !inb_in. split; [|tauto]. intros (W1 & W2). split; auto. split; auto.
      destruct (Hin w W1) as (_ & _ & _ & W3). apply W3. left. auto. }
  assert (SA : forall a, valid card a -> sumv card Ca (factors Ha) a = states_out (inb H) Ca).
  { intros a Va. rewrite <- (sum_out (inb H) Ca) with (a := a); auto.
    - apply sumv_ext; auto.
    - intros w Hw. unfold Ca in Hw. apply filter_In in Hw. destruct Hw as (W1 & W2). apply inb_in in W2. split; [now apply CN|].
      intros W3. apply inb_in in W3. now apply Hin in W3.
    - intros vs1 u vs2 E w Hw K. unfold Ca in E. destruct (filter_app_inv _ _ _ _ _ E) as (x & y & E2 & E3).
      assert (W : In w x) by (rewrite <- E3 in Hw; apply filter_In in Hw; tauto).
      assert (NX : ~ In u x). { intros U. rewrite El in ND. apply NoDup_app_remove_l in ND. inversion ND as [|? ? _ ND']. rewrite E2 in ND'. apply NoDup_remove_2 in ND'. apply ND'. apply in_app_iff; auto. }
      destruct K as [<-|K]; [contradiction|]. apply in_split in W. destruct W as (x1 & x2 & Ex).
      assert (U : In u ((l1 ++ [v]) ++ x1)).
      { apply (HT ((l1 ++ [v]) ++ x1) w (x2 ++ u :: y)); auto. rewrite El, E2, Ex. rewrite <- !app_assoc. reflexivity. }
      rewrite !in_app_iff in U. assert (U2 : In u l2) by (rewrite E2; apply in_elt). destruct U as [[U|[U|[]]]|U].
      + apply (N3 u); auto.
      + subst. contradiction.
      + apply NX. rewrite Ex. apply in_app_iff; auto. }
  assert (HBd : dep (filter (inb l1) C) (factors Hb)).
  { apply factors_dep. intros w Hw. unfold Hb in Hw. apply filter_In in Hw. destruct Hw as (W1 & W2). apply inb_in in W2.
    destruct (Hin w W1) as (Wn & Wp & _ & Wi). split; auto. split; auto. intros u Hu. apply filter_In. split; [now apply Wi|]. apply inb_in. now apply (BF w W2). }
  assert (Fd : dep (family m v) (fun a => if has_parents m v then f v a else 1%Qc)).
  { intros a b E. destruct (has_parents m v) eqn:EP; auto. now apply (HD v Hv EP). }
  exists (fun a => states_out (inb H) Ca * sumv card Cb (factors Hb) a)%Qc. split.
  - intros a b E. f_equal. apply (sumv_dep_arg card _ _ _ _ _ HBd). intros w W1 W2. apply filter_In in W1. destruct W1 as (W1 & W3).
    apply E. apply inb_in in W3. destruct (in_dec Nat.eq_dec w (family m v)) as [[<-|Wf]|Wf]; [contradiction|auto|].
    exfalso. apply W2. unfold Cb. apply filter_In. rewrite minus_in, inb_in. auto.
  - intros a Va. rewrite (sumv_perm card _ _ _ a PC) by (apply (dep_ext C), den_dep). rewrite sumv_app.
    transitivity (sumv card Cb (fun b => (if has_parents m v then f v b else 1) * (states_out (inb H) Ca * factors Hb b))%Qc a).
    + apply sumv_ext; auto. intros b Vb.
      transitivity (sumv card Ca (fun d => (factors Hb b * (if has_parents m v then f v b else 1)) * factors Ha d)%Qc b).
      * apply sumv_ext_on; auto. intros d Vd Ed. rewrite OF by auto.
        assert (E1 : factors Hb d = factors Hb b).
        { apply HBd. intros w Hw. apply filter_In in Hw. destruct Hw as (_ & Hw). apply inb_in in Hw. apply Ed. intros K. unfold Ca in K.
          apply filter_In in K. apply (N3 w); tauto. }
        assert (E2 : (if has_parents m v then f v d else 1%Qc) = (if has_parents m v then f v b else 1%Qc)).
        { apply Fd. intros w Hw. apply Ed. intros K. unfold Ca in K. apply filter_In in K. destruct K as (K & _).
          destruct Hw as [<-|Hw]; [contradiction|]. apply (N3 w); auto. }
        rewrite E1, E2. ring.
      * rewrite sumv_const_out, SA by auto. ring.
    + rewrite (sumv_scale_gen card Cb (fun b => if has_parents m v then f v b else 1%Qc) (fun b => states_out (inb H) Ca * factors Hb b)%Qc a).
      * now rewrite sumv_const_out.
      * intros b Hb'. apply Fd. intros w Hw. apply Hb'. intros K. unfold Cb in K. apply filter_In in K. destruct K as (K & _).
        apply minus_in in K. tauto.
Qed.
End Factor.

(** ** Where learning without random numbers starts *)
Lemma qprod_one : forall N h, h < N -> forall x, qprod (map (fun k => if Nat.eqb h k then x else 1%Qc) (seq 0 N)) = x.
Proof.
  intros N h Hh x. replace N with (h + S (N - S h)) by lia. rewrite seq_app, map_app, qprod_app. cbn [seq map qprod Nat.add].
  rewrite Nat.eqb_refl. rewrite !NipProofs.qprod_ones; [ring|..]; intros k Hk; apply in_seq in Hk; destruct (Nat.eqb_spec h k); auto; lia.
Qed.
Lemma qprod_parts : forall (P : nat -> bool) (h : nat -> nat) (g : nat -> Qc) N vs, (forall v, In v vs -> P v = true -> h v < N) ->
  qprod (map (fun k => qprod (map g (filter (fun v => P v && Nat.eqb (h v) k)%bool vs))) (seq 0 N)) = qprod (map g (filter P vs)).
Proof.
  intros P h g N. induction vs as [|v vs IH]; intros H.
  - cbn [filter map qprod]. apply NipProofs.qprod_ones. auto.
  - cbn [filter]. destruct (P v) eqn:EP; cbn [andb].
    + cbn [map qprod]. rewrite <- IH by (intros; apply H; [right|]; auto).
      rewrite <- (qprod_one N (h v) ltac:(apply H; [left|]; auto) (g v)). rewrite <- qprod_map_mul. apply qprod_map_ext. intros k _.
      destruct (Nat.eqb (h v) k); cbn [map qprod]; ring.
    + apply IH. intros; apply H; [right|]; auto.
Qed.

Section Start.
Variable card : nat -> nat.
Variable m : model.
Hypothesis HL : learnable card m.
Local Notation n := (length (m_vars m)).
Variable f : nat -> (nat -> nat) -> Qc.
Hypothesis HF : factored card m f.
Hypothesis HC : conditional_factors card m f.

Lemma parents_has : forall v, has_parents m v = true -> v_parents (var m v) <> [].
Proof. intros v H. unfold has_parents in H. destruct (v_parents (var m v)); discriminate. Qed.

Lemma original_factors : forall a, valid card a -> original m a = factors f (filter (has_parents m) (seq 0 n)) a.
Proof.
  intros a Ha. unfold original, factors.
  rewrite <- (qprod_parts (has_parents m) (home m) (fun v => f v a) (length (cls (m_jt m)))).
  - apply qprod_map_ext. intros k Hk. apply in_seq in Hk. apply HF; auto. lia.
  - intros v Hv _. apply in_seq in Hv. apply (home_ok card m HL). lia.
Qed.

Lemma marginal_at : forall v, v < n -> exists g, dep (v_parents (var m v)) g /\ forall a, valid card a ->
    let k := clq (m_jt m) (home m v) in
    sumv card (minus (c_vars k) (family m v)) (den (c_vars k) (c_orig k)) a = ((if has_parents m v then f v a else 1) * g a)%Qc.
Proof.
  intros v Hv. destruct (home_ok card m HL v Hv) as (K1 & K2 & _).
  apply (family_marginal card m HL f HF); auto.
  - intros w Hw Hp. destruct (HC w Hw (parents_has w Hp)) as (K & _). exact K.
  - intros w a Hw Hp Ha. destruct (HC w Hw (parents_has w Hp)) as (_ & K). auto.
Qed.

Lemma marginal_cond : forall ps, params_ok card m ps -> columns_positive card m ps -> starts_from card m None ps ->
  forall v, v < n ->
  (v_parents (var m v) <> [] -> forall a, valid card a -> LearnSpec.cond card m ps v a = f v a) /\
  (v_parents (var m v) = [] -> forall a b, valid card a -> valid card b -> LearnSpec.cond card m ps v a = LearnSpec.cond card m ps v b).
Proof.
  intros ps HP HCo HS v Hv. destruct (marginal_at v Hv) as (g & G1 & G2). specialize (HS v Hv). cbv zeta in *.
  assert (ND := le_family _ _ HL v Hv). assert (NI : ~ In v (v_parents (var m v))) by (inversion ND; auto).
  assert (D : forall a, valid card a -> den (family m v) (param ps v) a = ((if has_parents m v then f v a else 1) * g a)%Qc).
  { intros a Ha. rewrite HS by auto. now apply G2. }
  assert (CO : forall a, valid card a -> column card m ps v a =
    (g a * sumv card [v] (fun b => if has_parents m v then f v b else 1%Qc) a)%Qc).
  { intros a Ha. unfold column.
    transitivity (sumv card [v] (fun b => g b * (if has_parents m v then f v b else 1))%Qc a).
    - apply sumv_ext; auto. intros b Hb. rewrite D by auto. ring.
    - apply (sumv_scale card (v_parents (var m v))); auto. intros w Hw [<-|[]]. contradiction. }
  split.
  - intros NP a Ha. assert (HPt : has_parents m v = true) by (unfold has_parents; destruct (v_parents (var m v)); [congruence|auto]).
    assert (N := HCo v a Hv Ha). unfold LearnSpec.cond. rewrite D by auto. rewrite CO in * by auto. rewrite HPt in *.
    assert (S1 : sumv card [v] (f v) a = 1%Qc) by (destruct (HC v Hv NP) as (_ & K); auto).
    change (sumv card [v] (fun b => f v b) a) with (sumv card [v] (f v) a) in *. rewrite S1 in *. field. intros K. apply N. rewrite K. ring.
  - intros NP a b Ha Hb. assert (HPt : has_parents m v = false) by (unfold has_parents; now rewrite NP).
    unfold LearnSpec.cond. rewrite !D by auto. rewrite !CO by auto. rewrite HPt.
    rewrite (G1 a b) by (rewrite NP; intros w []). f_equal.
Qed.

Lemma installed_uniform : forall ps m1, params_ok card m ps -> columns_positive card m ps -> starts_from card m None ps ->
  same_structure m m1 -> installed card m ps m1 -> uniform_roots card m m1.
Proof.
  intros ps m1 HP HCo HS SS (I1 & _ & I2). assert (ZV := zero_ok card m HL). split; auto. split.
  - intros a Ha. rewrite I1, original_factors by auto. unfold product_cond, factors. apply qprod_map_ext. intros v Hv.
    apply filter_In in Hv. destruct Hv as (Hv & Hp). apply in_seq in Hv.
    apply (marginal_cond ps HP HCo HS v ltac:(lia)); auto. now apply parents_has.
  - intros v Hv NP. destruct (I2 v Hv NP) as (l & El & Hl). exists l. split; auto. split.
    + rewrite <- (cond_sum card m HL ps v (fun _ => 0)); auto. apply sumv_ext; auto.
    + intros x y Hx Hy.
      assert (Vx : valid card (upd (fun _ => 0) v x)) by (apply upd_valid; auto).
      assert (Vy : valid card (upd (fun _ => 0) v y)) by (apply upd_valid; auto).
      assert (K := proj2 (marginal_cond ps HP HCo HS v Hv) NP _ _ Vx Vy). rewrite <- !Hl in K by auto.
      unfold at_state in K. now rewrite !upd_same in K.
Qed.

Lemma C59_kept_lemma : forall ts max_iterations growth tiny m' o,
  ts <> [] -> Forall (series_ok m) ts -> initial_ok card m None ->
  em_learn m ts None max_iterations growth tiny [] = Ok (m', o) ->
  exists m1, uniform_roots card m m1 /\
    ((o_curve o = [] /\ exists s, In s ts /\ likelihood card m1 s = 0%Qc) \/
     (o_curve o <> [] /\ nth 0 (o_curve o) 0%Qc = total_likelihood card m1 ts)).
Proof.
  intros ts mx growth tiny m' o HN HT HI E.
  destruct (em_learn_ok card m ts None mx growth tiny [] HL HN HT HI) as
    (ps0 & ls & m1 & ps1 & m2 & o2 & E2 & P0 & C0 & S0 & R & L2 & SS & _ & OC & _ & FIN).
  rewrite E in E2. injection E2 as -> ->. cbn [app] in OC. rewrite OC.
  assert (CS : (ls = [] /\ m1 = m /\ ps1 = ps0) \/ exists l ls' m3 ps3, ls = l :: ls' /\ em_round card ts m ps0 l m3 ps3).
  { clear - R. inversion R; subst; [left; auto|right]. do 4 eexists. split; [reflexivity|eassumption]. }
  destruct CS as [(-> & -> & ->)|(l & ls' & m3 & ps3 & -> & RD)].
  - exists m2. destruct FIN as [(_ & _ & K & _)|(_ & _ & [(_ & K & _)|(K1 & s & Hs & K2)])]; [cbn in K; lia|congruence|].
    split; [eapply installed_uniform; eauto|]. left. split; auto. exists s. auto.
  - destruct RD as (Q1 & Q2 & Q3 & _). exists m3. split; [eapply installed_uniform; eauto|]. right. split; [discriminate|]. exact Q3.
Qed.
End Start.
