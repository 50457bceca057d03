(** * Proofs: learning as a whole *)
From Coq Require Import Permutation Field Relations.
From Verif Require Import Base BaseProofs PotentialModel PotentialSpec PotentialProofs
  PotentialProofs2 PotentialProofs3 VariableModel VariableProofs JoinTreeModel
  AssignSpec AssignProofs JoinTreeSpec JoinTreeProofs JoinTreeProofs2 JoinTreeProofs3
  JoinTreeProofs4 JoinTreeProofs5 JoinTreeProofs6 JoinTreeProofs7 NipModel NipSpec NipProofs
  NipProofs2 NipProofs3 NipProofs4 GatherProofs GatherProofs2 SliceModel SliceSpec SliceProofs SliceProofs2 SliceProofs3
  SliceProofs4 SliceProofs5 LearnModel LearnSpec LearnProofs LearnProofs2 LearnProofs3 LearnProofs4.
Import ListNotations.
Open Scope nat_scope.
Local Open Scope res_scope.

Add Field Qcfield_learn5 : Qcft.

Lemma prod_incl : forall (card : nat -> nat) (F C : list nat), (forall v, 0 < card v) -> NoDup F -> NoDup C -> incl F C ->
  prod (map card F) <= prod (map card C).
Proof.
  intros card F C C0 NF NC HI.
  rewrite (prod_perm (map card C) (map card (F ++ minus C F))) by (apply Permutation_map, split_perm; auto).
  rewrite map_app, prod_app.
  assert (0 < prod (map card (minus C F))) by (apply prod_pos; apply Forall_forall; intros x Hx; apply in_map_iff in Hx; destruct Hx as (y & <- & _); auto).
  nia.
Qed.

Section Initial.
Variable card : nat -> nat.
Variable m : model.
Hypothesis HL : learnable card m.
Local Notation n := (length (m_vars m)).
Let HM : model_ok card m := so_model _ _ (le_slices _ _ HL).

Lemma family_lt : forall v w, v < n -> In w (family m v) -> w < n.
Proof. exact (family_in card m (le_slices _ _ HL)). Qed.
Lemma var_card : forall v, v < n -> v_card (var m v) = card v.
Proof. intros v Hv. apply (mo_var _ _ HM v Hv). Qed.

Lemma new_parameters_ok : exists ps, new_parameters m = Ok ps /\ params_ok card m ps.
Proof.
  unfold new_parameters.
  match goal with |- context [for_up 0 ?k ?b ?s] =>
    destruct (for_up_inv (list potential) (fun i l => length l = i /\
      forall v, v < i -> wf (param l v) /\ dims (param l v) = map card (family m v) /\ nonneg (param l v)) b 0 k s)
      as (ps & E & A1 & A2) end.
  { lia. } { split; auto. intros; lia. }
  2: { exists ps. split; auto. split; auto. }
  intros i l Hi (B1 & B2). assert (Hi' : i < n) by lia. rewrite rd_var by auto. cbn [bind].
  set (P := v_parents (var m i)).
  assert (FL : family m i = i :: P) by reflexivity.
  rewrite wr_ok by (rewrite repeat_length; lia). cbn [bind].
  match goal with |- context [for_up 1 ?k ?b ?s] =>
    destruct (for_up_inv (list nat) (fun j c => length c = length P + 1 /\
      forall t, t < j -> nth t c 0 = nth t (map card (family m i)) 0) b 1 k s)
      as (cs & Ec & C1 & C2) end.
  { lia. }
  { split; [rewrite set_nth_length, repeat_length; auto|]. intros t Ht. assert (t = 0) by lia. subst t.
    rewrite nth_set_nth by (rewrite repeat_length; lia). cbn. now apply var_card. }
  { intros j c Hj (D1 & D2). rewrite (rd_ok _ P (j - 1) 0) by lia. cbn [bind].
    assert (IW : In (nth (j - 1) P 0) (family m i)) by (rewrite FL; right; apply nth_In; lia).
    assert (W : nth (j - 1) P 0 < n) by (apply (family_lt i); auto).
    rewrite rd_var by auto. cbn [bind]. rewrite wr_ok by lia. eexists. split; [reflexivity|].
    split; [now rewrite set_nth_length|]. intros t Ht. rewrite nth_set_nth by lia.
    destruct (Nat.eqb_spec t j) as [->|]; [|apply D2; lia]. rewrite var_card by auto.
    rewrite FL. cbn [map]. destruct j; [lia|]. cbn [nth]. rewrite (nth_map _ _ _ _ _ 0 0) by lia. do 2 f_equal. lia. }
  rewrite Ec. cbn [bind].
  assert (EC : cs = map card (family m i)).
  { apply (list_ext_nth _ 0). { rewrite map_length, FL. cbn. lia. } intros t Ht. apply C2. lia. }
  destruct (mo_var _ _ HM i Hi') as (_ & _ & (k & Hk & HI) & _).
  assert (SH := mo_shape _ _ HM). assert (C0 := shape_card card _ SH). assert (TC := shape_clq card _ _ SH Hk).
  destruct (new_potential_ok cs (length P + 1) None) as (p & Ep & Wp & Dp & Xp).
  { rewrite firstn_all2 by lia. rewrite EC. split.
    - apply Forall_forall. intros x Hx. apply in_map_iff in Hx. destruct Hx as (y & <- & _). auto.
    - destruct TC as (NC & (_ & _ & MX) & DC). rewrite DC in MX.
      assert (LE := prod_incl card (family m i) _ C0 (le_family _ _ HL i Hi') NC HI). lia. }
  { lia. } { exact Logic.I. }
  rewrite Ep. cbn [bind]. eexists. split; [reflexivity|]. split; [rewrite app_length; cbn; lia|].
  intros v Hv. unfold param. destruct (Nat.eq_dec v i) as [->|N].
  - rewrite app_nth2 by lia. rewrite B1, Nat.sub_diag. cbn [nth]. split; auto. rewrite firstn_all2 in Dp by lia. split; [congruence|].
    unfold nonneg. rewrite Xp. apply Forall_forall. intros x Hx. apply repeat_spec in Hx. subst. discriminate.
  - rewrite app_nth1 by lia. apply B2. lia.
Qed.

Lemma column_flat : forall ps v a, params_ok card m ps -> v < n -> valid card a -> column card m ps v a = 0%Qc ->
  forall j, j < card v ->
  nth (j + card v * flat (map card (v_parents (var m v))) (map a (v_parents (var m v)))) (data (param ps v)) 0%Qc = 0%Qc.
Proof.
  intros ps v a HP Hv Ha HZ j Hj.
  assert (Va : valid card (upd a v j)) by (apply upd_valid; auto).
  assert (Z2 : column card m ps v (upd a v j) = 0%Qc).
  { rewrite <- HZ. apply (column_dep card m HL ps v Hv). intros w Hw. unfold upd. destruct (Nat.eqb_spec w v) as [->|]; auto.
    assert (N := le_family _ _ HL v Hv). inversion N; contradiction. }
  assert (K : den (family m v) (param ps v) (upd a v j) = 0%Qc).
  { apply (sumv_zero_inv card [v] (den (family m v) (param ps v)) (upd a v j)); auto.
    - apply (dep_ext (family m v)), den_dep.
    - intros; now apply (param_nonneg card m HL). }
  unfold den in K. rewrite (upd_family card m HL) in K by auto. unfold cell in K.
  destruct HP as (_ & HP). destruct (HP v Hv) as (_ & D & _). rewrite D in K. exact K.
Qed.

Lemma initial_parameters_ok : forall random ps, initial_ok card m random -> params_ok card m ps ->
  exists m' ps', initial_parameters m random ps = Ok (m', ps', NO_ERROR) /\ model_ok card m' /\ same_model m m' /\
    params_ok card m ps' /\ columns_positive card m ps' /\ starts_from card m random ps'.
Proof.
  intros random ps HI HP. destruct random as [rnd|]; cbn [initial_parameters].
  - destruct HI as (R1 & R2). destruct HP as (LP & HP).
    match goal with |- context [for_up 0 ?k ?b ?s] =>
      destruct (for_up_inv (list potential) (fun i l => length l = n /\
        (forall v, i <= v -> param l v = param ps v) /\
        (forall v, v < i -> dims (param l v) = dims (param ps v) /\
           data (param l v) = map (rnd v) (seq 0 (length (data (param ps v)))))) b 0 k s)
        as (ps' & E & A1 & A2 & A3) end.
    { lia. } { split; auto. split; auto. intros; lia. }
    { intros i l Hi (B1 & B2 & B3). rewrite (rd_ok _ l i (mkPot [] [])) by lia. cbn [bind]. fold (param l i).
      unfold random_potential, size_of_data.
      destruct (for_up_fill Qc 0%Qc (rnd i) (fun j d => wr d j (rnd i j)) (data (param l i)) (length (data (param l i))))
        as (d & Ed & HLd & Hd); auto.
      { intros; now rewrite wr_ok by lia. }
      rewrite Ed. cbn [bind]. rewrite wr_ok by lia. eexists. split; [reflexivity|]. split; [now rewrite set_nth_length|].
      match goal with |- context [set_nth l i ?p] => assert (Q : forall v, param (set_nth l i p) v = if Nat.eqb v i then p else param l v)
        by (intros v; unfold param; rewrite nth_set_nth by lia; reflexivity) end.
      split.
      - intros v Hv. rewrite Q. destruct (Nat.eqb_spec v i); [lia|apply B2; lia].
      - intros v Hv. rewrite Q. destruct (Nat.eqb_spec v i) as [->|]; [|apply B3; lia]. cbn [dims data].
        rewrite (B2 i) in * by lia. split; auto. apply (list_ext_nth _ 0%Qc); [now rewrite map_length, seq_length|].
        intros t Ht. rewrite Hd by lia. rewrite (nth_map _ _ _ _ _ 0) by (rewrite seq_length; lia). now rewrite seq_nth by lia. }
    rewrite E. cbn [bind]. exists m, ps'. split; auto. split; auto. split; [apply same_model_refl|].
    assert (PO : params_ok card m ps').
    { split; auto. intros v Hv. destruct (HP v Hv) as ((W1 & W2 & W3) & D & _). destruct (A3 v Hv) as (D1 & D2). split.
      - split; [now rewrite D1|]. rewrite D1. split; auto. rewrite D2, map_length, seq_length. auto.
      - split; [congruence|]. unfold nonneg. rewrite D2. apply Forall_forall. intros x Hx. apply in_map_iff in Hx.
        destruct Hx as (j & <- & _). auto. }
    split; auto. split.
    2:{ intros v Hv. destruct (A3 v Hv) as (_ & ->). destruct (HP v Hv) as ((_ & -> & _) & -> & _). reflexivity. }
    intros v a Hv Ha K.
    set (c := flat (map card (v_parents (var m v))) (map a (v_parents (var m v)))).
    destruct (R2 v c Hv) as (j & Hj & Pj). assert (Z := column_flat ps' v a PO Hv Ha K j Hj). fold c in Z.
    destruct (A3 v Hv) as (D1 & D2). rewrite D2 in Z.
    assert (LT : j + card v * c < length (data (param ps v))).
    { destruct (HP v Hv) as ((_ & -> & _) & -> & _). cbn [family map prod].
      assert (c < prod (map card (v_parents (var m v)))) by (apply flat_lt, valid_ix_map; auto).
      change (prod (map card (family m v))) with (card v * prod (map card (v_parents (var m v)))). nia. }
    rewrite (nth_map _ _ _ _ _ 0) in Z by (rewrite seq_length; auto). rewrite seq_nth in Z by auto. cbn [Nat.add] in Z.
    rewrite Z in Pj. discriminate.
  - destruct HP as (LP & HP).
    match goal with |- context [for_up 0 ?k ?b ?s] =>
      destruct (for_up_inv (model * list potential * code) (fun i '(m', l, e) => e = NO_ERROR /\ model_ok card m' /\
        same_model m m' /\ m_jt m' = m_jt m /\ length l = n /\
        (forall v, v < n -> wf (param l v) /\ dims (param l v) = map card (family m v) /\ nonneg (param l v)) /\
        (forall v a, v < i -> valid card a -> column card m l v a <> 0%Qc) /\
        (forall v, v < i -> let q := clq (m_jt m) (home m v) in forall a, valid card a ->
           den (family m v) (param l v) a = sumv card (minus (c_vars q) (family m v)) (den (c_vars q) (c_orig q)) a)) b 0 k s)
        as (((m', l), e) & E & A0 & A1 & A2 & A3 & A4 & A5 & A6 & A7) end.
    { lia. } { split; auto. split; auto. split; [apply same_model_refl|]. split; auto. split; auto. split; auto. split; intros; lia. }
    { intros i ((m1, l), e) Hi (B0 & B1 & B2 & B3 & B4 & B5 & B6 & B7). subst e. cbn [is_err]. assert (Hi' : i < n) by lia.
      assert (Ln : length (m_vars m1) = n) by apply B2. assert (Fi := family_same m m1 i B2).
      destruct (family_mapping_ok card m1 i B1) as (m2 & c & m3 & r & F1 & F2 & M3 & S3 & J3 & _ & _ & Hc & HIn & HF & Hr).
      { lia. } { rewrite Fi. now apply (le_family _ _ HL). }
      rewrite F1. cbn [bind]. rewrite F2. cbn [bind]. rewrite J3. rewrite rd_clq by auto. cbn [bind].
      rewrite (rd_ok _ l i (mkPot [] [])) by lia. cbn [bind]. fold (param l i). rewrite B3 in *. rewrite Fi in HIn, Hr.
      set (C := c_vars (clq (m_jt m) c)) in *. assert (SH := mo_shape _ _ HM). destruct SH as (C0 & HCl & _).
      destruct (HCl c Hc) as (_ & TO & _). fold C in TO. assert (NF := le_family _ _ HL i Hi').
      destruct (B5 i Hi') as (Wi & Di & _).
      destruct (marginalise_table card C (family m i) (c_orig (clq (m_jt m) c)) (param l i) r C0 TO) as (p & Ep & Tp & Hp); auto.
      { split; auto. } { now apply NoDup_incl_length. } { now apply sel_family. }
      rewrite Ep. cbn [bind]. rewrite wr_ok by lia. cbn [bind]. eexists. split; [reflexivity|]. cbv beta iota.
      split; auto. split; auto. split; [eapply same_model_trans; eauto|]. split; [exact J3|].
      split; [now rewrite set_nth_length|].
      assert (Q : forall v, param (set_nth l i p) v = if Nat.eqb v i then p else param l v).
      { intros v. unfold param. now rewrite nth_set_nth by lia. }
      assert (NN : nonneg p).
      { apply nonneg_cells; [apply Tp|]. intros ix Hix. rewrite (proj2 (proj2 Tp)) in Hix.
        destruct (ix_assignment card (family m i) ix (fun _ => 0)) as (a & Va & Ea & _); auto.
        rewrite <- Ea. change (0 <= den (family m i) p a)%Qc. rewrite Hp by auto. apply sumv_nonneg; auto.
        intros b Hb. eapply den_nonneg; eauto. apply (mo_orig _ _ HM). auto. }
      split; [|split].
      3:{ intros v Hv. rewrite Q. destruct (Nat.eqb_spec v i) as [->|]; [|apply B7; lia].
        assert (HH : home m i = c).
        { rewrite <- (home_structure m m1 i (same_structure_model _ _ B2)). apply home_first. eapply (find_family_first card m1 i m2 c); eauto. lia. }
        cbv zeta. rewrite HH. exact Hp. }
      - intros v Hv. rewrite Q. destruct (Nat.eqb_spec v i) as [->|]; auto. split; [apply Tp|]. split; [apply Tp|auto].
      - intros v a Hv Ha. unfold column. rewrite Q. destruct (Nat.eqb_spec v i) as [->|]; [|apply B6; auto; lia].
        rewrite (sumv_ext card [i] _ (sumv card (minus C (family m i)) (den C (c_orig (clq (m_jt m) c))))) by auto.
        rewrite <- sumv_app.
        assert (NC : NoDup C) by apply TO.
        rewrite (sumv_perm card _ (minus C (v_parents (var m i)))).
        + apply HI; auto.
        + assert (NI : ~ In i (v_parents (var m i))) by (inversion NF; auto).
          apply NoDup_Permutation.
          * constructor; [|now apply minus_nodup]. intros K. apply minus_in in K. apply K. simpl; auto.
          * now apply minus_nodup.
          * intros w. cbn [app]. simpl In. rewrite !minus_in. unfold family. simpl In. split.
            -- intros [<-|(K1 & K2)]; [split; [apply HIn; simpl; auto|auto]|]. tauto.
            -- intros (K1 & K2). destruct (Nat.eq_dec i w); auto. right. split; auto. tauto.
        + apply (dep_ext C), den_dep. }
    rewrite E. exists m', l. subst e. split; auto. split; auto. split; auto. split; [split; auto|]. split; [intros v a Hv; now apply A6|].
    intros v Hv. now apply A7.
Qed.
End Initial.

(** ** em_learn *)
Definition em_state (card : nat -> nat) (m0 : model) (ts : list time_series) (s : model * list potential) : Prop :=
  learnable card (fst s) /\ same_structure m0 (fst s) /\ params_ok card (fst s) (snd s) /\
  columns_positive card (fst s) (snd s) /\ Forall (series_ok (fst s)) ts.
Lemma series_structure : forall m m' ts, same_structure m m' -> Forall (series_ok m) ts -> Forall (series_ok m') ts.
Proof.
  intros m m' ts S H. eapply Forall_impl; [|exact H]. intros x (X1 & X2 & X3). split; auto. split; auto.
  assert (LL : length (m_vars m') = length (m_vars m)) by apply S. rewrite LL. auto.
Qed.
Lemma em_iteration_state : forall card m0 ts s, em_state card m0 ts s ->
  exists s' l e, em_iteration ts s = Ok (s', l, e) /\ learnable card (fst s') /\ same_structure m0 (fst s') /\
    conditional_slices card (fst s') /\
    ((e = NO_ERROR /\ em_state card m0 ts s' /\ (forall x, In x ts -> likelihood card (fst s') x <> 0%Qc) /\
      em_round card ts (fst s) (snd s) l (fst s') (snd s')) \/
     (e = BAD_LUCK /\ installed card (fst s) (snd s) (fst s') /\ exists x, In x ts /\ likelihood card (fst s') x = 0%Qc)).
Proof.
  intros card m0 ts (m, ps) (H1 & H2 & H3 & H4 & H5). cbn [fst snd] in *.
  destruct (em_iteration_ok card ts m ps H1 H3 H4 H5) as (m' & ps' & L & e & E & A1 & A2 & A3 & A4 & A5 & A6).
  exists (m', ps'), L, e. cbn [fst snd]. split; auto. split; auto. assert (S : same_structure m0 m') by (eapply same_structure_trans; eauto).
  split; auto. split; auto. destruct A6 as [(-> & X)|(-> & X1 & X2 & X3 & X4)].
  - right. auto.
  - left. split; auto. split. { unfold em_state. cbn [fst snd]. assert (Z := series_structure m m' ts A2 H5). auto 10. }
    split; auto. split; auto 10.
Qed.

Lemma runs_rounds : forall card m0 ts s ls s1, em_state card m0 ts s -> runs (em_iteration ts) s ls s1 ->
  em_state card m0 ts s1 /\ em_rounds card ts (fst s) (snd s) ls (fst s1) (snd s1) /\
  (ls <> [] -> conditional_slices card (fst s1) /\ last ls 0%Qc = total_likelihood card (fst s1) ts).
Proof.
  intros card m0 ts s ls s1 HS HR. induction HR as [s|s l sa ls sb E HR IH].
  - split; auto. split; [constructor|]. congruence.
  - destruct (em_iteration_state card m0 ts s HS) as (s' & l' & e' & E' & A1 & A2 & A3 & A4).
    rewrite E in E'. injection E'. intros. subst s' l' e'. destruct A4 as [(_ & A4 & A5 & A6)|(K & _)]; [|discriminate].
    destruct (IH A4) as (I1 & I2 & I3). split; auto. split; [econstructor; eauto|]. intros _.
    destruct ls as [|y ls].
    + inversion HR; subst. split; auto. cbn. apply A6.
    + apply I3. discriminate.
Qed.

Lemma em_learn_ok : forall card m ts random max_iterations growth tiny curve,
  learnable card m -> ts <> [] -> Forall (series_ok m) ts -> initial_ok card m random ->
  exists ps0 ls m1 ps1 m' o,
    em_learn m ts random max_iterations growth tiny curve = Ok (m', o) /\
    params_ok card m ps0 /\ columns_positive card m ps0 /\ starts_from card m random ps0 /\
    em_rounds card ts m ps0 ls m1 ps1 /\ learnable card m' /\ same_structure m m' /\
    length ls <= Nat.max 3 (Z.to_nat max_iterations) /\
    o_curve o = curve ++ ls /\
    (forall k, S k < length ls ->
       ~ drops growth (nth k (tiny :: ls) 0%Qc) (nth k ls 0%Qc) /\
       (S k < 3 \/ (improves growth (nth k (tiny :: ls) 0%Qc) (nth k ls 0%Qc) /\ (Z.of_nat (S k) < max_iterations)%Z))) /\
    ((o_code o = NO_ERROR /\ m' = m1 /\ 3 <= length ls /\
      let k := length ls - 1 in
      ~ drops growth (nth k (tiny :: ls) 0%Qc) (nth k ls 0%Qc) /\
      ((o_criterion o = Some DELTA /\ ~ improves growth (nth k (tiny :: ls) 0%Qc) (nth k ls 0%Qc)) \/
       (o_criterion o = Some ITERATIONS /\ improves growth (nth k (tiny :: ls) 0%Qc) (nth k ls 0%Qc) /\
        (max_iterations <= Z.of_nat (length ls))%Z)) /\
      conditional_slices card m' /\ nth k ls 0%Qc = total_likelihood card m' ts) \/
     (o_code o = BAD_LUCK /\ o_criterion o = None /\
      ((m' = m1 /\ ls <> [] /\ let k := length ls - 1 in drops growth (nth k (tiny :: ls) 0%Qc) (nth k ls 0%Qc)) \/
       (installed card m1 ps1 m' /\ exists s, In s ts /\ likelihood card m' s = 0%Qc)))).
Proof.
  intros card m ts random mx growth tiny curve HL HN HT HI. unfold em_learn.
  destruct ts as [|t0 ts0] eqn:ET; [congruence|]. rewrite <- ET in *. clear HN.
  destruct (new_parameters_ok card m HL) as (pz & E0 & P0). rewrite E0. cbn [bind].
  destruct (initial_parameters_ok card m HL random pz HI P0) as (m1 & ps & E1 & M1 & S1 & P1 & C1 & ST1).
  rewrite E1. cbn [bind is_err].
  assert (HS : em_state card m ts (m1, ps)).
  { split; [eapply learnable_same; eauto|]. split; [now apply same_structure_model|]. split; [eapply params_same; eauto|]. split.
    - intros v a Hv Ha. assert (Ln : length (m_vars m1) = length (m_vars m)) by apply S1.
      assert (K := C1 v a). unfold column in *. cbn [fst snd] in *. rewrite (family_same m m1 v S1). apply K; auto. lia.
    - eapply series_structure; [apply same_structure_model|]; eauto. }
  destruct (em_loop_ok _ (em_iteration ts) (em_state card m ts)) with (growth := growth) (max_iterations := mx)
    (fuel := Nat.max MIN_EM_ITERATIONS (Z.to_nat mx)) (s := (m1, ps)) (old := tiny) (i := 0) (curve := curve)
    as (s' & o & ls & s1 & E & R & LE & GO & EN).
  { intros s Hs. destruct (em_iteration_state card m ts s Hs) as (s' & l & e & Es & _ & _ & _ & H).
    exists s', l, e. split; auto. intros ->. destruct H as [(_ & H & _)|(K & _)]; [auto|discriminate]. }
  { auto. } { unfold MIN_EM_ITERATIONS. lia. } { lia. }
  rewrite E. cbn [bind].
  destruct (runs_rounds card m ts (m1, ps) ls s1 HS R) as (ES & ER & EL).
  assert (R0 : em_rounds card ts m ps ls (fst s1) (snd s1) \/ ls = []).
  { destruct ls as [|l ls]; auto. left. inversion ER; subst. econstructor; [|eauto].
    match goal with H : em_round _ _ _ _ _ _ _ |- _ => destruct H as (Q1 & Q2 & Q3 & Q4 & Q5 & Q6 & Q7) end. cbn [fst snd] in *.
    assert (SS := same_structure_model _ _ S1). assert (Ln : length (m_vars m1) = length (m_vars m)) by apply S1.
    split; [eapply same_structure_trans; eauto|]. split.
    - destruct Q2 as (Q2 & QF & Q2'). split; [|split].
      + intros a Ha. rewrite Q2 by auto. rewrite Ln. unfold product_cond.
        rewrite (filter_ext (has_parents m1) (has_parents m)).
        * apply qprod_map_ext. intros v _. unfold cond, column. now rewrite (family_same m m1 v S1).
        * intros v. unfold has_parents. destruct S1 as (_ & _ & SV & _). destruct (SV v) as (_ & _ & -> & _). reflexivity.
      + intros k a Hk Ha. rewrite QF by auto. apply qprod_map_ext. intros v _. unfold cond, column. now rewrite (family_same m m1 v S1).
      + intros v Hv Hp. destruct (Q2' v) as (l1 & X & Y).
        * lia.
        * destruct S1 as (_ & _ & SV & _). destruct (SV v) as (_ & _ & -> & _). auto.
        * exists l1. split; auto. intros a Ha. rewrite Y by auto. unfold cond, column. now rewrite (family_same m m1 v S1).
    - split; auto. split; auto. intros v ix Hv Hix. apply Q4; [lia|]. now rewrite (family_same m m1 v S1). }
  assert (LAST : ls <> [] -> last ls 0%Qc = nth (length ls - 1) ls 0%Qc).
  { clear. intros H. induction ls as [|x ls IH]; [congruence|]. destruct ls as [|y ls]; auto.
    change (last (x :: y :: ls) 0%Qc) with (last (y :: ls) 0%Qc). rewrite IH by discriminate. cbn [length].
    now rewrite !Nat.sub_succ, !Nat.sub_0_r. }
  assert (GO' : forall k, S k < length ls ->
       ~ drops growth (nth k (tiny :: ls) 0%Qc) (nth k ls 0%Qc) /\
       (S k < 3 \/ (improves growth (nth k (tiny :: ls) 0%Qc) (nth k ls 0%Qc) /\ (Z.of_nat (S k) < mx)%Z))).
  { intros k Hk. exact (GO k Hk). }
  destruct EN as [(N1 & N2 & N3 & N4 & N5 & N6 & N7)|[(N1 & N2 & N3 & N4 & N5 & N6)|(l & N1 & N2 & N3 & N4 & N5)]].
  - destruct R0 as [R0|R0]; [|congruence]. exists ps, ls, (fst s1), (snd s1), (fst s'), o. subst s'.
    split; auto. split; auto. split; auto. split; auto. split; auto. split; [apply ES|]. split; [apply ES|]. split; auto. split; auto. split; auto.
    left. split; auto. split; auto. split; auto. cbv zeta. split; auto. split; auto. destruct (EL N1) as (EL1 & EL2).
    split; auto. rewrite <- LAST by auto. auto.
  - destruct R0 as [R0|R0]; [|congruence]. exists ps, ls, (fst s1), (snd s1), (fst s'), o. subst s'.
    split; auto. split; auto. split; auto. split; auto. split; auto. split; [apply ES|]. split; [apply ES|]. split; auto. split; auto. split; auto.
    right. split; auto. 
  - destruct (em_iteration_state card m ts s1 ES) as (s2 & l2 & e2 & E2 & A1 & A2 & A3 & A4).
    rewrite N1 in E2. injection E2. intros E2a E2b E2c. subst s2 l2 e2.
    destruct A4 as [(K & _)|(K & A4 & A5)]; [congruence|]. rewrite K in N4.
    assert (BL : o_code o = BAD_LUCK /\ o_criterion o = None) by auto.
    destruct R0 as [R0|R0].
    + exists ps, ls, (fst s1), (snd s1), (fst s'), o.
      split; auto. split; auto. split; auto. split; auto. split; auto. split; auto. split; auto. split; auto. split; auto. split; auto.
      right. auto.
    + subst ls. inversion R; subst. cbn [fst snd] in *.
      exists ps, [], m, ps, (fst s'), o.
      split; auto. split; auto. split; auto. split; auto. split; [constructor|]. split; auto. split; auto. split; auto. split; auto. split; auto.
      right. split; auto. split; auto. right. split; auto.
      assert (Ln : length (m_vars m1) = length (m_vars m)) by apply S1.
      destruct A4 as (Q2 & QF & Q2'). split; [|split].
      * intros a Ha. rewrite Q2 by auto. rewrite Ln. unfold product_cond.
        rewrite (filter_ext (has_parents m1) (has_parents m)).
        -- apply qprod_map_ext. intros v _. unfold cond, column. now rewrite (family_same m m1 v S1).
        -- intros v. unfold has_parents. destruct S1 as (_ & _ & SV & _). destruct (SV v) as (_ & _ & -> & _). reflexivity.
      * intros k a Hk Ha. rewrite QF by auto. apply qprod_map_ext. intros v _. unfold cond, column. now rewrite (family_same m m1 v S1).
      * intros v Hv Hp. destruct (Q2' v) as (l1 & X & Y).
        -- lia.
        -- destruct S1 as (_ & _ & SV & _). destruct (SV v) as (_ & _ & -> & _). auto.
        -- exists l1. split; auto. intros a Ha. rewrite Y by auto. unfold cond, column. now rewrite (family_same m m1 v S1).
Qed.
