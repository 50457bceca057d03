(** * Proofs: the M-step *)
From Coq Require Import Permutation Field Relations.
From Verif Require Import Base BaseProofs PotentialModel PotentialSpec PotentialProofs
  PotentialProofs2 PotentialProofs3 VariableModel VariableProofs JoinTreeModel
  AssignSpec AssignProofs JoinTreeSpec JoinTreeProofs JoinTreeProofs2 JoinTreeProofs3
  JoinTreeProofs4 JoinTreeProofs5 JoinTreeProofs6 JoinTreeProofs7 NipModel NipSpec NipProofs
  NipProofs2 NipProofs3 NipProofs4 GatherProofs GatherProofs2 SliceModel SliceSpec SliceProofs SliceProofs2 SliceProofs3
  SliceProofs4 SliceProofs5 LearnModel LearnSpec LearnProofs LearnProofs2.
Import ListNotations.
Open Scope nat_scope.
Local Open Scope res_scope.

Add Field Qcfield_learn3 : Qcft.

Lemma qsum_zeros : forall l, (forall x, In x l -> x = 0%Qc) -> qsum l = 0%Qc.
Proof. induction l as [|x l IH]; intros H; cbn [qsum]; auto. rewrite IH by (intros; apply H; simpl; auto). rewrite (H x) by (simpl; auto). ring. Qed.

(** ** Structure *)
Lemma same_structure_refl : forall m, same_structure m m.
Proof. intros m. unfold same_structure. auto 20. Qed.
Lemma same_structure_trans : forall a b c, same_structure a b -> same_structure b c -> same_structure a c.
Proof.
  intros a b c (A1 & A2 & A3 & A4 & A5 & A6 & A7 & A8 & A9 & A10) (B1 & B2 & B3 & B4 & B5 & B6 & B7 & B8 & B9 & B10).
  unfold same_structure. split; [congruence|]. split; [intros; congruence|]. split; [congruence|].
  split. { intros v. destruct (A4 v) as (? & ? & ? & ?), (B4 v) as (? & ? & ? & ?). repeat split; congruence. }
  repeat split; congruence.
Qed.
Lemma same_structure_model : forall m m', same_model m m' -> same_structure m m'.
Proof.
  intros m m' ((L1 & _ & SC & _) & L & SV & H). unfold same_structure. split; auto. split; [intros i; apply SC|].
  split; auto. split; [intros v; destruct (SV v) as (? & ? & ? & ? & ?); auto|]. tauto.
Qed.
Lemma structure_family : forall m m' v, same_structure m m' -> family m' v = family m v.
Proof. intros m m' v (_ & _ & _ & H & _). unfold family. destruct (H v) as (_ & -> & _). reflexivity. Qed.

Lemma learnable_structure : forall card m m', learnable card m -> same_structure m m' -> model_ok card m' ->
  learnable card m'.
Proof.
  intros card m m' [HS HF HR HP HA] SS M. assert (SS' := SS).
  destruct SS as (A1 & A2 & A3 & A4 & A5 & A6 & A7 & A8 & A9 & A10). destruct HS as [S1 S2 S3 S4 S5 S6 S7].
  split.
  - split; rewrite ?A10, ?A9, ?A1, ?A7, ?A8, ?A2; auto.
    rewrite A5. intros v Hv. destruct (A4 v) as (_ & _ & -> & _). auto.
  - intros v Hv. rewrite (structure_family m m') by auto. apply HF. lia.
  - intros v Hv. rewrite A5. destruct (A4 v) as (_ & -> & _). apply HR. lia.
  - rewrite A8, A5; auto.
  - destruct HA as (l & P & Q). exists l. rewrite A3. split; auto. intros l1 v l2 E. destruct (A4 v) as (_ & -> & _).
    eapply Q; eauto.
Qed.

(** ** Where the family of a variable lives *)
Lemma filter_none : forall A (P : A -> bool) l, (forall x, In x l -> P x = false) -> filter P l = [].
Proof.
  intros A P l. induction l as [|x l IH]; intros H; cbn [filter]; auto. rewrite H by (left; auto). apply IH. intros; apply H; right; auto.
Qed.
Lemma home_first : forall m v k, first_clique (m_jt m) (family m v) k -> home m v = k.
Proof.
  intros m v k (Hk & HI & HN). unfold home.
  set (P := fun k => forallb (fun u => existsb (Nat.eqb u) (c_vars (clq (m_jt m) k))) (family m v)).
  assert (Q : forall j, P j = true <-> incl (family m v) (c_vars (clq (m_jt m) j))).
  { intros j. unfold P. rewrite forallb_forall. split; intros H u Hu.
    - specialize (H u Hu). apply existsb_exists in H. destruct H as (w & Hw & Ew). apply Nat.eqb_eq in Ew. now subst.
    - apply existsb_exists. exists u. split; [now apply H|apply Nat.eqb_refl]. }
  replace (seq 0 (length (cls (m_jt m)))) with (seq 0 k ++ k :: seq (S k) (length (cls (m_jt m)) - S k)).
  - rewrite filter_app. rewrite (filter_none _ P (seq 0 k)).
    + cbn [app filter]. now rewrite (proj2 (Q k) HI).
    + intros j Hj. apply in_seq in Hj. destruct (P j) eqn:E; auto. exfalso. apply (HN j); [lia|]. now apply Q.
  - change (k :: seq (S k) (length (cls (m_jt m)) - S k)) with (seq k (S (length (cls (m_jt m)) - S k))).
    rewrite <- seq_app. f_equal. lia.
Qed.
Lemma home_structure : forall m m' v, same_structure m m' -> home m' v = home m v.
Proof.
  intros m m' v S. unfold home. rewrite (structure_family m m' v S). destruct S as (-> & H & _). f_equal.
  apply filter_ext. intros k. now rewrite H.
Qed.
Lemma housed_structure : forall m m' k vs, same_structure m m' -> housed m' k vs = housed m k vs.
Proof.
  intros m m' k vs S. unfold housed. apply filter_ext. intros v. rewrite (home_structure m m' v S).
  unfold has_parents. destruct S as (_ & _ & _ & H & _). destruct (H v) as (_ & -> & _). reflexivity.
Qed.
Lemma find_family_first : forall card m v m1 k, model_ok card m -> v < length (m_vars m) ->
  find_family m v = Ok (m1, Some k) -> first_clique (m_jt m) (family m v) k.
Proof.
  intros card m v m1 k HM Hv E.
  destruct (find_family_ok card m v HM Hv) as (m1' & k' & E1 & M1 & S1 & J1 & _ & _ & _ & _ & HF).
  rewrite E1 in E. injection E as E2 E3. subst m1' k'.
  destruct (mo_var _ _ M1 v) as (_ & _ & _ & X & _). { destruct S1 as (_ & -> & _). auto. }
  specialize (X k HF). rewrite J1 in X. unfold family. destruct S1 as (_ & _ & SV & _). destruct (SV v) as (_ & _ & <- & _). exact X.
Qed.
Lemma factored_same : forall card m m' f, same_model m m' -> factored card m f -> factored card m' f.
Proof.
  intros card m m' f S H k a Hk Ha. assert (SS := same_structure_model m m' S). rewrite (housed_structure m m' _ _ SS).
  destruct S as ((L & _ & SC & _) & -> & _). destruct (SC k) as (-> & _ & ->). apply H; auto. lia.
Qed.

(** ** Replacing the tables of a clique *)
Definition putc (jt : jtree) (c : nat) (k : clique) : jtree := mkJT (set_nth (cls jt) c k) (sps jt).
Lemma clq_putc : forall jt c k i, c < length (cls jt) -> clq (putc jt c k) i = if Nat.eqb i c then k else clq jt i.
Proof. intros jt c k i H. unfold putc. rewrite clq_set by auto. now rewrite jt_eta. Qed.

Section Replace.
Variable card : nat -> nat.
Variable m : model.
Variable c : nat.
Variable k : clique.
Local Notation jt := (m_jt m).
Hypothesis HM : model_ok card m.
Hypothesis Hc : c < length (cls jt).
Hypothesis Kv : c_vars k = c_vars (clq jt c).
Hypothesis Ks : c_sepsets k = c_sepsets (clq jt c).
Hypothesis Tp : table card (c_vars (clq jt c)) (c_p k).
Hypothesis To : table card (c_vars (clq jt c)) (c_orig k).
Hypothesis Np : nonneg (c_p k).
Hypothesis No : nonneg (c_orig k).

Lemma putc_vars : forall i, c_vars (clq (putc jt c k) i) = c_vars (clq jt i).
Proof. intros i. rewrite clq_putc by auto. destruct (Nat.eqb_spec i c) as [->|]; auto. Qed.

Lemma replace_model : model_ok card (set_jt m (putc jt c k)).
Proof.
  destruct HM as [H1 H2 H3 H4 H5 H6 H7 H8].
  assert (L : length (cls (putc jt c k)) = length (cls jt)) by (cbn; apply set_nth_length).
  split; auto; cbn [m_jt m_vars m_indep set_jt].
  - destruct H1 as (C0 & HCl & HSp). split; auto. split.
    + intros i Hi. rewrite L in Hi. rewrite putc_vars. rewrite clq_putc by auto.
      destruct (HCl i Hi) as (A & B & C & D & E).
      destruct (Nat.eqb_spec i c) as [->|N].
      * split; auto. split; auto. split; auto. rewrite Ks. auto.
      * auto 10.
    + intros s Hs. destruct (HSp s Hs) as (A & B & C & D & E & F & G). rewrite !putc_vars, L. change (sep (putc jt c k) s) with (sep jt s). auto 10.
  - destruct H2 as (ns & es & T & P1 & P2). exists ns, es. rewrite L. split; auto. clear P1 P2.
    induction T; [constructor|]. econstructor; eauto.
  - intros v i j Hi Hj Vi Vj. rewrite L in Hi, Hj. rewrite putc_vars in Vi, Vj.
    exact (H3 v i j Hi Hj Vi Vj).
  - destruct H4 as (N1 & N2). split; auto. intros i Hi. rewrite L in Hi. rewrite clq_putc by auto.
    destruct (Nat.eqb_spec i c) as [->|]; auto.
  - intros i Hi. rewrite L in Hi. rewrite clq_putc by auto. destruct (Nat.eqb_spec i c) as [->|]; auto.
  - intros i v Hi. rewrite L in Hi. rewrite putc_vars. now apply H6.
  - intros v Hv. destruct (H7 v Hv) as (X1 & X2 & (j & X3 & X3') & X4 & X5). split; auto. split; auto. split.
    { exists j. rewrite L, putc_vars. auto. } split.
    { intros i Hi. destruct (X4 i Hi) as (A & B & C). split; [now rewrite L|]. split; [now rewrite putc_vars|].
      intros t Ht. rewrite putc_vars. now apply C. }
    intros r Hr. destruct (X5 r Hr) as (i & Ei & A & B). exists i. rewrite putc_vars. auto.
Qed.
Lemma replace_structure : same_structure m (set_jt m (putc jt c k)).
Proof.
  unfold same_structure. cbn [m_jt m_vars m_indep m_children m_out m_prev m_in_clique m_out_clique set_jt].
  split; [cbn; apply set_nth_length|]. split; [apply putc_vars|]. auto 20.
Qed.
Lemma replace_joint : forall a f, phi (putc jt c k) c a = (phi jt c a * f)%Qc ->
  joint (putc jt c k) a = (joint jt a * f)%Qc.
Proof.
  intros a f H. unfold joint. assert (L : length (cls (putc jt c k)) = length (cls jt)) by (cbn; apply set_nth_length).
  rewrite L. destruct (qprod_change1 card (fun i => phi (putc jt c k) i a) (fun i => phi jt i a) (length (cls jt)) c Hc)
      as (r & R1 & R2).
  { intros i N. unfold phi. rewrite clq_putc by auto. destruct (Nat.eqb_spec i c); congruence. }
  rewrite R1, R2. cbv beta. rewrite H. change (sps (putc jt c k)) with (sps jt).
  change (fun s => psi (putc jt c k) s a) with (fun s => psi jt s a). unfold Qcdiv. ring.
Qed.
Lemma replace_original : forall a f, den (c_vars (clq jt c)) (c_orig k) a = (den (c_vars (clq jt c)) (c_orig (clq jt c)) a * f)%Qc ->
  original (set_jt m (putc jt c k)) a = (original m a * f)%Qc.
Proof.
  intros a f H. unfold original. cbn [m_jt set_jt]. assert (L : length (cls (putc jt c k)) = length (cls jt)) by (cbn; apply set_nth_length).
  rewrite L. destruct (qprod_change1 card (fun i => den (c_vars (clq (putc jt c k) i)) (c_orig (clq (putc jt c k) i)) a)
     (fun i => den (c_vars (clq jt i)) (c_orig (clq jt i)) a) (length (cls jt)) c Hc)
      as (r & R1 & R2).
  { intros i N. rewrite clq_putc by auto. destruct (Nat.eqb_spec i c); congruence. }
  rewrite R1, R2. cbv beta. rewrite clq_putc, Nat.eqb_refl by auto. rewrite Kv, H. ring.
Qed.
End Replace.

(** ** total_reset *)
Lemma ones_nonneg : forall p, nonneg (ones p).
Proof. intros p. unfold nonneg, ones. cbn. apply Forall_forall. intros x Hx. apply repeat_spec in Hx. subst. discriminate. Qed.

Lemma total_reset_ok : forall card m, model_ok card m ->
  exists m', total_reset m = Ok m' /\ model_ok card m' /\ same_structure m m' /\
    (forall v, v_prior (var m' v) = v_prior (var m v)) /\
    (forall v, v < length (m_vars m) -> v_lik (var m' v) = repeat 1%Qc (card v) /\ v_entered (var m' v) = false) /\
    (forall a, valid card a -> joint (m_jt m') a = 1%Qc /\ original m' a = 1%Qc) /\
    (forall k a, k < length (cls (m_jt m)) -> valid card a ->
       den (c_vars (clq (m_jt m') k)) (c_orig (clq (m_jt m') k)) a = 1%Qc).
Proof.
  intros card m HM. unfold total_reset.
  match goal with |- context [for_up 0 ?n ?b ?s] =>
    destruct (for_up_inv jtree (fun i jt => model_ok card (set_jt m jt) /\ same_structure m (set_jt m jt) /\
       forall j, j < i -> c_orig (clq jt j) = ones (c_orig (clq (m_jt m) j))) b 0 n s)
      as (jt & E1 & A1 & A2 & A3) end.
  { lia. }
  { replace (set_jt m (m_jt m)) with m by (destruct m; reflexivity). split; auto. split; [apply same_structure_refl|]. intros; lia. }
  { intros i jt Hi (B1 & B2 & B3). assert (Li : length (cls jt) = length (cls (m_jt m))) by apply B2.
    rewrite rd_clq by lia. cbn [bind]. rewrite uniform_ok. cbn [bind]. rewrite put_clique_ok by lia.
    set (k := set_orig (clq jt i) (mkPot (dims (c_orig (clq jt i))) (repeat 1%Qc (length (data (c_orig (clq jt i))))))).
    assert (S0 := mo_shape _ _ B1). cbn [m_jt set_jt] in S0.
    assert (D0 : c_orig (clq jt i) = c_orig (clq jt i)) by auto.
    destruct S0 as (C0 & HCl & HSp). destruct (HCl i ltac:(lia)) as (T1 & T2 & _).
    assert (MK : model_ok card (set_jt (set_jt m jt) (putc (m_jt (set_jt m jt)) i k))).
    { apply replace_model; auto; cbn [m_jt set_jt]; try lia; try reflexivity.
      - apply (ones_table card _ _ T2).
      - apply (proj1 (mo_nonneg _ _ B1)). cbn. lia.
      - apply (ones_nonneg (c_orig (clq jt i))). }
    eexists. split; [reflexivity|]. split; [exact MK|]. split.
    { eapply same_structure_trans; [exact B2|]. apply (replace_structure (set_jt m jt) i k); cbn [m_jt set_jt]; auto; lia. }
    intros j Hj. fold (putc jt i k). rewrite clq_putc by lia. destruct (Nat.eqb_spec j i) as [->|N]; [|apply B3; lia].
    unfold k, ones. cbn [c_orig set_orig].
    (* the original table of clique i has not been touched: same shape *)
    assert (Tm : table card (c_vars (clq (m_jt m) i)) (c_orig (clq (m_jt m) i))) by (apply (mo_shape _ _ HM); lia).
    assert (V : c_vars (clq jt i) = c_vars (clq (m_jt m) i)) by apply B2.
    destruct T2 as (_ & (_ & W2 & _) & D2), Tm as (_ & (_ & W3 & _) & D3). rewrite W2, W3, D2, D3, V. reflexivity. }
  rewrite E1. cbn [bind].
  destruct (reset_model_ok card (set_jt m jt) A1) as (m' & E2 & M' & S' & R1 & R2 & R3).
  rewrite E2. exists m'. split; auto. split; auto.
  assert (SS : same_structure m m') by (eapply same_structure_trans; [exact A2|]; apply same_structure_model; auto).
  split; auto. split. { intros v. destruct S' as (_ & _ & SV & _). destruct (SV v) as (_ & -> & _). reflexivity. }
  split. { intros v Hv. apply R1. auto. }
  assert (Li : length (cls jt) = length (cls (m_jt m))) by apply A2.
  assert (KO : forall i a, i < length (cls (m_jt m)) -> valid card a -> den (c_vars (clq jt i)) (c_orig (clq jt i)) a = 1%Qc).
  { intros i a Hi Ha. rewrite A3 by lia. assert (V : c_vars (clq jt i) = c_vars (clq (m_jt m) i)) by apply A2. rewrite V.
    apply (ones_den card); auto. apply (mo_shape _ _ HM). lia. }
  split.
  - intros a Ha.
    assert (O : original (set_jt m jt) a = 1%Qc).
    { unfold original. apply qprod_ones. intros i Hi. apply in_seq in Hi. cbn [m_jt set_jt] in Hi |- *. apply KO; auto. lia. }
    split; [now rewrite R3|]. now rewrite (same_original _ _ a S').
  - intros k a Hk Ha. destruct S' as ((_ & _ & SC & _) & _). destruct (SC k) as (-> & _ & ->). cbn [m_jt set_jt]. now apply KO.
Qed.

(** ** Normalising the parameters *)
Section Mstep.
Variable card : nat -> nat.
Variable m0 : model.
Hypothesis HL : learnable card m0.
Local Notation n := (length (m_vars m0)).
Let HM : model_ok card m0 := so_model _ _ (le_slices _ _ HL).

Lemma card_pos : forall v, 0 < card v.
Proof. apply (shape_card card _ (mo_shape _ _ HM)). Qed.
Lemma zero_ok : valid card (fun _ => 0).
Proof. intros v. apply card_pos. Qed.

Lemma param_table : forall ps v, params_ok card m0 ps -> v < n -> table card (family m0 v) (param ps v).
Proof. intros ps v (_ & H) Hv. destruct (H v Hv) as (A & B & _). split; auto. now apply (le_family _ _ HL). Qed.
Lemma param_nonneg : forall ps v a, params_ok card m0 ps -> v < n -> valid card a ->
  (0 <= den (family m0 v) (param ps v) a)%Qc.
Proof.
  intros ps v a HP Hv Ha. eapply den_nonneg; eauto using param_table. destruct HP as (_ & HP). now apply HP.
Qed.
Lemma column_nonneg : forall ps v a, params_ok card m0 ps -> v < n -> valid card a -> (0 <= column card m0 ps v a)%Qc.
Proof. intros. apply sumv_nonneg; auto. intros; now apply param_nonneg. Qed.

Lemma upd_family : forall v a x, v < n -> map (upd a v x) (family m0 v) = x :: map a (v_parents (var m0 v)).
Proof.
  intros v a x Hv. unfold family. cbn [map]. unfold upd at 1. rewrite Nat.eqb_refl. f_equal.
  apply map_ext_in. intros w Hw. unfold upd. destruct (Nat.eqb_spec w v) as [->|]; auto.
  assert (N := le_family _ _ HL v Hv). inversion N; subst. contradiction.
Qed.
Lemma column_colsum : forall ps v a, params_ok card m0 ps -> v < n ->
  column card m0 ps v a = colsum (param ps v) (map a (v_parents (var m0 v))).
Proof.
  intros ps v a (_ & HP) Hv. destruct (HP v Hv) as (_ & D & _). unfold column, colsum. rewrite D. cbn [family map hd].
  cbn [sumv]. apply qsum_map_ext. intros x _. unfold den. change (v :: v_parents (var m0 v)) with (family m0 v). now rewrite upd_family.
Qed.
Lemma column_dep : forall ps v, v < n -> dep (v_parents (var m0 v)) (column card m0 ps v).
Proof.
  intros ps v Hv a b E. unfold column. cbn [sumv]. apply qsum_map_ext. intros x _. unfold den. rewrite !upd_family by auto.
  f_equal. f_equal. apply map_ext_in. auto.
Qed.
Lemma cond_dep : forall ps v, v < n -> dep (family m0 v) (cond card m0 ps v).
Proof.
  intros ps v Hv a b E. unfold cond. rewrite (den_dep (family m0 v) (param ps v) a b) by auto.
  rewrite (column_dep ps v Hv a b); auto. intros; apply E. simpl; auto.
Qed.
Lemma cond_nonneg : forall ps v a, params_ok card m0 ps -> v < n -> valid card a -> (0 <= cond card m0 ps v a)%Qc.
Proof.
  intros ps v a HP Hv Ha. unfold cond, Qcdiv. apply Qc_mul_nonneg; [now apply param_nonneg|]. apply Qc_inv_nonneg. now apply column_nonneg.
Qed.
(** A conditional distribution sums to one. *)
Lemma cond_sum : forall ps v a, params_ok card m0 ps -> v < n -> column card m0 ps v a <> 0%Qc ->
  sumv card [v] (cond card m0 ps v) a = 1%Qc.
Proof.
  intros ps v a HP Hv HN.
  transitivity (sumv card [v] (fun b => / column card m0 ps v a * den (family m0 v) (param ps v) b)%Qc a).
  - apply sumv_ext_free. intros d Hd. unfold cond. rewrite (column_dep ps v Hv d a).
    + unfold Qcdiv. ring.
    + intros w Hw. apply Hd. intros [<-|[]]. assert (N := le_family _ _ HL v Hv). inversion N; contradiction.
  - rewrite sumv_const_out. fold (column card m0 ps v a). field. auto.
Qed.

Lemma normalise_params : forall ps, params_ok card m0 ps ->
  exists ps', for_up 0 n
      (fun i l =>
         let* p := rd l i in
         let* (p, _) := normalise_cpd (Some p) in
         match p with None => UB | Some p => wr l i p end) ps = Ok ps' /\
    params_ok card m0 ps' /\
    forall v a, v < n -> valid card a -> den (family m0 v) (param ps' v) a = cond card m0 ps v a.
Proof.
  intros ps HP. assert (HP' := HP). destruct HP' as (LP & HPv).
  match goal with |- context [for_up 0 ?k ?b ?s] =>
    destruct (for_up_inv (list potential) (fun i l => length l = n /\
      (forall v, v < n -> wf (param l v) /\ dims (param l v) = map card (family m0 v)) /\
      (forall v, i <= v -> param l v = param ps v) /\
      (forall v a, v < i -> valid card a -> den (family m0 v) (param l v) a = cond card m0 ps v a)) b 0 k s)
      as (ps' & E & A1 & A2 & A3 & A4) end.
  { lia. }
  { split; auto. split. { intros v Hv. destruct (HPv v Hv) as (? & ? & ?); auto. } split; auto. intros; lia. }
  { intros i l Hi (B1 & B2 & B3 & B4). assert (Hi' : i < n) by lia.
    rewrite (rd_ok _ l i (mkPot [] [])) by lia. cbn [bind]. fold (param l i).
    destruct (B2 i Hi') as (W & D).
    destruct (normalise_cpd_ok (param l i) W) as (p' & Ep & Dp & Wp & Hp).
    { unfold dimensionality. rewrite D. cbn. lia. }
    rewrite Ep. cbn [bind]. rewrite wr_ok by lia. eexists. split; [reflexivity|].
    assert (Q : forall v, param (set_nth l i p') v = if Nat.eqb v i then p' else param l v).
    { intros v. unfold param. rewrite nth_set_nth by lia. reflexivity. }
    split; [now rewrite set_nth_length|]. split.
    { intros v Hv. rewrite Q. destruct (Nat.eqb_spec v i) as [->|]; [split; [auto|congruence]|auto]. }
    split. { intros v Hv. rewrite Q. destruct (Nat.eqb_spec v i); [lia|apply B3; lia]. }
    intros v a Hv Ha. rewrite Q. destruct (Nat.eqb_spec v i) as [->|]; [|apply B4; auto; lia].
    unfold den. change (map a (family m0 i)) with (a i :: map a (v_parents (var m0 i))).
    rewrite Hp by (rewrite D; apply (valid_ix_map card (family m0 i) a Ha)).
    rewrite (B3 i) by lia. rewrite <- column_colsum by auto. unfold cond.
    change (cell (param ps i) (a i :: map a (v_parents (var m0 i)))) with (den (family m0 i) (param ps i) a).
    destruct (qzero (column card m0 ps i a)) eqn:Z; auto.
    apply qzero_true in Z. rewrite Z.
    assert (K : den (family m0 i) (param ps i) a = 0%Qc).
    { apply (sumv_zero_inv card [i] (den (family m0 i) (param ps i)) a); auto.
      - apply (dep_ext (family m0 i)), den_dep.
      - intros; now apply param_nonneg. }
    rewrite K. unfold Qcdiv. ring. }
  exists ps'. split; auto. assert (FIN : forall v a, v < n -> valid card a -> den (family m0 v) (param ps' v) a = cond card m0 ps v a) by auto.
  split; auto. split; auto. intros v Hv. destruct (A2 v Hv) as (W & D). split; auto. split; auto.
  apply nonneg_cells; auto. intros ix Hix. rewrite D in Hix.
  destruct (ix_assignment card (family m0 v) ix (fun _ => 0)) as (a & Va & Ea & _); auto.
  { now apply (le_family _ _ HL). } { apply zero_ok. }
  rewrite <- Ea. change (0 <= den (family m0 v) (param ps' v) a)%Qc. rewrite FIN by auto. now apply cond_nonneg.
Qed.

(** ** Installing the parameters *)
Lemma m_step_ok : forall ps, params_ok card m0 ps ->
  (forall v, v < n -> v_parents (var m0 v) = [] -> column card m0 ps v (fun _ => 0) <> 0%Qc) ->
  exists m' ps', m_step m0 ps = Ok (m', ps', NO_ERROR) /\ learnable card m' /\ same_structure m0 m' /\
    params_ok card m0 ps' /\
    (forall v a, v < n -> valid card a -> den (family m0 v) (param ps' v) a = cond card m0 ps v a) /\
    (forall a, valid card a -> joint (m_jt m') a = product_cond card m0 ps (filter (has_parents m0) (seq 0 n)) a /\
                               original m' a = product_cond card m0 ps (filter (has_parents m0) (seq 0 n)) a) /\
    factored card m' (cond card m0 ps) /\
    (forall v, v < n -> v_parents (var m0 v) = [] -> exists l, v_prior (var m' v) = Some l /\
        forall a, valid card a -> at_state l v a = cond card m0 ps v a) /\
    (forall v, v < n -> v_lik (var m' v) = repeat 1%Qc (card v) /\ v_entered (var m' v) = false).
Proof.
  intros ps HP HR. unfold m_step.
  destruct (normalise_params ps HP) as (ps' & E0 & P' & D'). rewrite E0. cbn [bind].
  destruct (total_reset_ok card m0 HM) as (m1 & E1 & M1 & S1 & Pr1 & Lk1 & J1 & KO1). rewrite E1. cbn [bind].
  match goal with |- context [for_up 0 ?k ?b ?s] =>
    destruct (for_up_inv (model * code) (fun i '(m, e) => e = NO_ERROR /\ model_ok card m /\ same_structure m0 m /\
      (forall a, valid card a -> joint (m_jt m) a = product_cond card m0 ps (filter (has_parents m0) (seq 0 i)) a /\
                               original m a = product_cond card m0 ps (filter (has_parents m0) (seq 0 i)) a) /\
      (forall j a, j < length (cls (m_jt m0)) -> valid card a ->
         den (c_vars (clq (m_jt m) j)) (c_orig (clq (m_jt m) j)) a =
         qprod (map (fun v => cond card m0 ps v a) (housed m0 j (seq 0 i)))) /\
      (forall v, v < i -> v_parents (var m0 v) = [] -> exists l, v_prior (var m v) = Some l /\
        forall a, valid card a -> at_state l v a = cond card m0 ps v a) /\
      (forall v, v < n -> v_lik (var m v) = repeat 1%Qc (card v) /\ v_entered (var m v) = false)) b 0 k s)
      as ((m', e) & E & A0 & A1 & A2 & A3 & AF & A4 & A5) end.
  { lia. }
  { split; auto. split; auto. split; auto. split; [exact J1|]. split; [exact KO1|]. split; [intros; lia|]. auto. }
  { intros i (m, e) Hi (B0 & B1 & B2 & B3 & BF & B4 & B5). subst e. cbn [is_err].
    assert (Li : length (m_vars m) = n) by apply B2. assert (Hi' : i < n) by lia.
    rewrite rd_var by lia. cbn [bind]. rewrite (rd_ok _ ps' i (mkPot [] [])) by (destruct P' as (-> & _); lia). cbn [bind].
    fold (param ps' i).
    assert (Pi : v_parents (var m i) = v_parents (var m0 i)) by apply B2. rewrite Pi.
    assert (TP := param_table ps' i P' Hi').
    assert (SEQ : seq 0 (S i) = seq 0 i ++ [i]) by (rewrite seq_S; reflexivity).
    destruct (v_parents (var m0 i)) as [|q qs] eqn:EP; cbn [length Nat.ltb Nat.leb].
    - (* a variable without parents *)
      assert (FAM : family m0 i = [i]) by (unfold family; now rewrite EP).
      assert (IND : In i (m_indep m)). { destruct B2 as (_ & _ & _ & _ & -> & _). now apply (le_roots _ _ HL). }
      destruct (mo_indep _ _ B1) as (_ & PO). destruct (PO i IND) as (_ & (l0 & El0 & (Ll0 & _) & _)).
      rewrite El0. rewrite FAM in TP.
      destruct (total_marginalise_ok (param ps' i) l0 0) as (l & El & Ll & Hl & _).
      { apply TP. } { unfold dimensionality. destruct TP as (_ & _ & ->). cbn. lia. }
      { destruct TP as (_ & _ & ->). cbn. lia. }
      change (Z.of_nat 0) with 0%Z in El. rewrite El. cbn [bind]. rewrite put_var_ok by lia. cbn [bind].
      eexists. split; [reflexivity|]. cbv beta iota.
      assert (AT : forall a, valid card a -> at_state l i a = cond card m0 ps i a).
      { intros a Ha. unfold at_state. rewrite Hl by (destruct TP as (_ & _ & ->); cbn; apply Ha).
        rewrite <- D' by auto. rewrite FAM.
        etransitivity; [apply (marg_sumv card [i] [i] (param ps' i) [0] a TP); auto|].
        - repeat constructor; auto.
        - intros w Hw; auto.
        - replace (minus [i] [i]) with (@nil nat); [reflexivity|]. unfold minus. cbn. rewrite Nat.eqb_refl. reflexivity. }
      assert (VL : vector_ok card i l).
      { split; [congruence|]. apply Forall_forall. intros x Hx. apply In_nth with (d := 0%Qc) in Hx. destruct Hx as (j & Hj & <-).
        assert (Va : valid card (upd (fun _ => 0) i j)) by (apply upd_valid; [apply zero_ok|lia]).
        replace (nth j l 0%Qc) with (at_state l i (upd (fun _ => 0) i j)).
        - rewrite AT by auto. now apply cond_nonneg.
        - unfold at_state, upd. now rewrite Nat.eqb_refl. }
      assert (FRm : forall w, var (putv m i (set_prior (var m i) (Some l))) w =
                    if Nat.eqb w i then set_prior (var m i) (Some l) else var m w) by (intros w; apply var_putv; lia).
      assert (MOK : model_ok card (putv m i (set_prior (var m i) (Some l)))).
      { destruct B1 as [H1 H2 H3 H4 H5 H6 H7 H8]. split; auto; rewrite ?putv_len; auto.
        - intros w Hw. rewrite FRm. destruct (Nat.eqb_spec w i) as [->|]; [|now apply H7].
          destruct (H7 i Hw) as (X1 & X2 & X3 & X4 & X5). split; auto.
        - destruct H8 as (N & H8). split; auto. intros w Hw. destruct (H8 w Hw) as (A & B). split; auto.
          rewrite FRm. destruct (Nat.eqb_spec w i) as [->|]; auto. exists l. split; [reflexivity|]. split; auto.
          (* some entry is positive *)
          destruct (Qclt_le_dec 0 (at_state l i (fun _ => 0))) as [K|K].
          + exists (at_state l i (fun _ => 0)). split; auto. apply nth_In. rewrite Ll, Ll0. apply card_pos.
          + assert (SUM := cond_sum ps i (fun _ => 0) HP Hi' (HR i Hi' EP)).
            destruct (Exists_dec (fun y => (0 < y)%Qc) l) as [X|X].
            { intros y. destruct (Qclt_le_dec 0 y) as [|Y]; [left; auto|right; intros Y'; now apply (Qclt_not_le _ _ Y')]. }
            * apply Exists_exists in X. exact X.
            * exfalso. assert (Z : sumv card [i] (cond card m0 ps i) (fun _ => 0) = 0%Qc).
              { cbn [sumv]. apply qsum_zeros. intros y Hy. apply in_map_iff in Hy. destruct Hy as (x & <- & Hx). apply in_seq in Hx.
                assert (Va : valid card (upd (fun _ => 0) i x)) by (apply upd_valid; [apply zero_ok|lia]).
                rewrite <- AT by auto. apply Qcle_antisym; [|rewrite AT by auto; now apply cond_nonneg].
                apply Qcnot_lt_le. intros Y. apply X. apply Exists_exists. exists (at_state l i (upd (fun _ => 0) i x)). split; auto.
                apply nth_In. rewrite Ll, Ll0. apply Va. }
              rewrite SUM in Z. discriminate. }
      split; auto. split; auto. split.
      { eapply same_structure_trans; [exact B2|]. unfold same_structure. split; auto. split; auto. split; [apply putv_len|].
        split; [|auto 10]. intros w. rewrite FRm. destruct (Nat.eqb_spec w i) as [->|]; auto. }
      assert (FI : filter (has_parents m0) (seq 0 (S i)) = filter (has_parents m0) (seq 0 i)).
      { rewrite SEQ, filter_app. cbn [filter]. unfold has_parents at 2. rewrite EP. apply app_nil_r. }
      assert (HI : forall k, housed m0 k (seq 0 (S i)) = housed m0 k (seq 0 i)).
      { intros k. unfold housed. rewrite SEQ, filter_app. cbn [filter]. unfold has_parents at 2. rewrite EP. apply app_nil_r. }
      rewrite FI. split; [exact B3|]. split; [intros k a Hk Ha; rewrite HI; now apply BF|]. split.
      { intros v Hv Hp. rewrite FRm. destruct (Nat.eqb_spec v i) as [->|]; [|apply B4; auto; lia]. exists l. split; auto. }
      intros v Hv. rewrite FRm. destruct (Nat.eqb_spec v i) as [->|]; [|apply B5; auto]. cbn. apply B5. auto.
    - (* a variable with parents *)
      assert (Fi : family m i = family m0 i) by (apply structure_family; auto).
      destruct (family_mapping_ok card m i B1) as (m2 & c & m3 & r & F1 & F2 & M3 & S3 & J3 & L3 & N3 & Hc & HI & HF & Hr).
      { lia. } { rewrite Fi. now apply (le_family _ _ HL). }
      rewrite F1. cbn [bind]. rewrite F2. cbn [bind]. rewrite J3. rewrite rd_clq by auto. cbn [bind].
      set (k := clq (m_jt m) c) in *. rewrite Fi in HI, Hr.
      assert (SH := mo_shape _ _ M3). rewrite J3 in SH. destruct SH as (C0 & HCl & HSp).
      destruct (HCl c Hc) as (T1 & T2 & _). fold k in T1, T2.
      assert (SEL := sel_family (c_vars k) r (family m0 i) HF Hr).
      assert (DP : 0 < dimensionality (param ps' i)). { unfold dimensionality. destruct TP as (_ & _ & ->). rewrite map_length. cbn. lia. }
      assert (MAP : forall p, table card (c_vars k) p -> map_ok r (dims p) (dims (param ps' i))).
      { intros p (_ & _ & Dq). rewrite Dq. destruct TP as (_ & _ & ->). split.
        - rewrite map_length. auto.
        - now apply SEL. }
      assert (INIT : forall p, table card (c_vars k) p -> nonneg p ->
         exists p', init_potential (param ps' i) p (Some r) = Ok (p', NO_ERROR) /\ table card (c_vars k) p' /\ nonneg p' /\
           forall a, valid card a -> den (c_vars k) p' a = (den (c_vars k) p a * cond card m0 ps i a)%Qc).
      { intros p T NN. destruct (init_potential_ok (param ps' i) p r) as (p' & Ei & Di & Wi & Hi2); auto.
        { apply T. } { apply TP. }
        assert (DD : forall a, valid card a -> den (c_vars k) p' a = (den (c_vars k) p a * cond card m0 ps i a)%Qc).
        { intros a Ha. unfold den at 1. rewrite Hi2 by (destruct T as (_ & _ & ->); now apply valid_ix_map).
          rewrite SEL. fold (den (c_vars k) p a) (den (family m0 i) (param ps' i) a). now rewrite D'. }
        assert (TT : table card (c_vars k) p') by (destruct T as (X & Y & Z); split; auto; split; auto; congruence).
        exists p'. split; auto. split; auto. split; auto.
        apply nonneg_cells; auto. intros ix Hix. rewrite (proj2 (proj2 TT)) in Hix.
        destruct (ix_assignment card (c_vars k) ix (fun _ => 0)) as (a & Va & Ea & _); auto.
        { apply TT. }
        rewrite <- Ea. change (0 <= den (c_vars k) p' a)%Qc. rewrite DD by auto. apply Qc_mul_nonneg; [|now apply cond_nonneg].
        eapply den_nonneg; eauto. }
      destruct (INIT (c_p k) T1) as (p1 & I1 & I2 & I3 & I4). { apply (proj1 (mo_nonneg _ _ B1)); auto. }
      destruct (INIT (c_orig k) T2) as (o1 & O1 & O2 & O3 & O4). { now apply (mo_orig _ _ B1). }
      rewrite I1. cbn [bind]. rewrite O1. cbn [bind]. rewrite put_clique_ok by auto. cbn [bind orb is_err].
      eexists. split; [reflexivity|]. cbv beta iota. split; auto.
      set (k' := set_orig (set_p k p1) o1). fold (putc (m_jt m) c k'). rewrite <- J3.
      assert (Hc3 : c < length (cls (m_jt m3))) by (rewrite J3; auto).
      assert (Ek : clq (m_jt m3) c = k) by (rewrite J3; reflexivity).
      split. { apply replace_model; auto; rewrite ?Ek; auto. }
      split. { eapply same_structure_trans; [exact B2|]. eapply same_structure_trans; [apply same_structure_model, S3|].
        apply replace_structure; auto. rewrite Ek. reflexivity. }
      assert (FI : filter (has_parents m0) (seq 0 (S i)) = filter (has_parents m0) (seq 0 i) ++ [i]).
      { rewrite SEQ, filter_app. cbn [filter]. unfold has_parents at 2. now rewrite EP. }
      rewrite FI. split.
      { intros a Ha. destruct (B3 a Ha) as (X & Y). unfold product_cond in *. rewrite map_app, qprod_app. cbn [map qprod]. rewrite Qcmult_1_r. split.
        - cbn [m_jt set_jt]. rewrite (replace_joint card m3 c k' Hc3 a (cond card m0 ps i a)).
          + rewrite J3, X. reflexivity.
          + unfold phi. rewrite clq_putc, Nat.eqb_refl by auto. rewrite Ek. cbn [c_p c_vars set_p set_orig k']. now apply I4.
        - rewrite (replace_original card m3 c k' Hc3 ltac:(rewrite Ek; reflexivity) a (cond card m0 ps i a)).
          + rewrite (same_original m m3 a S3), Y. reflexivity.
          + rewrite Ek. cbn [c_orig k' set_orig]. now apply O4. }
      split.
      { intros j a Hj Ha.
        assert (HH : home m0 i = c).
        { rewrite <- (home_structure m0 m i B2). apply home_first. eapply (find_family_first card m i m2 c); eauto. lia. }
        unfold housed. rewrite SEQ, filter_app. fold (housed m0 j (seq 0 i)). cbn [filter].
        replace (has_parents m0 i) with true by (unfold has_parents; now rewrite EP). rewrite HH. cbn [andb].
        cbn [m_jt set_jt]. rewrite clq_putc by auto. rewrite (Nat.eqb_sym j c). destruct (Nat.eqb_spec c j) as [<-|NE].
        - rewrite map_app, qprod_app. cbn [map qprod]. rewrite Qcmult_1_r, <- BF by auto. cbn [c_vars c_orig k' set_orig set_p]. now apply O4.
        - rewrite app_nil_r, J3. now apply BF. }
      split.
      { intros v Hv Hp. cbn [set_jt]. destruct (Nat.eq_dec v i) as [->|]; [congruence|].
        destruct (B4 v) as (l & X & Y); auto; [lia|]. exists l. split; auto.
        change (v_prior (var m3 v) = Some l). destruct S3 as (_ & _ & SV & _). destruct (SV v) as (_ & -> & _). auto. }
      intros v Hv. change (v_lik (var m3 v) = repeat 1%Qc (card v) /\ v_entered (var m3 v) = false). rewrite L3, N3. auto. }
  rewrite E. cbn [bind]. exists m', ps'. subst e. split; auto.
  split; [eapply learnable_structure; eauto|]. split; auto. split; auto. split; auto. split; auto. split; auto.
  intros k a Hk Ha. assert (Lc : length (cls (m_jt m')) = length (cls (m_jt m0))) by apply A2.
  assert (Lv : length (m_vars m') = n) by apply A2.
  rewrite (housed_structure m0 m' _ _ A2), Lv. apply AF; auto. lia.
Qed.
End Mstep.
