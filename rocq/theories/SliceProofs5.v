(** * Proofs: the properties of the inference over time *)
From Coq Require Import Permutation Field.
From Verif Require Import Base BaseProofs PotentialModel PotentialSpec PotentialProofs
  PotentialProofs2 PotentialProofs3 VariableModel VariableProofs JoinTreeModel
  AssignSpec AssignProofs JoinTreeSpec JoinTreeProofs JoinTreeProofs2 JoinTreeProofs3
  JoinTreeProofs4 JoinTreeProofs5 JoinTreeProofs6 JoinTreeProofs7 NipModel NipSpec NipProofs
  NipProofs2 NipProofs3 GatherProofs2 SliceModel SliceSpec SliceProofs SliceProofs2 SliceProofs3
  SliceProofs4.
Import ListNotations.
Open Scope nat_scope.
Local Open Scope res_scope.

Add Field Qcfield_slice5 : Qcft.


Lemma C40_lemma : forall card m ts vars ll, slices_ok card m -> series_ok m ts -> defined card m ts ->
  (forall v, In v vars -> v < length (m_vars m)) ->
  exists m' results l, forward_inference m ts vars ll = Ok (m', results, l) /\
    length results = length (ts_data ts) /\
    forall t, t < length (ts_data ts) -> length (nth t results []) = length vars /\
      forall i, i < length vars -> length (nth i (nth t results []) []) = card (nth i vars 0) /\
        forall x, x < card (nth i vars 0) ->
          nth x (nth i (nth t results []) []) 0%Qc = posterior_at card m ts (S t) (S t) t (nth i vars 0) x.
Proof.
  intros card m ts vars ll HM HT HD HV.
  destruct (forward_ok card m ts HM HT vars ll HV HD) as (m' & rs & l & E & _ & _ & _ & (R1 & R2)).
  exists m', rs, l. split; auto. split; auto. intros t Ht. destruct (R2 t Ht) as ((S1 & S2) & P).
  split; auto. intros i Hi. split; auto. intros x Hx. rewrite P by auto.
  rewrite filter_eq; auto. apply HV. now apply nth_In.
Qed.

Lemma C41_lemma : forall card m ts vars ll, slices_ok card m -> series_ok m ts -> defined card m ts ->
  (forall v, In v vars -> v < length (m_vars m)) ->
  exists m' results l, forward_backward_inference m ts vars ll = Ok (m', results, l) /\
    length results = length (ts_data ts) /\
    forall t, t < length (ts_data ts) -> length (nth t results []) = length vars /\
      forall i, i < length vars -> length (nth i (nth t results []) []) = card (nth i vars 0) /\
        forall x, x < card (nth i vars 0) ->
          nth x (nth i (nth t results []) []) 0%Qc =
          posterior_at card m ts (length (ts_data ts)) (length (ts_data ts)) t (nth i vars 0) x.
Proof.
  intros card m ts vars ll HM HT HD HV.
  destruct (forward_backward_ok card m ts HM HT vars ll HV HD) as (m' & rs & l & E & _ & _ & _ & (R1 & R2)).
  exists m', rs, l. split; auto. split; auto. intros t Ht. destruct (R2 t Ht) as ((S1 & S2) & P).
  split; auto. intros i Hi. split; auto. intros x Hx. rewrite P by auto.
  rewrite smooth_eq; auto. apply HV. now apply nth_In.
Qed.

Lemma sumv_qsum : forall card ws l (F : nat -> (nat -> nat) -> Qc) b,
  sumv card ws (fun y => qsum (map (fun x => F x y) l)) b = qsum (map (fun x => sumv card ws (F x) b) l).
Proof.
  intros card ws l F. induction ws as [|w ws IH]; intros b; cbn [sumv]; auto.
  rewrite (qsum_map_ext _ _ (fun z => qsum (map (fun x => sumv card ws (F x) (upd b w z)) l))) by (intros; apply IH).
  generalize (seq 0 (card w)) as zs. intros zs. clear IH.
  induction zs as [|z zs IHz]; cbn [map qsum].
  - induction l; cbn; auto. rewrite <- IHl. ring.
  - rewrite IHz. clear IHz. induction l as [|x l IHl]; cbn [map qsum]; [ring|]. rewrite <- IHl. ring.
Qed.
Lemma sumv_swap : forall card vs ws (F : (nat -> nat) -> (nat -> nat) -> Qc) a b,
  sumv card vs (fun x => sumv card ws (fun y => F x y) b) a = sumv card ws (fun y => sumv card vs (fun x => F x y) a) b.
Proof.
  intros card vs ws F. induction vs as [|v vs IH]; intros a b; cbn [sumv]; auto.
  rewrite sumv_qsum. apply qsum_map_ext. intros x _. apply IH.
Qed.

(** ** The likelihood of a series *)

Lemma masses_lemma : forall card m ts l, masses_ok card m ts (length (ts_data ts)) true l ->
  length l = length (ts_data ts) /\
  forall t, t < length (ts_data ts) -> exists c, (0 < c)%Qc /\
    nth t l (0, 0)%Qc = (c * sum_steps card m (S t) (unrolled m ts (S t) t),
                         c * sum_steps card m (S t) (unrolled m ts (S t) (S t)))%Qc.
Proof. intros card m ts l H. exact H. Qed.

Section Likelihood.
Variable card : nat -> nat.
Variable m0 : model.
Variable ts : time_series.
Hypothesis HM : slices_ok card m0.
Hypothesis HTS : series_ok m0 ts.
Hypothesis HC : conditional_slices card m0.
Local Notation n := (length (m_vars m0)).
Local Notation sums := (fun g => sumv card (seq 0 n) g (fun _ => 0)).

Lemma zref_first : zref card m0 ts 0 = 1%Qc.
Proof.
  rewrite zref_eq by auto. cbn [inflow]. destruct HC as (H & _). etransitivity; [|exact H].
  apply sumv_ext_free. intros d _. unfold sl, slice_priors. cbn [Nat.ltb Nat.leb]. ring.
Qed.

Lemma slice_mass : forall t b', valid card b' -> sums (fun b => given (linked m0 b' b) (sl m0 (S t) b)) = 1%Qc.
Proof.
  intros t b' Hb. destruct HC as (_ & H).
  assert (ND := so_prev _ _ HM).
  assert (Vi : valid_ix (map card (m_prev m0)) (map b' (m_out m0))).
  { rewrite <- (so_cards _ _ HM). now apply valid_ix_map. }
  destruct (ix_assignment card (m_prev m0) (map b' (m_out m0)) (fun _ => 0) ND (ZV card m0 HM) Vi) as (a & Va & Ea & Oa).
  rewrite <- (H a Va).
  rewrite (marginal_given card (seq 0 n) (m_prev m0) _ a (map b' (m_out m0))); auto using seq_NoDup, (SliceProofs4.HC card m0 HM).
  - symmetry. etransitivity.
    + apply (sumv_base card (seq 0 n) _ a (fun _ => 0)).
      * intros x y E. rewrite (map_ext x y E). f_equal. f_equal; [now apply original_ext|now apply priors_ext].
      * intros v Hv. apply Oa. intros K. apply Hv. apply in_seq. split; [lia|]. now apply (prev_in card m0 HM).
    + apply sumv_ext_free. intros d _. unfold linked, sl, slice_priors. cbn [Nat.ltb Nat.leb].
      f_equal. destruct (ix_eqb (map b' (m_out m0)) (map d (m_prev m0))) eqn:K.
      * apply ix_eqb_true in K. apply ix_eqb_true. auto.
      * destruct (ix_eqb (map d (m_prev m0)) (map b' (m_out m0))) eqn:K'; auto. apply ix_eqb_true in K'. rewrite K' in K.
        now rewrite (proj2 (ix_eqb_true _ _) eq_refl) in K.
  - intros v Hv. apply in_seq. split; [lia|]. now apply (prev_in card m0 HM).
  - intros x y E. f_equal; [now apply original_ext|now apply priors_ext].
Qed.

Lemma zref_next : forall t, zref card m0 ts (S t) = zev card m0 ts t.
Proof.
  intros t. rewrite zref_eq, zev_eq by auto. cbn [inflow].
  transitivity (sums (fun b => sums (fun b' => G card m0 ts t b' * given (linked m0 b' b) (sl m0 (S t) b)))%Qc).
  - apply sumv_ext_free. intros d _.
    rewrite <- (sumv_const_out card (seq 0 n) (fun b' => given (linked m0 b' d) (G card m0 ts t b')) (sl m0 (S t) d)).
    apply sumv_ext_free. intros d' _. destruct (linked _ _ _); cbn [given]; ring.
  - transitivity (sums (fun b' => sums (fun b => G card m0 ts t b' * given (linked m0 b' b) (sl m0 (S t) b)))%Qc).
    + apply sumv_swap.
    + apply sumv_ext; [exact (ZV card m0 HM)|]. intros b' Hb. cbv beta.
      rewrite (sumv_const_out card (seq 0 n) (fun b => given (linked m0 b' b) (sl m0 (S t) b))).
      rewrite slice_mass by auto. ring.
Qed.
Lemma ratios_app : forall l x, ratios (l ++ [x]) = (ratios l * (snd x / fst x))%Qc.
Proof.
  intros l (a & b). unfold ratios. induction l as [|(c & d) l IH]; cbn [app map qprod fst snd]; [ring|].
  cbn [app fst snd] in IH. rewrite IH. ring.
Qed.

Lemma ratios_ok : forall T l, masses_ok card m0 ts T true l -> (forall t, t < T -> zev card m0 ts t <> 0%Qc) ->
  ratios l = match T with 0 => 1%Qc | S t => zev card m0 ts t end.
Proof.
  induction T as [|T IH]; intros l (L & H) HZ.
  - destruct l; [reflexivity|discriminate].
  - destruct l as [|x l] using rev_ind; [discriminate|]. clear IHl.
    rewrite app_length in L. cbn in L. rewrite ratios_app.
    destruct (H T) as (c & Pc & Hc); [lia|].
    rewrite app_nth2 in Hc by lia. replace (T - length l) with 0 in Hc by lia. cbn [nth] in Hc. rewrite Hc. cbn [fst snd].
    rewrite scaled_ratio by auto. rewrite (IH l).
    + destruct T as [|T].
      * rewrite zref_first. field. discriminate.
      * rewrite zref_next. field. apply HZ. lia.
    + split; [lia|]. intros s Hs. destruct (H s) as (c' & Pc' & Hc'); [lia|]. exists c'. split; auto.
      rewrite <- Hc'. rewrite app_nth1 by lia. reflexivity.
    + intros t Ht. apply HZ. lia.
Qed.

Lemma likelihood_ok : forall l, masses_ok card m0 ts (length (ts_data ts)) true l ->
  sum_steps card m0 (length (ts_data ts)) (unrolled m0 ts (length (ts_data ts)) (length (ts_data ts))) <> 0%Qc ->
  ratios l = sum_steps card m0 (length (ts_data ts)) (unrolled m0 ts (length (ts_data ts)) (length (ts_data ts))).
Proof.
  intros l HL HZ. rewrite (ratios_ok _ l HL).
  - destruct (length (ts_data ts)) as [|t] eqn:E; reflexivity.
  - intros t Ht. apply (possible_zev card m0 ts HM); auto.
Qed.
End Likelihood.

Lemma C40_likelihood_lemma : forall card m ts vars, slices_ok card m -> series_ok m ts -> conditional_slices card m ->
  let T := length (ts_data ts) in
  sum_steps card m T (unrolled m ts T T) <> 0%Qc ->
  (forall v, In v vars -> v < length (m_vars m)) ->
  exists m' results l, forward_inference m ts vars true = Ok (m', results, l) /\
    length l = T /\ ratios l = sum_steps card m T (unrolled m ts T T).
Proof.
  intros card m ts vars HM HT HC T HZ HV.
  destruct (forward_ok card m ts HM HT vars true HV (or_intror HZ)) as (m' & rs & l & E & _ & _ & L & _).
  exists m', rs, l. split; auto. split; [apply L|]. now apply likelihood_ok.
Qed.
Lemma C41_likelihood_lemma : forall card m ts vars, slices_ok card m -> series_ok m ts -> conditional_slices card m ->
  let T := length (ts_data ts) in
  sum_steps card m T (unrolled m ts T T) <> 0%Qc ->
  (forall v, In v vars -> v < length (m_vars m)) ->
  exists m' results l, forward_backward_inference m ts vars true = Ok (m', results, l) /\
    length l = T /\ ratios l = sum_steps card m T (unrolled m ts T T).
Proof.
  intros card m ts vars HM HT HC T HZ HV.
  destruct (forward_backward_ok card m ts HM HT vars true HV (or_intror HZ)) as (m' & rs & l & E & _ & _ & L & _).
  exists m', rs, l. split; auto. split; [apply L|]. now apply likelihood_ok.
Qed.

(** Impossible data are noticed: some m2 is zero. *)
Lemma zero_noticed : forall card m ts l, slices_ok card m -> series_ok m ts ->
  masses_ok card m ts (length (ts_data ts)) true l ->
  let T := length (ts_data ts) in
  (sum_steps card m T (unrolled m ts T T) = 0%Qc <-> exists x, In x l /\ snd x = 0%Qc).
Proof.
  intros card m ts l HM HT (L & H) T. fold T in L, H. split.
  - intros Z. destruct T as [|t] eqn:ET.
    + cbn in Z. discriminate.
    + destruct (H t) as (c & Pc & Hc); [lia|]. exists (nth t l (0, 0)%Qc). split; [apply nth_In; lia|].
      rewrite Hc. cbn [snd]. unfold zev. rewrite Z. ring.
  - intros (x & Hx & Z). apply In_nth with (d := (0, 0)%Qc) in Hx. destruct Hx as (t & Ht & E).
    destruct (H t) as (c & Pc & Hc); [lia|]. rewrite E in Hc. rewrite Hc in Z. cbn [snd] in Z.
    apply Qcmult_integral in Z. destruct Z as [Z|Z]; [now apply Qc_pos_neq in Pc|].
    destruct (Qc_eq_dec (sum_steps card m T (unrolled m ts T T)) 0%Qc) as [|N]; auto.
    exfalso. apply (possible_zev card m ts HM t N); auto. unfold T in *. lia.
Qed.
Lemma C40_impossible_lemma : forall card m ts vars, slices_ok card m -> series_ok m ts -> m_out m <> [] ->
  let T := length (ts_data ts) in
  (forall v, In v vars -> v < length (m_vars m)) ->
  exists m' results l m2 results2 l2,
    forward_inference m ts vars true = Ok (m', results, l) /\
    forward_backward_inference m ts vars true = Ok (m2, results2, l2) /\
    (sum_steps card m T (unrolled m ts T T) = 0%Qc <-> exists x, In x l /\ snd x = 0%Qc) /\
    (sum_steps card m T (unrolled m ts T T) = 0%Qc <-> exists x, In x l2 /\ snd x = 0%Qc).
Proof.
  intros card m ts vars HM HT HO T HV.
  destruct (forward_ok card m ts HM HT vars true HV (or_introl HO)) as (m' & rs & l & E & _ & _ & L & _).
  destruct (forward_backward_ok card m ts HM HT vars true HV (or_introl HO)) as (m2 & rs2 & l2 & E2 & _ & _ & L2 & _).
  exists m', rs, l, m2, rs2, l2. split; auto. split; auto. split; now apply zero_noticed.
Qed.

(** ** Independence of the history *)
Lemma unrolled_same : forall m m' ts T E a, same_model m m' -> unrolled m' ts T E a = unrolled m ts T E a.
Proof.
  intros m m' ts T E a S. unfold unrolled. apply qprod_map_ext. intros t _.
  assert (L : length (m_vars m') = length (m_vars m)) by apply S. rewrite L.
  rewrite (agrees_same m ts m' t _ S). f_equal. unfold slice_factor. rewrite L.
  assert (EI : m_indep m' = m_indep m) by apply S. assert (EP : m_prev m' = m_prev m) by apply S.
  assert (EO : m_out m' = m_out m) by apply S.
  destruct t as [|t]; unfold linked; rewrite ?EI, ?EP, ?EO; now rewrite (same_original m m' _ S), (same_priors m m' _ _ S).
Qed.
Lemma sum_steps_ext : forall card m T g h, (forall a, g a = h a) -> sum_steps card m T g = sum_steps card m T h.
Proof. intros. apply sumv_ext_free. auto. Qed.
Lemma sum_steps_same : forall card m m' T g, same_model m m' -> sum_steps card m' T g = sum_steps card m T g.
Proof. intros card m m' T g (_ & L & _). unfold sum_steps. now rewrite L. Qed.
Lemma posterior_same : forall card m m' ts T E t v x, same_model m m' ->
  posterior_at card m' ts T E t v x = posterior_at card m ts T E t v x.
Proof.
  intros card m m' ts T E t v x S. unfold posterior_at.
  assert (L : length (m_vars m') = length (m_vars m)) by apply S. rewrite L.
  rewrite !(sum_steps_same card m m' _ _ S).
  rewrite (sum_steps_ext card m T (unrolled m' ts T E) (unrolled m ts T E)) by (intros a; now apply unrolled_same).
  f_equal. apply sum_steps_ext. intros a. now rewrite (unrolled_same m m').
Qed.

Lemma marked_agrees : forall m ts ts', same_marked m ts ts' -> forall t a, t < length (ts_data ts) ->
  agrees m ts' t a = agrees m ts t a.
Proof.
  intros m ts ts' (E & _ & H) t a Ht. unfold agrees. rewrite E. apply forallb_ext_in. intros j Hj. apply in_seq in Hj.
  destruct (Nat.eqb_spec (Nat.land (v_mark (var m (nth j (ts_observed ts) 0))) MARK_ON) 0) as [K|K]; auto.
  rewrite (H t j) by (auto; lia). reflexivity.
Qed.
Lemma unrolled_marked : forall m ts ts' T E a, same_marked m ts ts' -> E <= length (ts_data ts) ->
  unrolled m ts' T E a = unrolled m ts T E a.
Proof.
  intros m ts ts' T E a H HE. unfold unrolled. apply qprod_map_ext. intros t _. f_equal.
  destruct (Nat.ltb_spec t E) as [K|K]; auto. cbn [negb orb]. apply marked_agrees; auto. lia.
Qed.
Lemma posterior_marked : forall card m ts ts' T E t v x, same_marked m ts ts' -> E <= length (ts_data ts) ->
  posterior_at card m ts' T E t v x = posterior_at card m ts T E t v x.
Proof.
  intros card m ts ts' T E t v x S HE. unfold posterior_at.
  rewrite (sum_steps_ext card m T (unrolled m ts' T E) (unrolled m ts T E)) by (intros a; now apply unrolled_marked).
  f_equal. apply sum_steps_ext. intros a. now rewrite (unrolled_marked m ts ts').
Qed.

Lemma rows_eq : forall card vars (r r' : list (list (list Qc))) T P P',
  (length r = T /\ forall t, t < T -> length (nth t r []) = length vars /\
      forall i, i < length vars -> length (nth i (nth t r []) []) = card (nth i vars 0) /\
        forall x, x < card (nth i vars 0) -> nth x (nth i (nth t r []) []) 0%Qc = P t i x) ->
  (length r' = T /\ forall t, t < T -> length (nth t r' []) = length vars /\
      forall i, i < length vars -> length (nth i (nth t r' []) []) = card (nth i vars 0) /\
        forall x, x < card (nth i vars 0) -> nth x (nth i (nth t r' []) []) 0%Qc = P' t i x) ->
  (forall t i x, t < T -> P t i x = P' t i x) -> r = r'.
Proof.
  intros card vars r r' T P P' (L1 & H1) (L2 & H2) HP. apply (list_ext_nth _ []); [lia|]. intros t Ht.
  destruct (H1 t) as (A1 & B1); [lia|]. destruct (H2 t) as (A2 & B2); [lia|].
  apply (list_ext_nth _ []); [lia|]. intros i Hi. destruct (B1 i) as (C1 & D1); [lia|]. destruct (B2 i) as (C2 & D2); [lia|].
  apply (list_ext_nth _ 0%Qc); [lia|]. intros x Hx. rewrite D1, D2 by lia. apply HP. lia.
Qed.

Lemma same_marked_ok : forall m ts ts', series_ok m ts -> same_marked m ts ts' ->
  Forall (fun row => length row = length (ts_observed ts')) (ts_data ts') -> series_ok m ts'.
Proof. intros m ts ts' (A & B & C) (E & _) H. split; rewrite E; auto. split; auto. now rewrite <- E. Qed.

Lemma C42_lemma : forall card m m' ts ts' vars ll ll',
  slices_ok card m -> model_ok card m' -> same_model m m' ->
  series_ok m ts -> series_ok m ts' -> same_marked m ts ts' -> defined card m ts ->
  (forall v, In v vars -> v < length (m_vars m)) ->
  (exists results m1 l1 m2 l2, forward_inference m ts vars ll = Ok (m1, results, l1) /\
     forward_inference m' ts' vars ll' = Ok (m2, results, l2)) /\
  (exists results m1 l1 m2 l2, forward_backward_inference m ts vars ll = Ok (m1, results, l1) /\
     forward_backward_inference m' ts' vars ll' = Ok (m2, results, l2)).
Proof.
  intros card m m' ts ts' vars ll ll' HM HM' HS HT HT' HK HD HV.
  assert (SO : slices_ok card m') by (eapply slices_ok_same; eauto).
  assert (ST : series_ok m' ts'). { apply (series_same m ts'); auto. }
  assert (L : length (ts_data ts') = length (ts_data ts)) by apply HK.
  assert (LV : length (m_vars m') = length (m_vars m)) by apply HS.
  assert (HD' : defined card m' ts').
  { unfold defined in *. rewrite L. destruct HD as [D|D]; [left|right].
    - assert (EO : m_out m' = m_out m) by apply HS. now rewrite EO.
    - intros Z. apply D. rewrite <- Z, (sum_steps_same card m m' _ _ HS). apply sum_steps_ext. intros a.
      rewrite (unrolled_same m m') by auto. symmetry. apply unrolled_marked; auto. }
  split.
  - destruct (C40_lemma card m ts vars ll) as (m1 & r1 & l1 & E1 & R1); auto.
    destruct (C40_lemma card m' ts' vars ll') as (m2 & r2 & l2 & E2 & R2); auto. { intros v Hv. rewrite LV. auto. }
    rewrite L in R2. assert (r1 = r2). { eapply rows_eq; [exact R1|exact R2|]. intros t i x Ht. cbv beta.
      rewrite (posterior_same card m m') by auto. symmetry. apply posterior_marked; auto. }
    subst r2. exists r1, m1, l1, m2, l2. auto.
  - destruct (C41_lemma card m ts vars ll) as (m1 & r1 & l1 & E1 & R1); auto.
    destruct (C41_lemma card m' ts' vars ll') as (m2 & r2 & l2 & E2 & R2); auto. { intros v Hv. rewrite LV. auto. }
    rewrite L in R2. assert (r1 = r2). { eapply rows_eq; [exact R1|exact R2|]. intros t i x Ht. cbv beta.
      rewrite (posterior_same card m m') by auto. symmetry. apply posterior_marked; auto. }
    subst r2. exists r1, m1, l1, m2, l2. auto.
Qed.

(** Any history of insertions, priors, resets, propagation and queries before. *)
Lemma C42_history_lemma : forall card names m os ts vars ll,
  slices_ok card m -> names_ok card m names -> Forall (op_ok card names m) os ->
  series_ok m ts -> defined card m ts -> (forall v, In v vars -> v < length (m_vars m)) ->
  exists m', run names m (Reset :: os) = Ok m' /\
  (exists results m1 l1 m2 l2, forward_inference m ts vars ll = Ok (m1, results, l1) /\
     forward_inference m' ts vars ll = Ok (m2, results, l2)) /\
  (exists results m1 l1 m2 l2, forward_backward_inference m ts vars ll = Ok (m1, results, l1) /\
     forward_backward_inference m' ts vars ll = Ok (m2, results, l2)).
Proof.
  intros card names m os ts vars ll HM HN HO HT HD HV. cbn [run run1].
  destruct (knows_reset card m (so_model _ _ HM)) as (m1 & E1 & K1). rewrite E1. cbn [bind].
  destruct (knows_run card names m os _ m1 HN K1 HO) as (m2 & E2 & K2). exists m2. split; auto.
  apply (C42_lemma card); auto; try apply K2. split; auto.
Qed.
