(** * Proofs: the properties of learning and sampling *)
From Coq Require Import Permutation Field.
From Verif Require Import Base BaseProofs PotentialModel PotentialSpec PotentialProofs
  PotentialProofs2 PotentialProofs3 VariableModel VariableProofs JoinTreeModel
  AssignSpec AssignProofs JoinTreeSpec JoinTreeProofs JoinTreeProofs2 JoinTreeProofs3
  JoinTreeProofs4 JoinTreeProofs5 JoinTreeProofs6 JoinTreeProofs7 NipModel NipSpec NipProofs
  NipProofs2 NipProofs3 NipProofs4 GatherProofs GatherProofs2 SliceModel SliceSpec SliceProofs SliceProofs2 SliceProofs3
  SliceProofs4 SliceProofs5 LearnModel LearnSpec LearnProofs LearnProofs2 LearnProofs3 LearnProofs4 LearnProofs5 LearnProofs6
  LearnProofs7 LearnProofs8 JoinTreeCheck SliceCheck LearnCheck.
Import ListNotations.
Open Scope nat_scope.
Local Open Scope res_scope.

Add Field Qcfield_learn9 : Qcft.

Lemma C43_lemma : forall card m ps, learnable card m -> params_ok card m ps -> columns_positive card m ps ->
  exists m' ps', m_step m ps = Ok (m', ps', NO_ERROR) /\ learnable card m' /\ same_structure m m' /\
    installed card m ps m' /\
    (forall a, valid card a -> joint (m_jt m') a = original m' a) /\
    (forall v a, v < length (m_vars m) -> valid card a ->
       den (family m v) (param ps' v) a = LearnSpec.cond card m ps v a) /\
    (forall v a, v < length (m_vars m) -> valid card a ->
       (0 <= LearnSpec.cond card m ps v a)%Qc /\ sumv card [v] (LearnSpec.cond card m ps v) a = 1%Qc) /\
    conditional_slices card m'.
Proof.
  intros card m ps HL HP HC. assert (ZV := zero_ok card m HL).
  destruct (m_step_ok card m HL ps HP) as (m' & ps' & E & L' & S' & P' & D' & J' & F' & R' & _).
  { intros v Hv _. apply HC; auto. }
  assert (HI : installed card m ps m'). { split; [|auto]. intros a Ha. apply J'. auto. }
  exists m', ps'. split; auto. split; auto. split; auto. split; auto.
  split. { intros a Ha. destruct (J' a Ha). congruence. }
  split; auto. split.
  { intros v a Hv Ha. split; [now apply (cond_nonneg card m HL)|]. apply (cond_sum card m HL); auto. }
  apply (installed_conditional card m HL ps HP HC m'); auto.
Qed.

Lemma C43_zero_lemma : forall card m ps, learnable card m -> params_ok card m ps ->
  (forall v a, v < length (m_vars m) -> v_parents (var m v) = [] -> valid card a -> column card m ps v a <> 0%Qc) ->
  exists m' ps', m_step m ps = Ok (m', ps', NO_ERROR) /\ installed card m ps m' /\
    forall v a, v < length (m_vars m) -> valid card a ->
      den (family m v) (param ps' v) a = LearnSpec.cond card m ps v a /\
      sumv card [v] (LearnSpec.cond card m ps v) a = if Qc_eq_dec (column card m ps v a) 0%Qc then 0%Qc else 1%Qc.
Proof.
  intros card m ps HL HP HC. assert (ZV := zero_ok card m HL).
  destruct (m_step_ok card m HL ps HP) as (m' & ps' & E & L' & S' & P' & D' & J' & F' & R' & _).
  { intros v Hv Hr. apply HC; auto. }
  exists m', ps'. split; auto. split. { split; [|auto]. intros a Ha. apply J'. auto. }
  intros v a Hv Ha. split; auto. destruct (Qc_eq_dec (column card m ps v a) 0%Qc) as [Z|N].
  - transitivity (sumv card [v] (fun b => 0 * LearnSpec.cond card m ps v b)%Qc a).
    + apply sumv_ext_free. intros d Hd. unfold LearnSpec.cond. rewrite (column_dep card m HL ps v Hv d a).
      * rewrite Z. unfold Qcdiv. rewrite Qcinv_0. ring.
      * intros w Hw. apply Hd. intros [<-|[]]. assert (NF := le_family _ _ HL v Hv). unfold family in NF. inversion NF. auto.
    + rewrite sumv_const_out. ring.
  - apply (cond_sum card m HL); auto.
Qed.

Lemma C44_loop_lemma : forall A (iteration : A -> res (A * Qc * code)) growth max_iterations s old curve,
  (forall s, exists s' l e, iteration s = Ok (s', l, e)) ->
  exists s' o ls s1,
    em_loop iteration growth max_iterations (Nat.max 3 (Z.to_nat max_iterations)) s old 0 curve = Ok (s', o) /\
    runs iteration s ls s1 /\ length ls <= Nat.max 3 (Z.to_nat max_iterations) /\
    (forall k, S k < length ls ->
       ~ drops growth (nth k (old :: ls) 0%Qc) (nth k ls 0%Qc) /\
       (S k < 3 \/ (improves growth (nth k (old :: ls) 0%Qc) (nth k ls 0%Qc) /\ (Z.of_nat (S k) < max_iterations)%Z))) /\
    let k := length ls - 1 in let x := nth k (old :: ls) 0%Qc in let y := nth k ls 0%Qc in
    (
      (o_code o = NO_ERROR /\ s' = s1 /\ 3 <= length ls /\ o_curve o = curve ++ ls /\ ~ drops growth x y /\
       ((o_criterion o = Some DELTA /\ ~ improves growth x y) \/
        (o_criterion o = Some ITERATIONS /\ improves growth x y /\ (max_iterations <= Z.of_nat (length ls))%Z)))
      \/
      (o_code o = BAD_LUCK /\ s' = s1 /\ ls <> [] /\ o_curve o = curve ++ ls /\ o_criterion o = None /\ drops growth x y)
      \/
      (exists l, iteration s1 = Ok (s', l, o_code o) /\ o_code o <> NO_ERROR /\ o_criterion o = None /\
         o_curve o = (match o_code o with BAD_LUCK => curve ++ ls | _ => [] end))).
Proof.
  intros A iteration growth mx s old curve HI.
  destruct (em_loop_ok A iteration (fun _ => True)) with (growth := growth) (max_iterations := mx)
    (fuel := Nat.max 3 (Z.to_nat mx)) (s := s) (old := old) (i := 0) (curve := curve)
    as (s' & o & ls & s1 & E & R & LE & GO & EN); auto.
  { intros s0 _. destruct (HI s0) as (s' & l & e & E). eauto. }
  { unfold MIN_EM_ITERATIONS. lia. }
  exists s', o, ls, s1. split; auto. split; auto. split; [exact LE|]. split; [exact GO|]. cbv zeta.
  destruct EN as [(N & Es & Ec & L & C & D & K)|[(N & Es & Ec & C & D & K)|(l & El & C & D & K & _)]].
  - left. auto 10.
  - right. left. auto 10.
  - right. right. exists l. auto.
Qed.

Lemma C45_interval_lemma : forall d i, Forall (fun x => (0 <= x)%Qc) d -> qsum d = 1%Qc -> i < length d ->
  (below d (S i) - below d i = nth i d 0)%Qc /\
  forall r, (0 < r)%Qc -> (r <= 1)%Qc ->
    (lottery d (length d) r = Ok (Z.of_nat i) <-> (below d i < r)%Qc /\ (r <= below d (S i))%Qc).
Proof.
  intros d i HN HS Hi. split; [rewrite below_S by auto; ring|]. intros r R0 R1. rewrite lottery_iff; auto; [|now rewrite HS]. tauto.
Qed.
Lemma C46_positive_lemma : forall d r i, Forall (fun x => (0 <= x)%Qc) d -> qsum d = 1%Qc ->
  (0 < r)%Qc -> (r <= 1)%Qc -> lottery d (length d) r = Ok (Z.of_nat i) -> (0 < nth i d 0)%Qc.
Proof. intros d r i HN HS R0 R1. apply lottery_positive; auto. now rewrite HS. Qed.
Lemma C46_refuted_lemma :
  ~ (forall d r i, Forall (fun x => (0 <= x)%Qc) d -> qsum d = 1%Qc -> (0 <= r)%Qc -> (r <= 1)%Qc ->
     lottery d (length d) r = Ok (Z.of_nat i) -> (0 < nth i d 0)%Qc).
Proof.
  intros H. assert (K := H [0; 1]%Qc 0%Qc 0 ltac:(repeat constructor; discriminate) eq_refl ltac:(discriminate) ltac:(discriminate) eq_refl).
  discriminate K.
Qed.

Lemma C47_valid_lemma : forall card m T rnd fuel l, slices_ok card m -> topological m l -> length (m_vars m) <= fuel ->
  exists m' ts, generate_data fuel m T rnd = Ok (m', ts) /\ model_ok card m' /\ same_model (all_marked m) m' /\
    topological m (ts_observed ts) /\ length (ts_data ts) = T /\ series_ok m ts /\ states_ok card ts.
Proof.
  intros card m T rnd fuel l HM HT HF.
  destruct (generate_data_ok card m T rnd fuel l HM HT HF) as (m' & ts & E & A & B & C & D & F & G & _). exists m', ts. auto 10.
Qed.
Lemma C47_exact_lemma : forall card m T rnd fuel l m' ts, slices_ok card m -> topological m l ->
  length (m_vars m) <= fuel -> generate_data fuel m T rnd = Ok (m', ts) ->
  (m_out m <> [] \/ (conditional_slices card m /\ positive_random rnd) ->
   forall t i, t < T -> i < length (m_vars m) -> drawn_from card (all_marked m) ts t i (rnd t i)) /\
  (conditional_slices card m -> positive_random rnd -> likelihood card (all_marked m) ts <> 0%Qc).
Proof.
  intros card m T rnd fuel l m' ts HM HT HF E0.
  destruct (generate_data_ok card m T rnd fuel l HM HT HF) as (m2 & ts2 & E & A & B & C & D & F & G & X & Y).
  rewrite E in E0. inversion E0; subst m2 ts2. split; auto. intros CS PR. unfold likelihood. cbv zeta. rewrite D. auto.
Qed.

Definition curve_of (r : res (model * outcome)) : option (list QArith_base.Q) :=
  match r with Ok (_, o) => Some (map this (o_curve o)) | _ => None end.
Lemma curve_of_some : forall r c, curve_of r = Some c -> exists m' o, r = Ok (m', o) /\ map this (o_curve o) = c.
Proof. intros [(m', o)| |] c H; cbn [curve_of] in H; try discriminate. exists m', o. split; auto. congruence. Qed.

Lemma C58_refuted_lemma :
  ~ (forall card m ts random max_iterations growth tiny m' o,
       learnable card m -> ts <> [] -> Forall (series_ok m) ts -> initial_ok card m random ->
       em_learn m ts random max_iterations growth tiny [] = Ok (m', o) ->
       forall k, S k < length (o_curve o) -> (nth k (o_curve o) 0 <= nth (S k) (o_curve o) 0)%Qc).
Proof.
  intros H.
  set (rnd := fun _ i : nat => if Nat.eqb (i mod 2) 0 then qr 9 10 else qr 1 10).
  assert (E : exists m' o, em_learn coin [coin_ts] (Some rnd) 5 (qr 101 100) (qn 0) [] = Ok (m', o) /\
    map this (o_curve o) = map this [qr 9 10; qr 2 3]).
  { apply curve_of_some. vm_compute. reflexivity. }
  destruct E as (m' & o & E & C).
  assert (LC : length (o_curve o) = 2). { rewrite <- (map_length this), C. reflexivity. }
  assert (K := H coin_card coin [coin_ts] (Some rnd) 5%Z (qr 101 100) (qn 0) m' o coin_learnable ltac:(discriminate)
    (Forall_cons _ coin_ts_ok (Forall_nil _))).
  assert (IO : initial_ok coin_card coin (Some rnd)).
  { split.
    - intros v i. unfold rnd. destruct (Nat.eqb (i mod 2) 0); discriminate.
    - intros v c Hv. exists 0. split; [unfold coin_card; lia|]. unfold rnd, coin_card.
      replace (0 + 2 * c) with (c * 2) by lia. rewrite Nat.mod_mul by lia. reflexivity. }
  specialize (K IO E 0 ltac:(lia)).
  clear E. destruct (o_curve o) as [|x [|y [|]]]; try discriminate LC. cbn [nth] in K. inversion C as [[C1 C2]].
  unfold Qcle in K. rewrite C1, C2 in K. vm_compute in K. apply K. reflexivity.
Qed.
Lemma C59_refuted_lemma :
  ~ (forall card m ts max_iterations growth tiny m' o,
       learnable card m -> ts <> [] -> Forall (series_ok m) ts -> initial_ok card m None -> conditional_slices card m ->
       em_learn m ts None max_iterations growth tiny [] = Ok (m', o) ->
       nth 0 (o_curve o) 0%Qc = total_likelihood card m ts).
Proof.
  intros H.
  assert (E : exists m' o, em_learn coin [coin_ts] None 5 (qr 101 100) (qn 0) [] = Ok (m', o) /\
    map this (o_curve o) = map this [qr 1 2; qr 2 3; qr 2 3]).
  { apply curve_of_some. vm_compute. reflexivity. }
  destruct E as (m' & o & E & C).
  assert (IO : initial_ok coin_card coin None).
  { intros k v a Hk Hv _ Ha Z. apply (f_equal this) in Z. destruct k; [|cbn in Hk; lia]. destruct v; [|cbn in Hv; lia].
    vm_compute in Z. discriminate. }
  assert (CS : conditional_slices coin_card coin).
  { split; [apply Qc_is_canon; vm_compute; reflexivity|]. intros a Ha. apply Qc_is_canon. vm_compute. reflexivity. }
  assert (K := H coin_card coin [coin_ts] 5%Z (qr 101 100) (qn 0) m' o coin_learnable ltac:(discriminate)
    (Forall_cons _ coin_ts_ok (Forall_nil _)) IO CS E).
  clear E. destruct (o_curve o) as [|x l]; [discriminate C|]. cbn [nth] in K. inversion C as [[C1 C2]].
  apply (f_equal this) in K. rewrite C1 in K. vm_compute in K. discriminate.
Qed.
