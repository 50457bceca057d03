(** * Proofs about generate_data: the order of the variables *)
From Verif Require Import Base PotentialModel PotentialSpec JoinTreeModel AssignSpec JoinTreeSpec
  NipModel NipSpec SliceModel SliceSpec LearnModel LearnSpec.
From Coq Require Import Permutation.
From Verif Require Import BaseProofs PotentialProofs VariableProofs AssignProofs NipProofs.
Import ListNotations.
Open Scope nat_scope.
Local Open Scope res_scope.

Definition marking (m : model) (f : nat -> nat) : model :=
  mkModel (map (fun v => set_vmark (var m v) (f v)) (seq 0 (length (m_vars m)))) (m_jt m) (m_indep m)
    (m_children m) (m_out m) (m_prev m) (m_in_clique m) (m_out_clique m).

Lemma marking_len : forall m f, length (m_vars (marking m f)) = length (m_vars m).
Proof. intros. unfold marking. cbn [m_vars]. now rewrite map_length, seq_length. Qed.
Lemma marking_var : forall m f v, v < length (m_vars m) -> var (marking m f) v = set_vmark (var m v) (f v).
Proof.
  intros m f v Hv. unfold var at 1, marking. cbn [m_vars].
  rewrite (nth_map _ _ _ _ _ 0) by (now rewrite seq_length). now rewrite seq_nth.
Qed.
Lemma marking_ext : forall m f g, (forall v, v < length (m_vars m) -> f v = g v) -> marking m f = marking m g.
Proof.
  intros m f g H. unfold marking. f_equal. apply map_ext_in. intros v Hv. apply in_seq in Hv. rewrite H by lia. auto.
Qed.
Lemma mark_marking : forall m f v k, v < length (m_vars m) ->
  mark_var (marking m f) v k = Ok (marking m (fun w => if Nat.eqb w v then k else f w)).
Proof.
  intros m f v k Hv. unfold mark_var. rewrite rd_var by (now rewrite marking_len). cbn [bind].
  rewrite put_var_ok by (now rewrite marking_len). f_equal. rewrite marking_var by auto. unfold putv.
  change (mkModel (set_nth (m_vars (marking m f)) v (set_vmark (set_vmark (var m v) (f v)) k)) (m_jt m) (m_indep m)
    (m_children m) (m_out m) (m_prev m) (m_in_clique m) (m_out_clique m) =
    mkModel (map (fun w => set_vmark (var m w) (if Nat.eqb w v then k else f w)) (seq 0 (length (m_vars m)))) (m_jt m) (m_indep m)
    (m_children m) (m_out m) (m_prev m) (m_in_clique m) (m_out_clique m)). f_equal.
  apply (list_ext_nth _ (mkVar 1 [] None false [] None None false 0)).
  - rewrite set_nth_length, marking_len, map_length, seq_length. reflexivity.
  - rewrite set_nth_length, marking_len. intros w Hw.
    rewrite nth_set_nth by (now rewrite marking_len).
    rewrite (nth_map _ _ _ _ _ 0) by (now rewrite seq_length). rewrite seq_nth by auto. cbn [plus].
    destruct (Nat.eqb_spec w v) as [->|N].
    + reflexivity.
    + exact (marking_var m f w Hw).
Qed.
Lemma marking_id : forall m, marking m (fun v => v_mark (var m v)) = m.
Proof.
  intros m. unfold marking. destruct m as [vs jt a b c d e g]. cbn [m_vars m_jt m_indep m_children m_out m_prev m_in_clique m_out_clique]. f_equal.
  apply (list_ext_nth _ (mkVar 1 [] None false [] None None false 0)).
  - now rewrite map_length, seq_length.
  - rewrite map_length, seq_length. intros i Hi. rewrite (nth_map _ _ _ _ _ 0) by (now rewrite seq_length). rewrite seq_nth by auto.
    unfold var. cbn [m_vars plus]. destruct (nth i vs _). reflexivity.
Qed.
Lemma marking_all : forall m, marking m (fun _ => MARK_ON) = all_marked m.
Proof.
  intros m. unfold marking, all_marked. f_equal.
  apply (list_ext_nth _ (mkVar 1 [] None false [] None None false 0)).
  - now rewrite !map_length, seq_length.
  - rewrite map_length, seq_length. intros i Hi. rewrite (nth_map _ _ _ _ _ 0) by (now rewrite seq_length). rewrite seq_nth by auto.
    rewrite (nth_map _ _ _ _ _ (mkVar 1 [] None false [] None None false 0)) by auto. reflexivity.
Qed.

Definition isin (vars : list nat) (v : nat) : bool := existsb (Nat.eqb v) vars.
Lemma isin_in : forall vars v, isin vars v = true <-> In v vars.
Proof.
  intros. unfold isin. rewrite existsb_exists. split.
  - intros (x & H & E). apply Nat.eqb_eq in E. now subst.
  - intros H. exists v. split; auto. apply Nat.eqb_refl.
Qed.
Definition taken (m : model) (vars : list nat) : model :=
  marking m (fun v => if isin vars v then MARK_ON else MARK_OFF).
Lemma taken_len : forall m vars, length (m_vars (taken m vars)) = length (m_vars m).
Proof. intros. apply marking_len. Qed.
Lemma taken_parents : forall m vars v, v < length (m_vars m) -> v_parents (var (taken m vars) v) = v_parents (var m v).
Proof. intros. unfold taken. now rewrite marking_var. Qed.

Lemma marked_taken : forall m vars v, v < length (m_vars m) -> marked (taken m vars) v = Ok (isin vars v).
Proof.
  intros m vars v Hv. unfold marked, taken. rewrite rd_var by (now rewrite marking_len). cbn [bind].
  rewrite marking_var by auto. cbn [v_mark set_vmark]. destruct (isin vars v); reflexivity.
Qed.
Lemma isin_app : forall vars v w, isin (vars ++ [v]) w = (isin vars w || Nat.eqb w v)%bool.
Proof. intros. unfold isin. rewrite existsb_app. cbn. now rewrite orb_false_r. Qed.

Definition order_ok (m : model) (vars : list nat) : Prop :=
  NoDup vars /\ (forall v, In v vars -> v < length (m_vars m)) /\ parents_first m vars.

Lemma order_len : forall m vars, order_ok m vars -> length vars <= length (m_vars m).
Proof.
  intros m vars (H1 & H2 & _). rewrite <- (seq_length (length (m_vars m)) 0). apply NoDup_incl_length; auto.
  intros v Hv. apply in_seq. specialize (H2 v Hv). lia.
Qed.
Lemma order_full : forall m vars, order_ok m vars -> length (m_vars m) <= length vars ->
  topological m vars.
Proof.
  intros m vars (H1 & H2 & H3) L. split; auto. apply NoDup_Permutation_bis; auto.
  - now rewrite seq_length.
  - intros v Hv. apply in_seq. specialize (H2 v Hv). lia.
Qed.
Lemma order_room : forall m vars v, order_ok m vars -> v < length (m_vars m) -> ~ In v vars -> length vars < length (m_vars m).
Proof.
  intros m vars v H Hv N. destruct (Nat.lt_ge_cases (length vars) (length (m_vars m))) as [|G]; auto.
  exfalso. apply N. destruct (order_full m vars H G) as (P & _). eapply Permutation_in; [symmetry; exact P|].
  apply in_seq. lia.
Qed.
Lemma pf_app : forall m vars v, parents_first m vars -> incl (v_parents (var m v)) vars -> parents_first m (vars ++ [v]).
Proof.
  intros m vars v H I l1 w l2 E. destruct (@exists_last _ (w :: l2)) as (l3 & z & E3); [discriminate|].
  rewrite E3, app_assoc in E. apply app_inj_tail in E. destruct E as (E & <-).
  destruct l3 as [|w' l3].
  - inversion E3; subst. rewrite app_nil_r in I. auto.
  - inversion E3; subst w'. subst l2. apply (H l1 w l3). rewrite E. reflexivity.
Qed.

Lemma take_ok : forall m vars v, order_ok m vars -> v < length (m_vars m) -> ~ In v vars ->
  incl (v_parents (var m v)) vars ->
  take_var (taken m vars) vars v = Ok (taken m (vars ++ [v]), vars ++ [v]) /\ order_ok m (vars ++ [v]).
Proof.
  intros m vars v HO Hv N HP. assert (R := order_room m vars v HO Hv N). unfold take_var.
  unfold taken at 1. rewrite marking_len. rewrite (proj2 (Nat.ltb_lt _ _) R).
  unfold taken at 1. rewrite mark_marking by auto. cbn [bind]. split.
  - do 2 f_equal. unfold taken. apply marking_ext. intros w Hw. rewrite isin_app.
    destruct (Nat.eqb_spec w v) as [->|]; [now rewrite orb_true_r|now rewrite orb_false_r].
  - destruct HO as (H1 & H2 & H3). split; [|split].
    + apply NoDup_app_intro; auto.
      * constructor; auto. constructor.
      * intros x Hx [->|[]]. auto.
    + intros w Hw. apply in_app_or in Hw. destruct Hw as [|[->|[]]]; auto.
    + now apply pf_app.
Qed.

Lemma parents_marked_ok : forall m vars ps, (forall p, In p ps -> p < length (m_vars m)) ->
  parents_marked (taken m vars) ps = Ok (forallb (isin vars) ps).
Proof.
  intros m vars ps H. unfold parents_marked.
  destruct (find_up_ok (fun k => negb (isin vars (nth k ps 0))) 0 (length ps)
    (fun k => let* p := rd ps k in let* b := marked (taken m vars) p in Ok (negb b))) as (o & E & Ho).
  { intros i Hi. rewrite (rd_ok _ _ _ 0) by lia. cbn [bind]. rewrite marked_taken by (apply H; apply nth_In; lia). reflexivity. }
  rewrite E. cbn [bind]. f_equal. destruct o as [j|].
  - destruct Ho as (Hj & Hn & _). symmetry. apply not_true_iff_false. intros K. rewrite forallb_forall in K.
    rewrite K in Hn by (apply nth_In; lia). discriminate.
  - symmetry. apply forallb_forall. intros x Hx. apply (In_nth _ _ 0) in Hx. destruct Hx as (k & Hk & <-).
    specialize (Ho k ltac:(lia)). destruct (isin vars (nth k ps 0)); auto; discriminate.
Qed.

Section Order.
Variable m : model.
Hypothesis HP : closed_parents m.
Local Notation n := (length (m_vars m)).

Lemma order_pass_ok : forall vars, order_ok m vars ->
  exists vars', order_pass (taken m vars) vars = Ok (taken m vars', vars') /\ order_ok m vars' /\ incl vars vars' /\
    forall v, v < n -> incl (v_parents (var m v)) vars -> In v vars'.
Proof.
  intros vars HO. unfold order_pass. rewrite taken_len.
  match goal with |- context [for_up 0 ?k ?b ?s] =>
    destruct (for_up_inv (model * list nat) (fun t '(m', w) => m' = taken m w /\ order_ok m w /\ incl vars w /\
      forall v, v < t -> incl (v_parents (var m v)) vars -> In v w) b 0 k s) as ((m' & w) & E & -> & O1 & I1 & F1) end.
  - lia.
  - split; auto. split; auto. split; [apply incl_refl|]. intros; lia.
  - intros i (m', w) Hi (-> & O1 & I1 & F1). rewrite marked_taken by lia. cbn [bind].
    destruct (isin w i) eqn:Ei.
    + eexists. split; [reflexivity|]. split; auto. split; auto. split; auto. intros v Hv Hp.
      destruct (Nat.eq_dec v i) as [->|]; [now apply isin_in|apply F1; auto; lia].
    + rewrite rd_var by (rewrite taken_len; lia). cbn [bind]. rewrite taken_parents by lia. rewrite parents_marked_ok by (intros p Hp; apply (HP i); auto; lia). cbn [bind].
      destruct (forallb (isin w) (v_parents (var m i))) eqn:Ep.
      * destruct (take_ok m w i O1) as (E & O2); [lia| |intros p Hp; apply isin_in; rewrite forallb_forall in Ep; auto|].
        { intros K. apply isin_in in K. congruence. }
        eexists. split; [exact E|]. split; auto. split; auto. split; [now apply incl_appl|].
        intros v Hv Hp. apply in_or_app. destruct (Nat.eq_dec v i) as [->|]; [simpl; auto|left; apply F1; auto; lia].
      * eexists. split; [reflexivity|]. split; auto. split; auto. split; auto. intros v Hv Hp.
        destruct (Nat.eq_dec v i) as [->|]; [|apply F1; auto; lia].
        exfalso. rewrite (proj2 (forallb_forall _ _)) in Ep; [discriminate|]. intros p Hpp. apply isin_in. auto.
  - exists w. rewrite E. auto.
Qed.

Lemma order_roots_ok : exists vars,
  (let* m' := for_up 0 n (fun i m => mark_var m i MARK_OFF) m in
   for_up 0 n (fun i '(m, vars) => let* x := rd (m_vars m) i in
      if Nat.eqb (length (v_parents x)) 0 then take_var m vars i else Ok (m, vars)) (m', []))
  = Ok (taken m vars, vars) /\ order_ok m vars.
Proof.
  match goal with |- context [for_up 0 ?k ?b m] =>
    destruct (for_up_inv model (fun t m' => m' = marking m (fun v => if Nat.ltb v t then MARK_OFF else v_mark (var m v))) b 0 k m)
      as (m' & E & ->) end.
  - lia.
  - symmetry. apply marking_id.
  - intros i m' Hi ->. rewrite mark_marking by lia. eexists. split; [reflexivity|]. apply marking_ext. intros v Hv.
    destruct (Nat.eqb_spec v i) as [->|N].
    + destruct (Nat.ltb_spec i (S i)); auto; lia.
    + destruct (Nat.ltb_spec v i); destruct (Nat.ltb_spec v (S i)); auto; lia.
  - rewrite E. cbn [bind].
    replace (marking m (fun v => if Nat.ltb v n then MARK_OFF else v_mark (var m v))) with (taken m []).
    2: { apply marking_ext. intros v Hv. destruct (Nat.ltb_spec v n); [reflexivity|lia]. }
    match goal with |- context [for_up 0 ?k ?b ?s] =>
      destruct (for_up_inv (model * list nat) (fun t '(m', w) => m' = taken m w /\ order_ok m w /\ forall v, In v w -> v < t) b 0 k s)
       as ((m' & w) & E2 & -> & O1 & _) end.
    + lia.
    + split; auto. split; [|intros v []]. split; [constructor|]. split; [intros v []|]. intros l1 v l2 K. destruct l1; discriminate.
    + intros i (m', w) Hi (-> & O1 & L1). rewrite rd_var by (rewrite taken_len; lia). cbn [bind].
      rewrite taken_parents by lia.
      destruct (v_parents (var m i)) as [|p ps] eqn:Ep; cbn [length Nat.eqb].
      * destruct (take_ok m w i O1) as (E2 & O2); [lia| |rewrite Ep; intros x []|].
        { intros K. specialize (L1 i K). lia. }
        eexists. split; [exact E2|]. split; auto. split; auto. intros v Hv. apply in_app_or in Hv.
        destruct Hv as [Hv|[->|[]]]; [specialize (L1 v Hv)|]; lia.
      * eexists. split; [reflexivity|]. split; auto. split; auto. intros v Hv. specialize (L1 v Hv). lia.
    + exists w. rewrite E2. auto.
Qed.

(** With any fuel the loop either ends with an ordering or does not end. *)
Lemma order_loop_any : forall fuel vars, order_ok m vars ->
  order_loop fuel (taken m vars) vars = NoFuel \/
  exists vars', order_loop fuel (taken m vars) vars = Ok (taken m vars', vars') /\ topological m vars'.
Proof.
  induction fuel as [|fuel IH]; intros vars HO; cbn [order_loop]; rewrite taken_len.
  - destruct (Nat.ltb_spec (length vars) n); auto. right. exists vars. split; auto. now apply order_full.
  - destruct (Nat.ltb_spec (length vars) n).
    + destruct (order_pass_ok vars HO) as (vars' & E & O' & _). rewrite E. cbn [bind]. apply IH. auto.
    + right. exists vars. split; auto. now apply order_full.
Qed.

Lemma order_progress : forall l vars vars', topological m l -> order_ok m vars -> order_ok m vars' -> length vars < n ->
  incl vars vars' -> (forall v, v < n -> incl (v_parents (var m v)) vars -> In v vars') -> length vars < length vars'.
Proof.
  intros l vars vars' (PL & FL) HO HO' L I H.
  assert (X : exists v, In v l /\ ~ In v vars /\ incl (v_parents (var m v)) vars).
  { assert (NI : ~ incl l vars).
    { intros K. apply NoDup_incl_length in K; [|eapply Permutation_NoDup; [symmetry; exact PL|apply seq_NoDup]].
      apply Permutation_length in PL. rewrite seq_length in PL. lia. }
    clear - NI FL. assert (G : forall l1 l2, l = l1 ++ l2 -> incl l1 vars -> exists v, In v l /\ ~ In v vars /\ incl (v_parents (var m v)) vars).
    { intros l1 l2. revert l1. induction l2 as [|x l2 IH]; intros l1 E I.
      - exfalso. apply NI. rewrite E, app_nil_r. auto.
      - destruct (in_dec Nat.eq_dec x vars) as [Hx|Hx].
        + apply (IH (l1 ++ [x])); [rewrite E, <- app_assoc; reflexivity|]. intros y Hy. apply in_app_or in Hy. destruct Hy as [|[->|[]]]; auto.
        + exists x. split; [rewrite E; apply in_or_app; simpl; auto|]. split; auto. intros p Hp. apply I. now apply (FL l1 x l2). }
    apply (G [] l); auto. intros x []. }
  destruct X as (v & Hv & N & Hp).
  assert (Lv : v < n). { eapply Permutation_in in Hv; [|exact PL]. apply in_seq in Hv. lia. }
  assert (Hv' := H v Lv Hp).
  assert (K : length (v :: vars) <= length vars').
  { apply NoDup_incl_length; [constructor; auto; apply HO|]. intros x [->|Hx]; auto. }
  cbn [length] in K. lia.
Qed.

Lemma order_loop_ok : forall l, topological m l -> forall fuel vars, order_ok m vars -> n <= length vars + fuel ->
  exists vars', order_loop fuel (taken m vars) vars = Ok (taken m vars', vars') /\ topological m vars'.
Proof.
  intros l HL. induction fuel as [|fuel IH]; intros vars HO Hf; cbn [order_loop]; rewrite taken_len.
  - destruct (Nat.ltb_spec (length vars) n); [lia|]. exists vars. split; auto. now apply order_full.
  - destruct (Nat.ltb_spec (length vars) n).
    + destruct (order_pass_ok vars HO) as (vars' & E & O' & I' & F'). rewrite E. cbn [bind]. apply IH; auto.
      assert (K := order_progress l vars vars' HL HO O' H I' F'). lia.
    + exists vars. split; auto. now apply order_full.
Qed.

Lemma taken_all : forall vars, topological m vars -> taken m vars = all_marked m.
Proof.
  intros vars (P & _). rewrite <- marking_all. apply marking_ext. intros v Hv.
  replace (isin vars v) with true; auto. symmetry. apply isin_in. eapply Permutation_in; [symmetry; exact P|]. apply in_seq. lia.
Qed.

Lemma bind_assoc : forall A B C (x : res A) (f : A -> res B) (g : B -> res C),
  (let* y := x in let* z := f y in g z) = (let* z := (let* y := x in f y) in g z).
Proof. intros. destruct x; reflexivity. Qed.

Lemma sampling_order_any : forall fuel,
  sampling_order fuel m = NoFuel \/
  exists vars, sampling_order fuel m = Ok (all_marked m, vars) /\ topological m vars.
Proof.
  intros fuel. unfold sampling_order. cbv zeta. rewrite bind_assoc.
  destruct order_roots_ok as (vars & E & O). rewrite E. cbn [bind].
  destruct (order_loop_any fuel vars O) as [->|(vars' & -> & T)]; auto.
  right. exists vars'. split; auto. now rewrite <- (taken_all vars' T).
Qed.
Lemma sampling_order_ok : forall fuel l, topological m l -> n <= fuel ->
  exists vars, sampling_order fuel m = Ok (all_marked m, vars) /\ topological m vars.
Proof.
  intros fuel l HL Hf. unfold sampling_order. cbv zeta. rewrite bind_assoc.
  destruct order_roots_ok as (vars & E & O). rewrite E. cbn [bind].
  destruct (order_loop_ok l HL fuel vars O) as (vars' & -> & T); [lia|].
  exists vars'. split; auto. now rewrite <- (taken_all vars' T).
Qed.
Lemma sampling_order_cyclic : (forall l, ~ topological m l) -> forall fuel, sampling_order fuel m = NoFuel.
Proof.
  intros H fuel. destruct (sampling_order_any fuel) as [|(vars & _ & T)]; auto. destruct (H vars T).
Qed.
End Order.
