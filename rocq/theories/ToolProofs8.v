(** * Proofs: nipsample *)
From Coq Require Import String Ascii Permutation.
From Verif Require Import Base BaseProofs StringSpec PotentialModel PotentialSpec PotentialProofs VariableModel AssignSpec AssignProofs
  JoinTreeModel JoinTreeSpec JoinTreeProofs NipModel NipSpec NipProofs NipProofs3 SliceModel SliceSpec SliceProofs SliceProofs2 SliceProofs3 SliceProofs4
  SliceProofs5 LearnModel LearnSpec LearnProofs2 LearnProofs4 LearnProofs6 LearnProofs8 LearnProofs9 SeriesFileModel SeriesFileSpec SeriesFileProofs6 SeriesFileProofs7
  GraphModel ParseModel ParseSpec ParseProofs3 ParseProofs6 ParseProofs8 ParseProofs9
  NetLexModel NetGrammarModel NetSpec WriteSpec WriteProofs9 ToolModel ToolSpec ToolModel2 ToolSpec2 ToolProofs ToolProofs3 ToolProofs7.
Import ListNotations.
Open Scope nat_scope.
Local Open Scope res_scope.
Local Notation len := List.length.

(** ** The order of the variables depends on the parents only *)
Definition related {A : Type} (R : A -> A -> Prop) (x y : res A) : Prop :=
  match x, y with
  | Ok a, Ok b => R a b
  | UB, UB => True
  | NoFuel, NoFuel => True
  | _, _ => False
  end.
Lemma related_bind : forall A B (R : A -> A -> Prop) (Q : B -> B -> Prop) x y f g, related R x y ->
  (forall a b, R a b -> related Q (f a) (g b)) -> related Q (bind x f) (bind y g).
Proof. intros A B R Q x y f g H K. destruct x, y; cbn [bind related] in *; auto; contradiction. Qed.
Lemma related_eq : forall A (x y : res A), related eq x y -> x = y.
Proof. intros A x y H. destruct x, y; cbn [related] in *; try contradiction; congruence. Qed.
Lemma related_loop : forall A (R : A -> A -> Prop) f g, (forall i a b, R a b -> related R (f i a) (g i b)) ->
  forall k lo a b, R a b -> related R (loop_up k lo f a) (loop_up k lo g b).
Proof.
  intros A R f g H. induction k as [|k IH]; intros lo a b Hab; [exact Hab|]. cbn [loop_up].
  eapply related_bind; [now apply H|]. intros a' b' H'. now apply IH.
Qed.

Definition alike (m m' : model) : Prop :=
  len (m_vars m') = len (m_vars m) /\
  forall v, v < len (m_vars m) -> v_parents (var m' v) = v_parents (var m v) /\ v_mark (var m' v) = v_mark (var m v).
Definition alike2 (x y : model * list nat) : Prop := alike (fst x) (fst y) /\ snd x = snd y.

Lemma rd_var : forall m v, v < len (m_vars m) -> rd (m_vars m) v = Ok (var m v).
Proof. intros m v Hv. unfold var. now rewrite (rd_ok _ _ _ (mkVar 1 [] None false [] None None false 0)). Qed.
Lemma rd_out : forall A (l : list A) v, len l <= v -> rd l v = UB.
Proof. intros A l v Hv. unfold rd. now rewrite (proj2 (nth_error_None _ _)). Qed.
Lemma alike_marked : forall m m' v, alike m m' -> marked m v = marked m' v.
Proof.
  intros m m' v (L & H). unfold marked. destruct (Nat.lt_ge_cases v (len (m_vars m))) as [Hv|Hv].
  - rewrite !rd_var by lia. cbn [bind]. now rewrite (proj2 (H v Hv)).
  - now rewrite !rd_out by lia.
Qed.
Lemma alike_mark : forall m m' v k, alike m m' -> related alike (mark_var m v k) (mark_var m' v k).
Proof.
  intros m m' v k (L & H). unfold mark_var, put_var. destruct (Nat.lt_ge_cases v (len (m_vars m))) as [Hv|Hv].
  - rewrite !rd_var by lia. cbn [bind]. unfold wr. rewrite L. rewrite (proj2 (Nat.ltb_lt _ _) Hv). cbn [bind related].
    split; cbn [m_vars]; [now rewrite !set_nth_length|]. rewrite set_nth_length. intros w Hw. unfold var. cbn [m_vars].
    destruct (Nat.eq_dec v w) as [<-|N].
    + rewrite !nth_set_nth_eq by lia. cbn [v_parents v_mark set_vmark]. split; auto. apply (H v Hv).
    + rewrite !nth_set_nth_neq by auto. apply (H w Hw).
  - now rewrite !rd_out by lia.
Qed.
Lemma alike_take : forall m m' vars v, alike m m' -> related alike2 (take_var m vars v) (take_var m' vars v).
Proof.
  intros m m' vars v H. unfold take_var. destruct H as (L & H). rewrite L. destruct (Nat.ltb _ _); [|exact I].
  eapply related_bind; [apply alike_mark; split; eauto|]. intros a b K. split; auto.
Qed.
Lemma alike_parents : forall m m' ps, alike m m' -> parents_marked m ps = parents_marked m' ps.
Proof.
  intros m m' ps H. unfold parents_marked, find_up. generalize (len ps - 0) as k. intros k. f_equal. generalize 0 as lo.
  induction k as [|k IH]; intros lo; [reflexivity|]. cbn [find_loop]. destruct (rd ps lo) as [p| |]; [|reflexivity|reflexivity].
  cbn [bind]. rewrite (alike_marked m m' p H). destruct (marked m' p) as [b| |]; cbn [bind]; auto. rewrite IH. reflexivity.
Qed.
Lemma alike_pass : forall m m' vars, alike m m' -> related alike2 (order_pass m vars) (order_pass m' vars).
Proof.
  intros m m' vars H. unfold order_pass, for_up. assert (L := proj1 H). rewrite L. apply related_loop; [|split; auto].
  intros i (a & va) (b & vb) (K & E). cbn [fst snd] in *. subst vb. rewrite <- (alike_marked a b i K).
  destruct (marked a i) as [x| |] eqn:EM; cbn [bind]; try exact I. destruct x; [split; auto|].
  assert (Hi : i < len (m_vars a)).
  { unfold marked, rd in EM. destruct (nth_error (m_vars a) i) eqn:EN; [|discriminate]. apply nth_error_Some. congruence. }
  rewrite !rd_var by (destruct K as (LK & _); lia). cbn [bind]. rewrite (proj1 (proj2 K i Hi)), <- (alike_parents a b _ K).
  destruct (parents_marked a (v_parents (var a i))) as [x| |]; cbn [bind]; try exact I. destruct x; [|split; auto]. now apply alike_take.
Qed.
Lemma alike_loop : forall fuel m m' vars, alike m m' -> related alike2 (order_loop fuel m vars) (order_loop fuel m' vars).
Proof.
  induction fuel as [|fuel IH]; intros m m' vars H; cbn [order_loop]; rewrite (proj1 H); destruct (Nat.ltb _ _); try exact I; try (split; auto; fail).
  eapply related_bind; [apply alike_pass; eauto|]. intros (a & va) (b & vb) (K & E). cbn [fst snd] in *. subst vb. now apply IH.
Qed.
Lemma order_alike : forall fuel m m', len (m_vars m') = len (m_vars m) ->
  (forall v, v < len (m_vars m) -> v_parents (var m' v) = v_parents (var m v)) ->
  related alike2 (sampling_order fuel m) (sampling_order fuel m').
Proof.
  intros fuel m m' L H. unfold sampling_order. cbv zeta. rewrite !mark_each. cbn [bind].
  assert (A : alike (marking m (fun _ => MARK_OFF)) (marking m' (fun _ => MARK_OFF))).
  { split; rewrite !marking_len; auto. intros v Hv. rewrite !marking_var by lia. cbn [v_parents v_mark set_vmark]. auto. }
  eapply related_bind with (R := alike2).
  - unfold for_up. rewrite L. apply related_loop; [|split; auto]. intros i (a & va) (b & vb) (K & E). cbn [fst snd] in *. subst vb.
    destruct (Nat.lt_ge_cases i (len (m_vars a))) as [Hi|Hi].
    + rewrite !rd_var by (destruct K as (LK & _); lia). cbn [bind]. rewrite (proj1 (proj2 K i Hi)). destruct (Nat.eqb _ 0); [now apply alike_take|split; auto].
    + rewrite !rd_out by (destruct K as (LK & _); lia). exact I.
  - intros (a & va) (b & vb) (K & E). cbn [fst snd] in *. subst vb. now apply alike_loop.
Qed.

Lemma same_all_marked : forall m m', same_model (all_marked m) m' -> same_model (all_marked m) (all_marked m').
Proof.
  intros m m' (A & L & B & C). split; [exact A|]. split; [now rewrite all_marked_len|]. split; [|exact C].
  intros v. rewrite all_marked_len in L. destruct (Nat.lt_ge_cases v (len (m_vars m))) as [Hv|Hv].
  - rewrite (all_marked_var m') by lia. destruct (B v) as (B1 & B2 & B3 & B4 & B5). cbn [v_card v_prior v_parents v_old v_mark set_vmark].
    repeat split; auto. rewrite all_marked_var by auto. reflexivity.
  - unfold var. rewrite !nth_overflow by (rewrite all_marked_len; lia). repeat split; auto.
Qed.

Lemma conditional_unmarked : forall card m, slices_ok card m -> conditional_slices card (all_marked m) -> conditional_slices card m.
Proof.
  intros card m HM (A & B). assert (MI := mo_indep _ _ (so_model _ _ HM)).
  assert (P : forall l a, incl l (m_indep m) -> priors (all_marked m) l a = priors m l a).
  { intros l a Hl. unfold priors. apply qprod_map_ext. intros v Hv. rewrite all_marked_var by (apply MI; auto). reflexivity. }
  split.
  - unfold sum_all in *. rewrite all_marked_len in A. rewrite <- A. apply sumv_ext_free. intros d _.
    change (m_indep (all_marked m)) with (m_indep m). rewrite P by apply incl_refl. reflexivity.
  - intros a Ha. assert (Q := B a Ha). rewrite all_marked_len in Q. rewrite <- Q. apply sumv_ext_free. intros d _.
    change (m_indep (all_marked m)) with (m_indep m). change (m_prev (all_marked m)) with (m_prev m).
    rewrite P; [reflexivity|]. intros v Hv. apply filter_In in Hv. tauto.
Qed.
Lemma Forall2_by_nth : forall A B (R : A -> B -> Prop) l l' a b, len l = len l' ->
  (forall i, i < len l -> R (nth i l a) (nth i l' b)) -> Forall2 R l l'.
Proof.
  intros A B R. induction l as [|x l IH]; intros [|y l'] a b L H; try discriminate L; constructor.
  - apply (H 0). cbn. lia.
  - apply (IH l' a b); [now inversion L|]. intros i Hi. apply (H (S i)). cbn. lia.
Qed.
Lemma in_firstn : forall A (x : A) k l, In x (firstn k l) -> In x l.
Proof. intros A x k l H. rewrite <- (firstn_skipn k l). apply in_or_app. auto. Qed.

Section Sample.
Variable k1 k2 : list pvar -> list nat -> Z.
Variable c : Z.
Variable net_text : list ascii.
Variable t : net.
Hypothesis NF : net_file k1 k2 c net_text t.
Local Notation card := (card_in t).
Local Notation n := (ParseSpec.size t).
Local Notation NO := (nf_ok _ _ _ _ _ NF).
Local Notation CF := (nf_order _ _ _ _ _ NF).
Local Notation PR := (nf_proper _ _ _ _ _ NF).
Local Notation TS := (nf_slices _ _ _ _ _ NF).

Section Model.
Variable names : list named_variable.
Variable m : model.
Hypothesis P : parsed t names m.
Local Notation mm := (all_marked m).
Variable T : nat.
Hypothesis NZ : 0 < n.

(** The series of a run of generate_data. *)
Definition series_from (ts : time_series) : series := mkSeries [] (ts_observed ts) T (ts_data ts).

Section One.
Variable ts : time_series.
Hypothesis PO : Permutation (ts_observed ts) (seq 0 n).
Hypothesis LT : len (ts_data ts) = T.
Hypothesis RO : Forall (fun row => len row = len (ts_observed ts)) (ts_data ts).

Lemma obs_nodup : NoDup (ts_observed ts).
Proof. eapply Permutation_NoDup; [symmetry; exact PO|apply seq_NoDup]. Qed.
Lemma obs_len : len (ts_observed ts) = n.
Proof. rewrite (Permutation_length PO). apply seq_length. Qed.
Lemma obs_ne : ts_observed ts <> [].
Proof. intros E. assert (L := obs_len). rewrite E in L. cbn in L. lia. Qed.
Lemma from_fit : fit_series n (series_from ts).
Proof.
  split; [exact obs_nodup|]. split; [|split; [exact RO|intros _; exact LT]].
  intros v Hv. cbn [series_from s_observed] in Hv. eapply Permutation_in in Hv; [|exact PO]. apply in_seq in Hv. lia.
Qed.
Lemma to_ts_from : to_ts (series_from ts) = ts.
Proof.
  unfold to_ts, ToolModel.rows_of, series_from. cbn [s_observed s_length s_data]. assert (NE := obs_ne).
  destruct (ts_observed ts) as [|o os] eqn:E; [congruence|]. rewrite firstn_all2 by lia. rewrite <- E. destruct ts; reflexivity.
Qed.
Lemma so_far_fit : forall s i, s < T -> i <= n -> fit_series n (drawn_so_far (series_from ts) s i).
Proof.
  intros s i Hs Hi. destruct from_fit as (A & B & C & D). split; [exact A|]. split; [exact B|].
  cbn [drawn_so_far series_from s_data s_observed s_length]. split.
  - apply Forall_app. split.
    + apply Forall_forall. intros r Hr. apply in_firstn in Hr. rewrite Forall_forall in RO. now apply RO.
    + constructor; [|constructor]. rewrite app_length, firstn_length, repeat_length, obs_len.
      assert (K : len (nth s (ts_data ts) []) = n). { rewrite <- obs_len. rewrite Forall_forall in RO. apply RO, nth_In. lia. }
      lia.
  - intros _. rewrite app_length, firstn_length. cbn. lia.
Qed.
Lemma to_ts_so_far : forall s i, s < T -> i <= n -> to_ts (drawn_so_far (series_from ts) s i) = LearnSpec.known ts s i.
Proof.
  intros s i Hs Hi. destruct (so_far_fit s i Hs Hi) as (_ & _ & _ & D). assert (NE := obs_ne).
  unfold to_ts, ToolModel.rows_of, LearnSpec.known. unfold drawn_so_far, series_from in *. cbn [s_observed s_length s_data s_hidden] in *.
  destruct (ts_observed ts) as [|o os] eqn:E; [congruence|]. rewrite firstn_all2; [reflexivity|]. rewrite D by discriminate. lia.
Qed.
Lemma said_entry : forall s i, s < T -> i < n -> forall k, NipSpec.entry ts s i = Z.of_nat k ->
  said (series_from ts) (nth i (ts_observed ts) 0) s = Some k.
Proof.
  intros s i Hs Hi k E. unfold said. cbn [series_from s_observed s_data].
  assert (LR : len (nth s (ts_data ts) []) = len (ts_observed ts)).
  { rewrite Forall_forall in RO. apply RO, nth_In. lia. }
  assert (Q := find_combine (ts_observed ts) (nth s (ts_data ts) []) (nth i (ts_observed ts) 0) obs_nodup LR).
  destruct (find _ _) as [(w & d)|]; [|exfalso; apply Q, nth_In; rewrite obs_len; auto]. destruct Q as (j & H1 & H2 & H3 & _).
  assert (j = i) by (apply (proj1 (NoDup_nth (ts_observed ts) 0) obs_nodup); auto; rewrite obs_len; auto). subst j.
  unfold NipSpec.entry in E. rewrite H3 in E. subst d. destruct (Z.ltb_spec (Z.of_nat k) 0); [lia|]. now rewrite Nat2Z.id.
Qed.
End One.

(** What is known of a series from generate_data. *)
Definition generated (o : list nat) (rnd : nat -> nat -> Qc) (ts : series) : Prop :=
  s_hidden ts = [] /\ s_observed ts = o /\ s_length ts = T /\ len (s_data ts) = T /\
  Forall (fun row => Forall2 (fun v d => (0 <= d < Z.of_nat (card v))%Z) o row) (s_data ts) /\
  (forall v s, v < n -> s < T -> exists x, said ts v s = Some x /\ x < card v) /\
  ((exists u, from_before t u = true) \/ (roots_given t /\ positive_random rnd) -> sampled t rnd ts) /\
  (roots_given t -> positive_random rnd -> evidence t ts T T <> 0%Qc).

Lemma topological_net : forall m0, same_model mm (all_marked m0) -> exists l, topological m0 l.
Proof.
  intros m0 S. destruct (acyclic_children_first t NO CF) as (l & PL & AL). exists l.
  assert (L0 : len (m_vars m0) = n). { destruct S as (_ & L & _). rewrite !all_marked_len in L. rewrite L. apply P. }
  split; [now rewrite L0|]. intros l1 v l2 E u Hu. assert (Hv : v < n).
  { assert (I : In v l) by (rewrite E; apply in_elt). eapply Permutation_in in I; [|exact PL]. apply in_seq in I. lia. }
  apply (AL l1 v l2 E). apply (parent_iff t NO); auto. split; auto. rewrite <- (pa_parents _ _ _ P) by auto.
  destruct S as (_ & _ & S & _). destruct (S v) as (_ & _ & K & _).
  rewrite all_marked_var in K by (rewrite L0; auto). rewrite all_marked_var in K by (rewrite (pa_size _ _ _ P); auto).
  cbn [v_parents set_vmark] in K. now rewrite <- K.
Qed.
Lemma topological_parents : forall m0 l, same_model mm (all_marked m0) -> topological m0 l ->
  Permutation l (seq 0 n) /\ forall l1 v l2, l = l1 ++ v :: l2 -> forall u, parent t u v -> In u l1.
Proof.
  intros m0 l S (PL & AL). assert (L0 : len (m_vars m0) = n). { destruct S as (_ & L & _). rewrite !all_marked_len in L. rewrite L. apply P. }
  rewrite L0 in PL. split; auto. intros l1 v l2 E u Hu. assert (Hv : v < n).
  { assert (I : In v l) by (rewrite E; apply in_elt). eapply Permutation_in in I; [|exact PL]. apply in_seq in I. lia. }
  apply (AL l1 v l2 E). destruct S as (_ & _ & S & _). destruct (S v) as (_ & _ & K & _).
  rewrite all_marked_var in K by (rewrite L0; auto). rewrite all_marked_var in K by (rewrite (pa_size _ _ _ P); auto).
  cbn [v_parents set_vmark] in K. rewrite K, (pa_parents _ _ _ P) by auto. apply (parent_iff t NO) in Hu; auto. apply Hu.
Qed.

Lemma generate_one : forall fuel m0 rnd, n <= fuel -> slices_ok card m0 -> same_model mm (all_marked m0) ->
  exists m' ts x, generate_data fuel m0 T rnd = Ok (m', ts) /\ slices_ok card m' /\ same_model mm (all_marked m') /\
    sampling_order fuel m0 = Ok (x, ts_observed ts) /\ generated (ts_observed ts) rnd (series_from ts).
Proof.
  intros fuel m0 rnd HF SO SM. destruct (topological_net m0 SM) as (l & HT).
  assert (L0 : len (m_vars m0) = n). { destruct SM as (_ & L & _). rewrite !all_marked_len in L. rewrite L. apply P. }
  assert (HF' : len (m_vars m0) <= fuel) by lia.
  destruct (C47_valid_lemma card m0 T rnd fuel l SO HT HF') as (m' & ts & E & M' & S' & TO & LT & SR & ST).
  destruct (C47_exact_lemma card m0 T rnd fuel l m' ts SO HT HF' E) as (EX & EV).
  assert (SM' : same_model mm (all_marked m')) by (eapply same_model_trans; [exact SM|now apply same_all_marked]).
  assert (SO' : slices_ok card m') by (eapply slices_ok_same; [apply (all_marked_slices card m0 SO)|exact M'|exact S']).
  destruct (topological_parents m0 _ SM TO) as (PO & PF). destruct SR as (ND & HV & RO).
  assert (CS : roots_given t -> conditional_slices card m0).
  { intros RG. assert (K := LearnProofs4.conditional_same card mm (all_marked m0) SM (conditional_ok k1 k2 c net_text t NF names m P RG)).
    now apply conditional_unmarked. }
  exists m', ts.
  assert (EO : exists x, sampling_order fuel m0 = Ok (x, ts_observed ts)).
  { destruct (sampling_order_ok m0 (model_parents card m0 (so_model _ _ SO)) fuel l HT HF') as (vars & E2 & _). exists (all_marked m0).
    rewrite E2. f_equal. f_equal. unfold generate_data in E. rewrite E2 in E. cbn [bind] in E.
    repeat match type of E with context [bind ?r _] => destruct r as [?| |] eqn:?; cbn [bind] in E; try discriminate E end.
    repeat match type of E with context [let '(_, _) := ?p in _] => destruct p end. inversion E. reflexivity. }
  destruct EO as (x & EO). exists x. split; auto. split; auto. split; auto. split; auto.
  split; [reflexivity|]. split; [reflexivity|]. split; [reflexivity|]. split; [exact LT|]. split; [|split; [|split]].
  - cbn [series_from s_data]. apply Forall_forall. intros row HR. apply (In_nth _ _ []) in HR. destruct HR as (s & Hs & <-).
    assert (LR : len (nth s (ts_data ts) []) = len (ts_observed ts)) by (rewrite Forall_forall in RO; apply RO, nth_In; auto).
    apply (Forall2_by_nth _ _ _ _ _ 0 0%Z); [now rewrite LR|]. intros i Hi. destruct (ST s i Hs Hi) as (k & K1 & K2). unfold NipSpec.entry in K1. rewrite K1. lia.
  - intros v s Hv Hs. assert (I : In v (ts_observed ts)). { eapply Permutation_in; [symmetry; exact PO|]. apply in_seq. lia. }
    apply (In_nth _ _ 0) in I. destruct I as (i & Hi & <-). rewrite <- LT in Hs. destruct (ST s i Hs Hi) as (k & K1 & K2).
    exists k. split; auto. rewrite LT in Hs. apply said_entry; auto. rewrite <- (obs_len ts PO). exact Hi.
  - intros HR. split; [exact PO|]. split; [exact PF|]. intros s i Hs Hi. cbn [series_from s_length] in Hs. cbv zeta. cbn [series_from s_observed].
    assert (D : drawn_from card (all_marked m0) ts s i (rnd s i)).
    { apply EX; auto; [|now rewrite L0]. destruct HR as [(u & Hu)|(RG & PRn)]; [left|right; auto].
      intros EO'. assert (Q := pa_out _ _ _ P). destruct SM as (_ & _ & _ & _ & _ & EM & _). change (m_out (all_marked m0)) with (m_out m0) in EM.
      change (m_out (all_marked m)) with (m_out m) in EM. rewrite <- EM, EO' in Q. eapply (prev_from t NO) in Hu; [|exact P].
      destruct (m_prev m); [destruct Hu|discriminate Q]. }
    destruct D as (d & LD & HD & k & K1 & K2). exists k. split; [apply said_entry; auto|].
    replace (map _ _) with d; [exact K2|]. apply (list_ext_nth _ 0%Qc). { now rewrite map_length, seq_length. }
    intros y Hy. rewrite (nth_map _ _ _ _ _ 0) by (rewrite seq_length; lia). rewrite seq_nth by lia. cbn [Nat.add]. rewrite HD by lia.
    rewrite (posterior_same card mm (all_marked m0) _ _ _ _ _ _ SM).
    assert (Hi' : i <= n) by lia. change (mkSeries [] (ts_observed ts) T (ts_data ts)) with (series_from ts).
    rewrite <- (to_ts_so_far ts PO LT RO s i Hs Hi').
    apply (posterior_chance t NO CF PR TS names m P); [now apply so_far_fit|]. cbn. lia.
  - intros RG PRn. assert (K := EV (CS RG) PRn). unfold likelihood in K. cbv zeta in K. rewrite LT in K.
    rewrite (sum_steps_same card mm (all_marked m0) T _ SM) in K. intros Z. apply K.
    rewrite <- (to_ts_from ts PO LT RO). transitivity (sum_steps card mm T (unrolled mm (to_ts (series_from ts)) T T)).
    + apply sum_steps_ext. intros a. apply unrolled_same. exact SM.
    + rewrite (evidence_sum t NO CF PR TS names m P (series_from ts) (from_fit ts PO LT RO) T T); [exact Z|apply le_n].
Qed.

Lemma sample_ok : forall fuel rnd o, n <= fuel -> forall count i m0, slices_ok card m0 -> same_model mm (all_marked m0) ->
  (exists x, sampling_order fuel m0 = Ok (x, o)) ->
  exists ss, sample_all fuel m0 count T i rnd = Ok ss /\ Forall2 (fun j ts => generated o (rnd j) ts) (seq i count) ss.
Proof.
  intros fuel rnd o HF. induction count as [|count IH]; intros i m0 SO SM (x & EO); cbn [sample_all].
  - exists []. split; auto. constructor.
  - destruct (generate_one fuel m0 (rnd i) HF SO SM) as (m' & ts & x2 & E & SO' & SM' & EO2 & G). rewrite E. cbn [bind].
    rewrite EO in EO2. injection EO2 as <- EO2. rewrite <- EO2 in G.
    destruct (IH (i + 1) m' SO' SM') as (ss & E2 & H2).
    + assert (A : related alike2 (sampling_order fuel m0) (sampling_order fuel m')).
      { assert (L0 : len (m_vars m0) = n). { destruct SM as (_ & L & _). rewrite !all_marked_len in L. rewrite L. apply P. }
        assert (L1 : len (m_vars m') = n). { destruct SM' as (_ & L & _). rewrite !all_marked_len in L. rewrite L. apply P. }
        apply order_alike; [lia|]. intros v Hv. destruct SM as (_ & _ & S1 & _). destruct SM' as (_ & _ & S2 & _).
        destruct (S1 v) as (_ & _ & A1 & _). destruct (S2 v) as (_ & _ & A2 & _). rewrite all_marked_var in A1 by lia.
        rewrite all_marked_var in A2 by lia. cbn [v_parents set_vmark] in A1, A2. congruence. }
      rewrite EO in A. unfold related in A. destruct (sampling_order fuel m') as [(y & o2)| |]; try contradiction.
      destruct A as (_ & A). cbn [snd] in A. subst o2. eauto.
    + rewrite E2. cbn [bind]. eexists. split; [reflexivity|]. cbn [seq]. replace (S i) with (i + 1) by lia. constructor; auto.
Qed.
End Model.

Lemma same_names : forall names m, parsed t names m ->
  map symbol_of names = map symbol_of (named_in t) /\ map states_of names = map states_of (named_in t).
Proof.
  intros names m P. split; [now rewrite named_symbols, (pa_symbols _ _ _ P)|].
  assert (LN := parsed_len t names m P).
  apply (nth_ext _ _ [] []); [now rewrite !map_length, named_len|]. intros v Hv. rewrite map_length in Hv.
  assert (Q := states_at_named k1 k2 c net_text t NF names m P v). unfold states_at in Q.
  destruct (nth_error names v) as [nv|] eqn:E; [|apply nth_error_None in E; lia].
  destruct (nth_error (named_in t) v) as [nv'|] eqn:E'; [|apply nth_error_None in E'; rewrite named_len in E'; lia].
  rewrite (nth_error_nth _ v [] (map_nth_error states_of v names E)), (nth_error_nth _ v [] (map_nth_error states_of v _ E')). exact Q.
Qed.
Lemma Forall_states : forall (Q : list string -> Prop) l, Forall (fun nv => Q (states_of nv)) l <-> Forall Q (map states_of l).
Proof. intros Q l. now rewrite Forall_map. Qed.
Lemma plain_parsed : forall names m, parsed t names m -> plain_names (named_in t) -> plain_names names.
Proof.
  intros names m P (A & B & C & D). destruct (same_names names m P) as (E1 & E2).
  split; [exact (parsed_named k1 k2 c net_text t NF names m P)|]. rewrite E1. split; auto. split; auto.
  apply (Forall_states (fun l => NoDup l /\ Forall plain_string l /\ ~ In "null"%string l)).
  apply (Forall_states (fun l => NoDup l /\ Forall plain_string l /\ ~ In "null"%string l)) in D. now rewrite E2.
Qed.
Lemma width_lists : forall l, line_width l = fold_right Nat.add 0 (map (fun '(a, b) => S (fold_right Nat.max 4 (map String.length (a :: b))))
  (combine (map symbol_of l) (map states_of l))).
Proof. induction l as [|nv l IH]; [reflexivity|]. unfold line_width in *. cbn [map combine fold_right]. rewrite IH. reflexivity. Qed.
Lemma width_parsed : forall names m, parsed t names m -> line_width names = line_width (named_in t).
Proof. intros names m P. destruct (same_names names m P) as (E1 & E2). now rewrite !width_lists, E1, E2. Qed.
Lemma states_card : forall names m v, parsed t names m -> v < n -> len (states_at names v) = card v.
Proof.
  intros names m v P Hv. rewrite (states_at_named k1 k2 c net_text t NF names m P v). unfold states_at, named_in. rewrite nth_error_map.
  rewrite (nth_error_nth' (n_nodes t) (mkNode EmptyString None (Some [EmptyString]) None)) by exact Hv. reflexivity.
Qed.

Lemma C80_lemma : forall fuel count T rnd, n_nodes t <> [] -> plain_names (named_in t) -> (Z.of_nat (line_width (named_in t)) <= 9999)%Z ->
  n <= fuel -> 0 < count -> 0 < T ->
  exists f cols ss, nipsample fuel k1 k2 (fresh_globals c) (Some net_text) count T rnd = Ok (mkFinished 0 (Some f)) /\
    data_file t f cols ss /\
    Forall2 (fun i ts => s_length ts = T /\ s_hidden ts = [] /\
        (forall v s, v < n -> s < T -> exists x, said ts v s = Some x /\ x < card v) /\
        ((exists u, from_before t u = true) \/ (roots_given t /\ positive_random (rnd i)) -> sampled t (rnd i) ts) /\
        (roots_given t -> positive_random (rnd i) -> evidence t ts T T <> 0%Qc))
      (seq 0 count) ss.
Proof.
  intros fuel count T rnd NN PN LW HF HC HT. destruct (net_reads k1 k2 c net_text t NF) as (names & m & g & ks & size & E & P).
  assert (NZ : 0 < n) by (unfold ParseSpec.size; destruct (n_nodes t); [congruence|cbn; lia]).
  assert (SL : slices_ok card m) by apply P.
  destruct (generate_one names m P T NZ fuel m (rnd 0) HF SL (same_model_refl _)) as (_ & ts0 & x & _ & _ & _ & EO & _).
  destruct (sample_ok names m P T NZ fuel rnd (ts_observed ts0) HF count 0 m SL (same_model_refl _) (ex_intro _ x EO)) as (ss & ES & HS).
  set (o := ts_observed ts0) in *.
  assert (PO : Permutation o (seq 0 n)).
  { destruct (topological_net names m P NZ m (same_model_refl _)) as (l & TL).
    assert (LM : len (m_vars m) <= fuel) by (rewrite (pa_size _ _ _ P); exact HF).
    destruct (sampling_order_ok m (model_parents card m (so_model _ _ SL)) fuel l TL LM) as (vars & E2 & (Q & _)).
    rewrite EO in E2. injection E2 as _ E2. rewrite E2, <- (pa_size _ _ _ P). exact Q. }
  assert (OL : forall v, In v o -> v < n) by (intros v Hv; eapply Permutation_in in Hv; [|exact PO]; apply in_seq in Hv; lia).
  assert (LN := parsed_len t names m P).
  assert (NO' : o <> []). { intros Q. rewrite Q in PO. apply Permutation_length in PO. rewrite seq_length in PO. cbn in PO. lia. }
  assert (G : Forall (fun ts => exists i, generated T o (rnd i) ts) ss).
  { clear - HS. induction HS; constructor; eauto. }
  assert (OB : Forall (fun ts => s_observed ts = o) ss) by (eapply Forall_impl; [|exact G]; intros ts (i & Q); apply Q).
  assert (PS : Forall (proper_series names) ss).
  { eapply Forall_impl; [|exact G]. intros ts (i & A1 & A2 & A3 & A4 & A5 & _). split; [|split].
    - rewrite A1, A2, LN. exact PO.
    - intros _. now rewrite A3.
    - rewrite A2. eapply Forall_impl; [|exact A5]. intros row R. clear - R OL LN P NF.
      induction R as [|v d o row H R IH]; constructor; [|apply IH; intros w Hw; apply OL; now right].
      rewrite (states_card names m v P) by (apply OL; now left). lia. }
  assert (NS : ss <> []). { intros ->. inversion HS as [Q|]. destruct count; [lia|discriminate]. }
  assert (EX : exists ts, In ts ss /\ s_observed ts <> []).
  { destruct ss as [|ts r]; [congruence|]. exists ts. split; [now left|]. apply Forall_inv in OB. now rewrite OB. }
  assert (PN' := plain_parsed names m P PN). assert (LW' := width_parsed names m P).
  destruct (written_file names PN' (eq_ind_r (fun w => (Z.of_nat w <= 9999)%Z) LW LW') ss PS EX) as (f & header & data & EW & R & HD & ND & EU & EB).
  rewrite (joint_same o ss NS OB) in *.
  exists f, (known_columns names header), ss. split; [|split].
  - unfold nipsample. rewrite E. cbn [bind]. rewrite ES. cbn [bind]. rewrite EW. reflexivity.
  - exists header, data. split; auto. split; auto. split.
    { apply columns_ext. now apply (same_names names m P). }
    split; auto. transitivity (map (series_of_block names (known_columns names header)) (SeriesFileSpec.blocks data)).
    + rewrite EB. clear - G HT PO OL NO' LN PS. induction G as [|ts r (i & A1 & A2 & A3 & A4 & A5 & _) G IH]; [reflexivity|].
      cbn [filter]. rewrite A3, (proj2 (Nat.ltb_lt _ _) HT). cbn [map]. rewrite <- IH by (now inversion PS). f_equal.
      apply Forall_inv in PS. assert (Q := same_back names o ts PS A2 NO'). destruct ts as [h ob L d]. cbn [s_hidden s_observed s_length s_data] in *. subst.
      unfold read_back in *. cbn [s_hidden s_observed s_length s_data] in *. rewrite Q. f_equal.
      * symmetry. apply filter_all_false. intros v Hv. apply negb_false_iff, existsb_exists. exists v. split; [|apply Nat.eqb_refl].
        eapply Permutation_in; [symmetry; exact PO|]. now rewrite <- LN.
      * rewrite <- (map_id d) at 1. apply map_ext_in. intros row Hrow. rewrite Forall_forall in A5. assert (F := A5 row Hrow).
        rewrite <- (map_id row) at 1. clear - F. induction F as [|v z ob row Hz F IH]; [reflexivity|]. cbn [map]. f_equal; [lia|exact IH].
    + apply map_ext. intros b. apply series_ext; [|apply (states_at_named k1 k2 c net_text t NF names m P)]. now rewrite LN, named_len.
  - clear - HS. induction HS as [|i ts l ss (A1 & A2 & A3 & A4 & A5 & A6 & A7 & A8) HS IH]; constructor; auto.
Qed.
End Sample.
