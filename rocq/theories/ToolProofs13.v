(** * Proofs: how improbable the data can become while niptrain learns *)
From Coq Require Import String Ascii Permutation QArith.Qcanon Field.
From Verif Require Import Base BaseProofs StringSpec PotentialModel PotentialSpec PotentialProofs VariableModel AssignSpec AssignProofs
  JoinTreeModel JoinTreeSpec JoinTreeProofs NipModel NipSpec NipProofs NipProofs2 SliceModel SliceSpec SliceProofs SliceProofs2 SliceProofs4
  LearnModel LearnSpec LearnProofs2 LearnProofs3 LearnProofs4 LearnProofs5 FactorProofs SeriesFileModel SeriesFileSpec
  GraphModel ParseModel ParseSpec ParseProofs3 ParseProofs5 ParseProofs6 ParseProofs8 ParseProofs9
  NetLexModel NetGrammarModel NetSpec WriteSpec WriteProofs4 WriteProofs8 WriteProofs9 ToolModel ToolSpec ToolSpec3 ToolProofs ToolProofs9 ToolProofs10 ToolProofs11.
Import ListNotations.
Open Scope nat_scope.
Local Notation len := List.length.

Add Field Qcfield_tool13 : Qcft.

Lemma find_by : forall A (f : A -> nat) l d, NoDup (map f l) -> In d l -> find (fun x => Nat.eqb (f x) (f d)) l = Some d.
Proof.
  induction l as [|x l IH]; intros d ND I; [destruct I|]. cbn [map] in ND. inversion ND as [|? ? N1 N2]; subst. cbn [find].
  destruct (Nat.eqb_spec (f x) (f d)) as [E|E].
  - destruct I as [->|I]; [reflexivity|]. exfalso. apply N1. rewrite E. now apply in_map.
  - destruct I as [->|I]; [congruence|]. now apply IH.
Qed.
Lemma qprod_le : forall A (f g : A -> Qc) l, (forall x, In x l -> (0 <= f x)%Qc /\ (f x <= g x)%Qc) ->
  (0 <= qprod (map f l))%Qc /\ (qprod (map f l) <= qprod (map g l))%Qc.
Proof.
  induction l as [|x l IH]; intros H; [split; discriminate|]. cbn [map qprod fold_right].
  destruct (H x) as (H1 & H2); [now left|]. destruct IH as (I1 & I2); [intros; apply H; now right|]. split; [now apply Qc_mul_nonneg|].
  apply Qcle_trans with (g x * qprod (map f l))%Qc.
  - now apply Qcmult_le_compat_r.
  - change (g x * qprod (map f l) <= g x * qprod (map g l))%Qc. rewrite !(Qcmult_comm (g x)). apply Qcmult_le_compat_r; auto. apply Qcle_trans with (f x); auto.
Qed.
Lemma qsum_some : forall A (f : A -> Qc) l, qsum (map f l) <> 0%Qc -> exists x, In x l /\ f x <> 0%Qc.
Proof.
  induction l as [|x l IH]; intros H; [now destruct H|]. destruct (Qc_eq_dec (f x) 0%Qc) as [E|E]; [|exists x; split; auto; now left].
  destruct IH as (y & Hy & Ey); [|exists y; split; auto; now right]. intros K. apply H. cbn [map qsum fold_right]. fold (qsum (map f l)). rewrite E, K. ring.
Qed.
Lemma sumv_some : forall card vs f a, valid card a -> sumv card vs f a <> 0%Qc ->
  exists b, valid card b /\ (forall w, ~ In w vs -> b w = a w) /\ f b <> 0%Qc.
Proof.
  induction vs as [|v vs IH]; intros f a Ha H; [exists a; auto|]. cbn [sumv] in H. apply qsum_some in H. destruct H as (x & Hx & H). apply in_seq in Hx.
  destruct (IH f (upd a v x)) as (b & V & E & N); auto; [apply upd_valid; auto; lia|]. exists b. split; auto. split; auto.
  intros w Hw. rewrite E by (intros K; apply Hw; now right). unfold upd. destruct (Nat.eqb_spec w v) as [->|]; auto. exfalso. apply Hw. now left.
Qed.

Section Floor.
Variable t : net.
Hypothesis NO : net_ok t.
Local Notation card := (card_in t).
Local Notation n := (ParseSpec.size t).

Lemma same_number : forall u s, same_network t u -> ParseSpec.number u s = ParseSpec.number t s.
Proof. intros u s (A & _). unfold ParseSpec.number, symbols. now rewrite A. Qed.
Lemma same_card : forall u v, same_network t u -> card_in u v = card v.
Proof. intros u v (A & _). unfold card_in, node. now rewrite A. Qed.
Lemma same_size : forall u, same_network t u -> ParseSpec.size u = n.
Proof. intros u (A & _). unfold ParseSpec.size. now rewrite A. Qed.
Lemma same_next : forall u v, same_network t u -> next_in u v = next_in t v.
Proof. intros u v S. unfold next_in, node. destruct S as (A & B & C). rewrite A. destruct (nd_next _); cbn [option_map]; auto. f_equal. apply same_number. now split. Qed.

Definition alike (d d' : pot_decl) : Prop := pd_child d' = pd_child d /\ pd_parents d' = pd_parents d.
Lemma same_decls : forall u, same_network t u -> Forall2 alike (n_potentials t) (n_potentials u).
Proof.
  intros u (_ & B & C). revert B C. generalize (n_potentials t), (n_potentials u). induction l as [|d l IH]; intros [|d' l'] B C; try discriminate; constructor.
  - cbn in B, C. split; congruence.
  - cbn in B, C. apply IH; congruence.
Qed.
Lemma alike_child : forall u d d', same_network t u -> alike d d' -> child_of u d' = child_of t d.
Proof. intros u d d' S (A & _). unfold child_of. rewrite A. now apply same_number. Qed.
Lemma alike_parents : forall u d d', same_network t u -> alike d d' -> parents_of u d' = parents_of t d.
Proof. intros u d d' S (_ & A). unfold parents_of, given_symbols. rewrite A. apply map_ext. intros s. now apply same_number. Qed.
Lemma alike_decl : forall u v, same_network t u -> alike (decl_of t v) (decl_of u v).
Proof.
  intros u v S. unfold decl_of. assert (F := same_decls u S). induction F as [|d d' l l' A F IH]; [now split|]. cbn [find].
  rewrite (alike_child u d d' S A). destruct (Nat.eqb (child_of t d) v); auto.
Qed.
Lemma same_fam : forall u v, same_network t u -> family_of u (decl_of u v) = family_of t (decl_of t v).
Proof. intros u v S. unfold family_of. assert (A := alike_decl u v S). now rewrite (alike_child u _ _ S A), (alike_parents u _ _ S A). Qed.
Lemma same_children : forall u, same_network t u -> map (child_of u) (n_potentials u) = map (child_of t) (n_potentials t).
Proof.
  intros u S. assert (F := same_decls u S). induction F as [|d d' l l' A F IH]; auto. cbn [map]. rewrite IH. f_equal. now apply alike_child.
Qed.
Lemma same_before : forall u v, same_network t u -> from_before u v = from_before t v.
Proof.
  intros u v S. unfold from_before. rewrite same_next by auto. destruct (next_in t v); auto.
  assert (F := same_decls u S). induction F as [|d d' l l' A F IH]; auto. cbn [existsb]. rewrite IH. f_equal. now rewrite (alike_parents u d d').
Qed.
Local Notation kids := (map (child_of t) (n_potentials t)).
Definition counted (first : bool) (v : nat) : bool := (first || negb (from_before t v))%bool.
Lemma slice_entries : forall u first a, same_network t u ->
  slice u first a = qprod (map (fun v => WriteSpec.entry u v a) (filter (counted first) kids)).
Proof.
  intros u first a S. unfold slice. assert (K := same_children u S).
  assert (ND : NoDup (map (child_of u) (n_potentials u))).
  { rewrite K. eapply Permutation_NoDup; [symmetry; apply (children_perm t NO)|apply seq_NoDup]. }
  rewrite <- K.
  assert (G : forall l, (forall d, In d l -> In d (n_potentials u)) ->
     qprod (map (fun d => den (family_of u d) (table_of u d) a) (filter (fun d => (first || negb (from_before u (child_of u d)))%bool) l)) =
     qprod (map (fun v => WriteSpec.entry u v a) (filter (counted first) (map (child_of u) l)))).
  { induction l as [|d l IH]; intros H; [reflexivity|]. cbn [map filter]. unfold counted at 1. rewrite same_before by auto.
    assert (E : WriteSpec.entry u (child_of u d) a = den (family_of u d) (table_of u d) a).
    { unfold WriteSpec.entry, decl_of. now rewrite (find_by _ (child_of u)) by (auto; apply H; now left). }
    destruct (first || negb (from_before t (child_of u d)))%bool; cbn [map qprod fold_right]; [rewrite E; f_equal|]; apply IH; intros; apply H; now right. }
  apply G. auto.
Qed.

(** Every entry is at least 1 / A. *)
Definition floor (A : Qc) (u : net) : Prop := forall v x, v < n -> valid card x -> (1 <= A * WriteSpec.entry u v x)%Qc.
Lemma floor_more : forall A B u, positive_tables u -> same_network t u -> (A <= B)%Qc -> floor A u -> floor B u.
Proof.
  intros A B u PO S L F v x Hv Hx. eapply Qcle_trans; [exact (F v x Hv Hx)|]. apply Qcmult_le_compat_r; auto.
  apply Qclt_le_weak. apply PO; [now rewrite same_size|]. intros w. rewrite same_card by auto. apply Hx.
Qed.
Lemma floor_pos : forall A u, (0 < A)%Qc -> floor A u -> forall v x, v < n -> valid card x -> (1 / A <= WriteSpec.entry u v x)%Qc.
Proof.
  intros A u PA F v x Hv Hx. assert (K := F v x Hv Hx). apply Qcmult_le_compat_r with (z := (/ A)%Qc) in K.
  - replace (A * WriteSpec.entry u v x * / A)%Qc with (WriteSpec.entry u v x) in K; [exact K|]. field. now apply Qc_pos_neq.
  - apply Qclt_le_weak. now apply Qc_inv_pos.
Qed.

(** A series that is possible at all. *)
Definition course_fits (ts : series) (a : nat -> nat) : Prop :=
  valid (fun i => card (i mod n)) a /\ (forall i, s_length ts * n <= i -> a i = 0) /\
  forall s, s < s_length ts -> record_fits t ts s (at_step t a s) = true /\
    match s with 0 => True | S s' => follows t (at_step t a s') (at_step t a s) = true end.
Lemma kids_small : forall v, In v kids -> v < n.
Proof. intros v I. eapply Permutation_in in I; [|apply (children_perm t NO)]. apply in_seq in I. lia. Qed.
Lemma n_pos : 0 < n.
Proof. unfold ParseSpec.size. assert (K := no_nodes t NO). destruct (n_nodes t); [congruence|cbn; lia]. Qed.
Lemma at_step_valid : forall a s, valid (fun i => card (i mod n)) a -> valid card (at_step t a s).
Proof.
  intros a s H v. unfold at_step, moment. destruct (Nat.ltb_spec v n) as [L|L].
  - specialize (H (s * n + v)). cbn in H. rewrite Nat.add_comm, Nat.mod_add, Nat.mod_small in H by lia. rewrite Nat.add_comm. exact H.
  - now apply card_in_pos.
Qed.
Lemma same_follows : forall u a b, same_network t u -> follows u a b = follows t a b.
Proof.
  intros u a b S. unfold follows. rewrite same_size by auto. apply forallb_ext_in. intros v _. rewrite same_next by auto. destruct (next_in t v); auto. now rewrite same_before.
Qed.
Lemma same_fits : forall u ts s a, same_network t u -> record_fits u ts s a = record_fits t ts s a.
Proof. intros u ts s a S. unfold record_fits. now rewrite same_size. Qed.
Lemma same_step : forall u a s, same_network t u -> at_step u a s = at_step t a s.
Proof. intros u a s S. unfold at_step. now rewrite same_size. Qed.
Lemma course_eq : forall u ts a, same_network t u -> course u ts (s_length ts) (s_length ts) a =
  qprod (map (fun s => given (record_fits t ts s (at_step t a s))
     (given (match s with 0 => true | S s' => follows t (at_step t a s') (at_step t a s) end)
        (qprod (map (fun v => WriteSpec.entry u v (at_step t a s)) (filter (counted (Nat.eqb s 0)) kids))))) (seq 0 (s_length ts))).
Proof.
  intros u ts a S. unfold course. apply qprod_map_ext. intros s Hs. apply in_seq in Hs.
  rewrite (proj2 (Nat.ltb_lt s (s_length ts))) by lia. cbn [negb orb]. rewrite (same_step u a s S), same_fits, slice_entries by auto.
  destruct s as [|s']; [reflexivity|]. now rewrite (same_step u a s' S), same_follows.
Qed.
Lemma total_eq : forall u T f, same_network t u -> ToolSpec.total u T f = sumv (fun i => card (i mod n)) (seq 0 (T * n)) f (fun _ => 0).
Proof.
  intros u T f S. unfold ToolSpec.total. rewrite same_size by auto. f_equal.
  unfold card_in, node. destruct S as (-> & _). reflexivity.
Qed.
Lemma start_valid : valid (fun i => card (i mod n)) (fun _ => 0).
Proof. intros i. now apply card_in_pos. Qed.
Lemma possible_course : forall w ts, same_network t w -> evidence w ts (s_length ts) (s_length ts) <> 0%Qc -> exists a, course_fits ts a.
Proof.
  intros w ts S H. unfold evidence in H. rewrite total_eq in H by auto. apply sumv_some in H; [|exact start_valid].
  destruct H as (a & Va & OUT & H). exists a. split; auto. split.
  { intros i Hi. apply (OUT i). rewrite in_seq. lia. }
  intros s Hs. rewrite course_eq in H by auto.
  assert (I : In s (seq 0 (s_length ts))) by (apply in_seq; lia).
  assert (K := qprod_nonzero _ _ H (in_map _ _ s I)). cbv beta in K.
  destruct (record_fits t ts s (at_step t a s)); [|now destruct K]. split; auto. destruct s as [|s]; auto.
  destruct (follows t (at_step t a s) (at_step t a (Datatypes.S s))); auto; now destruct K.
Qed.

Lemma entry_nonneg : forall u v x, positive_tables u -> same_network t u -> v < n -> valid card x -> (0 <= WriteSpec.entry u v x)%Qc.
Proof.
  intros u v x PO S Hv Hx. apply Qclt_le_weak. apply PO; [now rewrite same_size|]. intros w. rewrite same_card by auto. apply Hx.
Qed.
Lemma course_nonneg : forall u ts a, positive_tables u -> same_network t u -> valid (fun i => card (i mod n)) a ->
  (0 <= course u ts (s_length ts) (s_length ts) a)%Qc.
Proof.
  intros u ts a PO S Va. rewrite course_eq by auto. apply qprod_nonneg. intros s _.
  apply given_nonneg, given_nonneg. apply qprod_nonneg. intros v Hv. apply filter_In in Hv.
  apply entry_nonneg; auto; [now apply kids_small|now apply at_step_valid].
Qed.
Lemma qprod_extensional : forall A (f : A -> (nat -> nat) -> Qc) l, (forall x, extensional (f x)) -> extensional (fun a => qprod (map (fun x => f x a) l)).
Proof. intros A f l H a b E. apply qprod_map_ext. intros x _. now apply H. Qed.
Lemma course_extensional : forall u ts, same_network t u -> extensional (course u ts (s_length ts) (s_length ts)).
Proof.
  intros u ts S a b E. rewrite !course_eq by auto.
  assert (M : forall s v, at_step t a s v = at_step t b s v). { intros s v. unfold at_step, moment. destruct (v <? n); auto. }
  apply qprod_map_ext. intros s _.
  assert (R : record_fits t ts s (at_step t a s) = record_fits t ts s (at_step t b s)).
  { unfold record_fits. apply forallb_ext_in. intros v _. now rewrite M. }
  assert (F : forall s', follows t (at_step t a s') (at_step t a s) = follows t (at_step t b s') (at_step t b s)).
  { intros s'. unfold follows. apply forallb_ext_in. intros v _. destruct (next_in t v); auto. now rewrite !M. }
  assert (Q : qprod (map (fun v => WriteSpec.entry u v (at_step t a s)) (filter (counted (Nat.eqb s 0)) kids)) =
              qprod (map (fun v => WriteSpec.entry u v (at_step t b s)) (filter (counted (Nat.eqb s 0)) kids))).
  { apply qprod_map_ext. intros v _. apply den_extensional. apply M. }
  rewrite R, Q. destruct s as [|s']; auto. now rewrite F.
Qed.

(** The least probability of the data. *)
Definition least_course (A : Qc) (ts : series) : Qc :=
  qprod (map (fun s => qprod (map (fun _ => (1 / A)%Qc) (filter (counted (Nat.eqb s 0)) kids))) (seq 0 (s_length ts))).
Definition least (A : Qc) (ss : list series) : Qc := qprod (map (least_course A) ss).
Lemma least_pos : forall A ss, (0 < A)%Qc -> (0 < least A ss)%Qc.
Proof.
  intros A ss PA. assert (P : (0 < 1 / A)%Qc) by (apply Qcdiv_pos; [reflexivity|auto]).
  unfold least. apply qprod_pos. intros ts _. unfold least_course. apply qprod_pos. intros s _. apply qprod_pos. auto.
Qed.
Lemma evidence_floor : forall A u ts, (0 < A)%Qc -> same_network t u -> positive_tables u -> floor A u -> (exists a, course_fits ts a) ->
  (least_course A ts <= evidence u ts (s_length ts) (s_length ts))%Qc.
Proof.
  intros A u ts PA S PO F (a & Va & OUT & H).
  assert (P : (0 <= 1 / A)%Qc) by (apply Qclt_le_weak, Qcdiv_pos; [reflexivity|auto]).
  apply Qcle_trans with (course u ts (s_length ts) (s_length ts) a).
  - rewrite course_eq by auto. unfold least_course. apply qprod_le. intros s Hs. apply in_seq in Hs.
    destruct (H s ltac:(lia)) as (R & FO). rewrite R. assert (K : match s with 0 => true | S s' => follows t (at_step t a s') (at_step t a s) end = true) by (destruct s; auto).
    rewrite K. cbn [given]. split; [apply qprod_nonneg; auto|]. apply qprod_le. intros v Hv. apply filter_In in Hv. split; auto.
    apply floor_pos; auto; [now apply kids_small|now apply at_step_valid].
  - unfold evidence. rewrite total_eq by auto.
    rewrite (sumv_base _ _ _ (fun _ => 0) a); [|now apply course_extensional|].
    2:{ intros i Hi. symmetry. apply OUT. rewrite in_seq in Hi. lia. }
    apply sumv_members; auto; [intros b Hb; now apply course_nonneg|now apply course_extensional].
Qed.
Lemma probability_floor : forall A u ss, (0 < A)%Qc -> same_network t u -> positive_tables u -> floor A u -> (forall ts, In ts ss -> exists a, course_fits ts a) ->
  (least A ss <= probability u ss)%Qc.
Proof.
  intros A u ss PA S PO F C. unfold least, probability. apply qprod_le. intros ts Hts. split; [|now apply evidence_floor; auto].
  assert (P : (0 <= 1 / A)%Qc) by (apply Qclt_le_weak, Qcdiv_pos; [reflexivity|auto]).
  unfold least_course. apply qprod_nonneg. intros s _. now apply qprod_nonneg.
Qed.
Lemma floor_positive : forall A u, (0 < A)%Qc -> same_network t u -> floor A u -> positive_tables u.
Proof.
  intros A u PA S F v x Hv Hx. rewrite same_size in Hv by auto. eapply Qclt_le_trans; [|apply floor_pos; eauto].
  - apply Qcdiv_pos; [reflexivity|auto].
  - intros w. rewrite <- (same_card u) by auto. apply Hx.
Qed.

Definition qn (k : nat) : Qc := Q2Qc (QArith_base.inject_Z (Z.of_nat k)).
Lemma qn_le : forall a b, a <= b -> (qn a <= qn b)%Qc.
Proof. intros a b H. unfold qn, Qcle. cbn [this Q2Qc]. rewrite !Qreduction.Qred_correct. unfold QArith_base.Qle. cbn. lia. Qed.
Lemma qn_pos : forall a, 0 < a -> (0 < qn a)%Qc.
Proof. intros a H. unfold qn, Qclt. cbn [this Q2Qc]. rewrite !Qreduction.Qred_correct. unfold QArith_base.Qlt. cbn. lia. Qed.
Lemma qn_nonneg : forall a, (0 <= qn a)%Qc.
Proof. intros a. change 0%Qc with (qn 0). apply qn_le. lia. Qed.
Lemma qsum_bound : forall A (f : A -> Qc) l M, (forall x, In x l -> (f x <= M)%Qc) -> (qsum (map f l) <= qn (len l) * M)%Qc.
Proof. intros A f l M H. unfold qn. rewrite <- qsum_const. now apply qsum_le_map. Qed.
Definition most_states : nat := list_sum (map card (seq 0 n)).
Lemma card_most : forall v, v < n -> card v <= most_states.
Proof.
  intros v Hv. unfold most_states. assert (I : In v (seq 0 n)) by (apply in_seq; lia). revert I. generalize (seq 0 n).
  induction l as [|w l IH]; intros I; [destruct I|]. cbn [map list_sum fold_right]. change (card v <= card w + list_sum (map card l)).
  destruct I as [->|I]; [lia|]. specialize (IH I). lia.
Qed.
Lemma most_pos : 0 < most_states.
Proof. assert (K := card_most 0 n_pos). assert (C := card_in_pos t NO 0). lia. Qed.
Lemma column_bound : forall v f x M, v < n -> (0 <= M)%Qc -> valid card x -> (forall y, valid card y -> (f y <= M)%Qc) ->
  (sumv card [v] f x <= qn most_states * M)%Qc.
Proof.
  intros v f x M Hv HM Hx H. cbn [sumv]. eapply Qcle_trans.
  - apply qsum_bound with (M := M). intros k Hk. apply in_seq in Hk. apply H. apply upd_valid; auto. lia.
  - rewrite seq_length. apply Qcmult_le_compat_r; auto. apply qn_le. now apply card_most.
Qed.
Lemma share : forall A f s, (0 < s)%Qc -> (s <= A * f)%Qc -> (1 <= A * (f / s))%Qc.
Proof.
  intros A f s Hs H. apply Qcmult_le_compat_r with (z := (/ s)%Qc) in H.
  - replace (s * / s)%Qc with 1%Qc in H by (field; now apply Qc_pos_neq). replace (A * (f / s))%Qc with (A * f * / s)%Qc; auto. field. now apply Qc_pos_neq.
  - apply Qclt_le_weak. now apply Qc_inv_pos.
Qed.

Variable ss : list series.
Hypothesis POSS : forall ts, In ts ss -> exists a, course_fits ts a.
Definition steps : nat := list_sum (map s_length ss).
Lemma chance_bounds : forall u ts s v x A, (0 < A)%Qc -> same_network t u -> floor A u -> In ts ss ->
  (0 <= family_chance u ts s v x)%Qc /\ (family_chance u ts s v x <= 1)%Qc.
Proof.
  intros u ts s v x A PA S F I. assert (PO := floor_positive A u PA S F).
  assert (E := evidence_floor A u ts PA S PO F (POSS ts I)).
  assert (E0 : (0 < evidence u ts (s_length ts) (s_length ts))%Qc).
  { eapply Qclt_le_trans; [|exact E]. assert (P : (0 < 1 / A)%Qc) by (apply Qcdiv_pos; [reflexivity|auto]).
    unfold least_course. apply qprod_pos. intros k _. now apply qprod_pos. }
  unfold family_chance. rewrite total_eq by auto.
  match goal with |- (0 <= ?a / _)%Qc /\ _ => set (part := a) end.
  assert (P0 : (0 <= part)%Qc).
  { unfold part. apply sumv_nonneg; [exact start_valid|]. intros b Hb. apply given_nonneg. now apply course_nonneg. }
  split.
  - unfold Qcdiv. apply Qc_mul_nonneg; auto. apply Qclt_le_weak. now apply Qc_inv_pos.
  - apply Qc_part_le; auto. unfold part, evidence. rewrite total_eq by auto. apply sumv_le; [exact start_valid|]. intros b Hb.
    match goal with |- (given ?c _ <= _)%Qc => destruct c end; cbn [given]; [apply Qcle_refl|now apply course_nonneg].
Qed.
Lemma qn_sum : forall A (f : A -> nat) l, qn (list_sum (map f l)) = qsum (map (fun x => qn (f x)) l).
Proof.
  induction l as [|x l IH]; [reflexivity|]. cbn [map list_sum fold_right qsum]. fold (list_sum (map f l)). fold (qsum (map (fun x => qn (f x)) l)). rewrite <- IH.
  unfold qn. apply Qc_is_canon. cbn [this Qcplus Q2Qc]. rewrite !Qreduction.Qred_correct. rewrite Nat2Z.inj_add, QArith_base.inject_Z_plus. reflexivity.
Qed.
Lemma count_bounds : forall u v x A, (0 < A)%Qc -> same_network t u -> floor A u ->
  (0 <= expected_count u ss v x)%Qc /\ (expected_count u ss v x <= qn steps)%Qc.
Proof.
  intros u v x A PA S F. unfold expected_count, steps. rewrite qn_sum. split.
  - apply qsum_nonneg. intros q Hq. apply in_map_iff in Hq. destruct Hq as (ts & <- & I). apply qsum_nonneg. intros q Hq.
    apply in_map_iff in Hq. destruct Hq as (s & <- & _). apply given_nonneg. now apply (chance_bounds u ts s v x A).
  - apply qsum_le_map. intros ts I. eapply Qcle_trans.
    + apply qsum_bound with (M := 1%Qc). intros s _. destruct (chance_bounds u ts s v x A PA S F I) as (_ & K).
      match goal with |- (given ?c _ <= _)%Qc => destruct c end; cbn [given]; [exact K|discriminate].
    + rewrite seq_length, Qcmult_1_r. apply Qcle_refl.
Qed.
Lemma next_floor : forall A u w, (0 < A)%Qc -> (qn most_states * (1 + qn steps) <= A)%Qc -> same_network t u -> floor A u -> next_estimate ss u w -> floor A w.
Proof.
  intros A u w PA LA S F (_ & H) v x Hv Hx. rewrite H by (first [now rewrite same_size|intros k; rewrite same_card by auto; apply Hx]).
  assert (CB := fun y => count_bounds u v y A PA S F).
  assert (EC : card_in u = card) by (unfold card_in, node; now destruct S as (-> & _)). rewrite EC.
  apply share.
  - apply sumv_pos; auto; [intro; now apply card_in_pos|]. intros b _. apply Qcplus_pos; [reflexivity|apply CB].
  - eapply Qcle_trans; [apply column_bound with (M := (1 + qn steps)%Qc); auto|].
    + apply Qclt_le_weak, Qcplus_pos; [reflexivity|apply qn_nonneg].
    + intros y _. apply Qcplus_le_compat; [apply Qcle_refl|apply CB].
    + eapply Qcle_trans; [exact LA|]. rewrite <- (Qcmult_1_r A) at 1. rewrite !(Qcmult_comm A). apply Qcmult_le_compat_r; [|now apply Qclt_le_weak].
      rewrite <- (Qcplus_0_r 1) at 1. apply Qcplus_le_compat; [apply Qcle_refl|apply CB].
Qed.

Variable A : Qc.
Hypothesis PA : (0 < A)%Qc.
Hypothesis LA : (qn most_states * (1 + qn steps) <= A)%Qc.
Variable rnd : nat -> nat -> nat -> nat -> Qc.
Variables lo hi : Qc.
Hypothesis LO : (0 < lo)%Qc.
Hypothesis BETWEEN : forall i k v x, (lo <= rnd i k v x)%Qc /\ (rnd i k v x <= hi)%Qc.
Hypothesis RA : (qn most_states * hi <= A * lo)%Qc.
Variable file : bool.
Hypothesis FA : file = true -> floor A t.

Lemma network_trans : forall u w, same_network t u -> same_network u w -> same_network t w.
Proof. intros u w (A1 & A2 & A3) (B1 & B2 & B3). repeat split; congruence. Qed.
Lemma random_floor : forall i k u, random_tables (rnd i k) t u -> floor A u.
Proof.
  intros i k u (_ & H) v x Hv Hx. rewrite H by auto. cbv zeta.
  set (f := fun y => rnd i k v _).
  assert (HI : (0 <= hi)%Qc). { destruct (BETWEEN i k v 0) as (B1 & B2). apply Qcle_trans with lo; [now apply Qclt_le_weak|eapply Qcle_trans; eauto]. }
  apply share.
  - apply sumv_pos; auto; [intro; now apply card_in_pos|]. intros b _. eapply Qclt_le_trans; [exact LO|apply BETWEEN].
  - eapply Qcle_trans; [apply column_bound with (M := hi); auto|].
    + intros y _. apply BETWEEN.
    + eapply Qcle_trans; [exact RA|]. rewrite !(Qcmult_comm A). apply Qcmult_le_compat_r; [|now apply Qclt_le_weak]. apply BETWEEN.
Qed.
Lemma most_A : (qn most_states <= A)%Qc.
Proof.
  eapply Qcle_trans; [|exact LA]. rewrite <- (Qcmult_1_r (qn most_states)) at 1. rewrite !(Qcmult_comm (qn most_states)). apply Qcmult_le_compat_r; [|apply qn_nonneg].
  rewrite <- (Qcplus_0_r 1) at 1. apply Qcplus_le_compat; [apply Qcle_refl|apply qn_nonneg].
Qed.
Lemma without_floor : forall w u, same_network t w -> floor A w -> without_priors w u -> floor A u.
Proof.
  intros w u S F (_ & H) v x Hv Hx. rewrite H by (first [now rewrite same_size|intros k; rewrite same_card by auto; apply Hx]).
  destruct (parents_of w (decl_of w v)); [|now apply F]. rewrite same_card by auto. fold (qn (card v)).
  apply share; [apply qn_pos; now apply card_in_pos|]. rewrite Qcmult_1_r. eapply Qcle_trans; [apply qn_le, card_most; auto|apply most_A].
Qed.
Lemma estimates_floor : forall u l w, estimates ss u l w -> same_network t u -> floor A u ->
  floor A w /\ Forall (fun q => (least A ss <= q)%Qc) l.
Proof.
  induction 1 as [u|u w l z N E IH]; intros S F.
  - split; auto. constructor; auto. apply probability_floor; auto. now apply (floor_positive A).
  - assert (FW := next_floor A u w PA LA S F N). destruct IH as (I1 & I2); auto; [eapply network_trans; eauto; apply N|]. split; auto. constructor; auto.
    apply probability_floor; auto. now apply (floor_positive A).
Qed.
Scheme learned_both := Minimality for learned Sort Prop
  with started_both := Minimality for started Sort Prop.
Lemma started_floor : forall u, started rnd ss t file u -> same_network t u /\ floor A u.
Proof.
  apply (started_both rnd ss t file (fun u => same_network t u /\ floor A u) (fun u => same_network t u /\ floor A u)).
  - intros u E S H. split; auto. intros v x Hv Hx. rewrite H by auto. now apply FA.
  - intros u1 l u _ (S & F) E. split; [eapply network_trans; eauto; eapply estimates_network; eauto|]. now apply (estimates_floor u1 l u E S).
  - intros i k u H. split; [apply H|eapply random_floor; eauto].
  - intros w u _ (S & F) H. split; [eapply network_trans; eauto; apply H|]. now apply (without_floor w).
Qed.
Lemma learning_floor : forall u1 l u, started rnd ss t file u1 -> estimates ss u1 l u -> (least A ss <= probability u ss)%Qc.
Proof.
  intros u1 l u ST E. destruct (started_floor u1 ST) as (S & F). destruct (estimates_floor u1 l u E S F) as (F2 & _).
  assert (S2 : same_network t u) by (eapply network_trans; eauto; eapply estimates_network; eauto).
  apply probability_floor; auto. now apply (floor_positive A).
Qed.
End Floor.

Lemma file_floor : forall t, net_ok t -> positive_tables t -> exists F, (0 <= F)%Qc /\ floor t F t.
Proof.
  intros t NO PT. set (f := fun v y => (1 / WriteSpec.entry t v y)%Qc). set (z := fun _ : nat => 0).
  assert (Z : valid (card_in t) z) by (intro; now apply card_in_pos).
  assert (FN : forall v, v < ParseSpec.size t -> forall b, valid (card_in t) b -> (0 <= f v b)%Qc).
  { intros v Hv b Hb. apply Qclt_le_weak. unfold f. apply Qcdiv_pos; [reflexivity|]. now apply PT. }
  exists (qsum (map (fun v => sumv (card_in t) (family_of t (decl_of t v)) (f v) z) (seq 0 (ParseSpec.size t)))).
  assert (TN : forall v, In v (seq 0 (ParseSpec.size t)) -> (0 <= sumv (card_in t) (family_of t (decl_of t v)) (f v) z)%Qc).
  { intros v Hv. apply in_seq in Hv. apply sumv_nonneg; auto. apply FN. lia. }
  split; [apply qsum_nonneg; intros q Hq; apply in_map_iff in Hq; destruct Hq as (v & <- & Hv); auto|].
  intros v x Hv Hx. assert (E0 := PT v x Hv Hx).
  assert (K : (f v x <= sumv (card_in t) (family_of t (decl_of t v)) (f v) z)%Qc).
  { assert (D : dep (family_of t (decl_of t v)) (f v)).
    { intros a b Hab. unfold f, WriteSpec.entry. apply (f_equal (fun q => (1 / q)%Qc)). now apply den_dep. }
    rewrite (sumv_dep_arg (card_in t) (family_of t (decl_of t v)) (family_of t (decl_of t v)) (f v) z x); auto.
    - apply sumv_members; auto. intros a b Hab. apply D. auto.
    - intros w Hw K. exfalso. auto. }
  assert (K2 : (sumv (card_in t) (family_of t (decl_of t v)) (f v) z <= qsum (map (fun v => sumv (card_in t) (family_of t (decl_of t v)) (f v) z) (seq 0 (ParseSpec.size t))))%Qc).
  { apply qsum_member.
    - intros q Hq. apply in_map_iff in Hq. destruct Hq as (w & <- & Hw). auto.
    - apply (in_map (fun v => sumv (card_in t) (family_of t (decl_of t v)) (f v) z)). apply in_seq. lia. }
  eapply Qcle_trans in K2; [|exact K]. apply Qcmult_le_compat_r with (z := WriteSpec.entry t v x) in K2; [|now apply Qclt_le_weak].
  replace (f v x * WriteSpec.entry t v x)%Qc with 1%Qc in K2; auto. unfold f. field. now apply Qc_pos_neq.
Qed.
