(** * Learning never lowers the weighted probability *)
From Coq Require Import Permutation QArith.Qcanon Field.
From Verif Require Import Base BaseProofs StringSpec PotentialModel PotentialSpec PotentialProofs VariableModel AssignSpec AssignProofs
  JoinTreeModel JoinTreeSpec JoinTreeProofs NipModel NipSpec NipProofs NipProofs2 SliceModel SliceSpec SliceProofs SliceProofs2 SliceProofs4
  LearnModel LearnSpec LearnProofs2 LearnProofs3 LearnProofs4 LearnProofs5 FactorProofs SeriesFileModel SeriesFileSpec
  GraphModel ParseModel ParseSpec ParseProofs3 ParseProofs5 ParseProofs6 ParseProofs8 ParseProofs9
  NetLexModel NetGrammarModel NetSpec WriteSpec WriteProofs4 WriteProofs8 WriteProofs9 ToolModel ToolSpec ToolSpec3 ToolProofs ToolProofs9 ToolProofs10 ToolProofs11
  ToolProofs13 ToolSpec4 EmProofs.
Import ListNotations.
Open Scope nat_scope.
Local Notation len := List.length.

Add Field Qcfield_em2 : Qcft.

(** ** Enumerating assignments *)
Section Enum.
Variable card : nat -> nat.
Fixpoint enum (vs : list nat) (a : nat -> nat) : list (nat -> nat) :=
  match vs with
  | [] => [a]
  | v :: vs => flat_map (fun x => enum vs (upd a v x)) (seq 0 (card v))
  end.
Lemma enum_sum : forall vs f a, sumv card vs f a = qsum (map f (enum vs a)).
Proof.
  induction vs as [|v vs IH]; intros f a; cbn [sumv enum].
  - cbn [map]. rewrite qsum_cons. change (qsum []) with 0%Qc. ring.
  - rewrite qsum_flat. apply qsum_map_ext. intros x _. apply IH.
Qed.
Lemma enum_valid : forall vs a b, valid card a -> In b (enum vs a) -> valid card b.
Proof.
  induction vs as [|v vs IH]; intros a b V I; cbn [enum] in I; [destruct I as [<-|[]]; auto|]. apply in_flat_map in I. destruct I as (x & Hx & I).
  apply in_seq in Hx. apply (IH (upd a v x)); auto. apply upd_valid; auto. lia.
Qed.
End Enum.

Lemma ix_eqb_iff : forall a b, ix_eqb a b = true <-> a = b.
Proof. intros a b. unfold ix_eqb. destruct (list_eq_dec Nat.eq_dec a b); split; congruence. Qed.
Lemma ix_eqb_maps : forall (a x : nat -> nat) l, ix_eqb (map a l) (map x l) = forallb (fun v => Nat.eqb (a v) (x v)) l.
Proof.
  intros a x l. apply eq_true_iff_eq. rewrite ix_eqb_iff, forallb_forall. split.
  - intros E v I. apply Nat.eqb_eq. now apply (ext_in_map E).
  - intros E. apply map_ext_in. intros v I. now apply Nat.eqb_eq, E.
Qed.
Lemma qn_b2n : forall b, qn (b2n b) = given b 1%Qc.
Proof. intros []; reflexivity. Qed.

Section Step.
Variable t : net.
Hypothesis NO : net_ok t.
Local Notation card := (card_in t).
Local Notation n := (ParseSpec.size t).
Local Notation kids := (map (child_of t) (n_potentials t)).
Local Notation fam v := (family_of t (decl_of t v)).
Local Notation cc := (fun i => card (i mod n)).
Variables u w : net.
Variable ss : list series.
Hypothesis SU : same_network t u.
Hypothesis PU : positive_tables u.
Hypothesis PR : proper u.
Hypothesis PP : forall ts, In ts ss -> (0 < evidence u ts (s_length ts) (s_length ts))%Qc.
Hypothesis NX : next_estimate ss u w.

Lemma SW : same_network t w.
Proof. exact (network_trans t u w SU (proj1 NX)). Qed.
Local Hint Resolve SW : core.
Definition theta (z : net) (v : nat) (ix : list nat) : Qc := cell (table_of z (decl_of z v)) ix.
Lemma entry_theta : forall z v x, same_network t z -> WriteSpec.entry z v x = theta z v (map x (fam v)).
Proof. intros z v x S. unfold WriteSpec.entry, den, theta. now rewrite (same_fam t). Qed.
Lemma card_same : card_in u = card.
Proof. unfold card_in, node. now rewrite (proj1 SU). Qed.
Lemma fam_nodup : forall v, v < n -> NoDup (fam v).
Proof. intros v Hv. apply (ParseProofs3.family_nodup t). apply (no_decl t NO). now apply (decl_of_ok t NO). Qed.
Lemma fam_head : forall v, v < n -> fam v = v :: parents_of t (decl_of t v).
Proof. intros v Hv. unfold family_of. f_equal. now apply (decl_of_ok t NO). Qed.
Definition cells : list (nat * list nat) := flat_map (fun v => map (pair v) (all_ix (map card (fam v)))) kids.
Lemma card_pos : forall v, 0 < card v.
Proof. intros v. now apply card_in_pos. Qed.
Lemma cell_assignment : forall v ix, v < n -> In ix (all_ix (map card (fam v))) -> exists x, valid card x /\ map x (fam v) = ix.
Proof.
  intros v ix Hv I. apply all_ix_valid in I. destruct (ix_assignment card (fam v) ix (fun _ => 0) (fam_nodup v Hv)) as (x & V & E & _); eauto.
  intros k. apply card_pos.
Qed.
Lemma in_cells : forall v ix, In (v, ix) cells -> v < n /\ In ix (all_ix (map card (fam v))).
Proof.
  intros v ix I. unfold cells in I. apply in_flat_map in I. destruct I as (v' & Hv & I). apply in_map_iff in I. destruct I as (ix' & E & I).
  injection E as <- <-. split; auto. now apply (kids_small t NO).
Qed.

Lemma evidence_nonneg : forall ts, (0 <= evidence u ts (s_length ts) (s_length ts))%Qc.
Proof.
  intros ts. unfold evidence. rewrite (total_eq t) by auto. apply sumv_nonneg; [exact (start_valid t NO)|]. intros b Vb. apply (course_nonneg t NO); auto.
Qed.
Lemma chance_nonneg : forall ts s v x, (0 <= family_chance u ts s v x)%Qc.
Proof.
  intros ts s v x. unfold family_chance, Qcdiv. apply Qc_mul_nonneg; [|apply Qc_inv_nonneg, evidence_nonneg].
  rewrite (total_eq t) by auto. apply sumv_nonneg; [exact (start_valid t NO)|]. intros b Vb. apply given_nonneg. apply (course_nonneg t NO); auto.
Qed.
Lemma count_nonneg : forall v x, (0 <= expected_count u ss v x)%Qc.
Proof.
  intros v x. unfold expected_count. apply qsum_nonneg. intros q Hq. apply in_map_iff in Hq. destruct Hq as (ts & <- & I).
  apply qsum_nonneg. intros q Hq. apply in_map_iff in Hq. destruct Hq as (s & <- & _). apply given_nonneg. now apply chance_nonneg.
Qed.
Lemma more_pos : forall v x, (0 < 1 + expected_count u ss v x)%Qc.
Proof. intros v x. apply Qcplus_pos; [reflexivity|apply count_nonneg]. Qed.
Lemma next_entry : forall v x, v < n -> valid card x -> WriteSpec.entry w v x = ((1 + expected_count u ss v x) / sumv card [v] (fun y => 1 + expected_count u ss v y) x)%Qc.
Proof. intros v x Hv Hx. destruct NX as (_ & H). rewrite H, card_same; auto; [now rewrite (same_size t)|now rewrite card_same]. Qed.
Lemma next_pos : forall v x, v < n -> valid card x -> (0 < WriteSpec.entry w v x)%Qc.
Proof.
  intros v x Hv Hx. rewrite next_entry by auto. apply Qcdiv_pos; [apply more_pos|]. apply sumv_pos; auto using card_pos. intros; apply more_pos.
Qed.
Lemma old_pos : forall v x, v < n -> valid card x -> (0 < WriteSpec.entry u v x)%Qc.
Proof. intros v x Hv Hx. apply PU; [now rewrite (same_size t)|now rewrite card_same]. Qed.
Lemma theta_pos : forall v ix, v < n -> In ix (all_ix (map card (fam v))) -> (0 < theta u v ix)%Qc /\ (0 < theta w v ix)%Qc.
Proof.
  intros v ix Hv I. destruct (cell_assignment v ix Hv I) as (x & Vx & <-). rewrite <- !entry_theta by auto. split; [now apply old_pos|now apply next_pos].
Qed.
Definition rho (c : nat * list nat) : Qc := (theta w (fst c) (snd c) / theta u (fst c) (snd c))%Qc.
Lemma rho_pos : forall c, In c cells -> (0 < rho c)%Qc.
Proof. intros (v, ix) I. apply in_cells in I. destruct I as (Hv & I). destruct (theta_pos v ix Hv I). now apply Qcdiv_pos. Qed.
Lemma family_ix : forall v x, valid card x -> In (map x (fam v)) (all_ix (map card (fam v))).
Proof. intros v x V. apply all_ix_valid. unfold valid_ix. induction (fam v); cbn; constructor; auto. Qed.

(** How often a cell is used by a course. *)
Definition used (h : nat -> nat) (c : nat * list nat) (s : nat) : bool :=
  (counted t (Nat.eqb s 0) (fst c) && ix_eqb (map (at_step t h s) (fam (fst c))) (snd c))%bool.
Definition cnt (ts : series) (h : nat -> nat) (c : nat * list nat) : nat := list_sum (map (fun s => b2n (used h c s)) (seq 0 (s_length ts))).
Lemma ratio_steps : forall ts h, valid cc h ->
  ratio _ _ cells (cnt ts) rho h =
  qprod (map (fun s => qprod (map (fun v => rho (v, map (at_step t h s) (fam v))) (filter (counted t (Nat.eqb s 0)) kids))) (seq 0 (s_length ts))).
Proof.
  intros ts h V. unfold ratio, cnt. rewrite (qprod_map_ext _ _ (fun c => qprod (map (fun s => pw (rho c) (b2n (used h c s))) (seq 0 (s_length ts))))) by (intros; apply pw_sum).
  rewrite (qprod_swap _ _ (fun c s => pw (rho c) (b2n (used h c s)))). apply qprod_map_ext. intros s _. unfold cells. rewrite qprod_flat, qprod_filter.
  apply qprod_map_ext. intros v Hv. rewrite map_map. unfold used. cbn [fst snd]. destruct (counted t (Nat.eqb s 0) v); cbn [andb].
  - apply (qprod_single _ ix_eqb (fun ix => rho (v, ix))); [exact ix_eqb_iff|apply all_ix_NoDup|]. apply family_ix. now apply (at_step_valid t NO).
  - now apply qprod_one.
Qed.
Lemma course_ratio : forall ts h, valid cc h ->
  course w ts (s_length ts) (s_length ts) h = (course u ts (s_length ts) (s_length ts) h * ratio _ _ cells (cnt ts) rho h)%Qc.
Proof.
  intros ts h V. rewrite ratio_steps by auto. rewrite !(course_eq t NO) by auto. rewrite <- qprod_map_mul. apply qprod_map_ext. intros s _.
  rewrite !given_mul. do 2 f_equal. rewrite <- qprod_map_mul. apply qprod_map_ext. intros v Hv. apply filter_In in Hv. destruct Hv as (Hv & _).
  apply (kids_small t NO) in Hv. assert (Va := at_step_valid t NO h s V). unfold rho. cbn [fst snd]. rewrite <- !entry_theta by auto.
  assert (K := Qc_pos_neq _ (old_pos v _ Hv Va)). field. exact K.
Qed.

Definition hs (ts : series) : list (nat -> nat) := enum cc (seq 0 (s_length ts * n)) (fun _ => 0).
Local Notation cu ts := (course u ts (s_length ts) (s_length ts)).
Local Notation eu ts := (evidence u ts (s_length ts) (s_length ts)).
Local Notation ew ts := (evidence w ts (s_length ts) (s_length ts)).
Lemma hs_valid : forall ts h, In h (hs ts) -> valid cc h.
Proof. intros ts h I. eapply enum_valid; [|exact I]. exact (start_valid t NO). Qed.
Lemma evidence_hs : forall z ts, same_network t z -> evidence z ts (s_length ts) (s_length ts) = qsum (map (course z ts (s_length ts) (s_length ts)) (hs ts)).
Proof. intros z ts S. unfold evidence. rewrite (total_eq t) by auto. apply enum_sum. Qed.
Lemma ew_pos : forall ts, In ts ss -> (0 < ew ts)%Qc.
Proof.
  intros ts I. assert (K := PP ts I). rewrite evidence_hs in * by auto.
  assert (NN : forall h, In h (hs ts) -> (0 <= cu ts h)%Qc) by (intros h Hh; apply (course_nonneg t NO); eauto using hs_valid).
  assert (RP := fun h => ratio_pos _ _ cells (cnt ts) rho rho_pos h).
  destruct (Qclt_le_dec 0 (qsum (map (course w ts (s_length ts) (s_length ts)) (hs ts)))) as [L|L]; auto. exfalso.
  apply (Qc_pos_neq _ K). apply qsum_map_zero. intros h Hh.
  assert (Z : course w ts (s_length ts) (s_length ts) h = 0%Qc).
  { apply Qcle_antisym.
    - eapply Qcle_trans; [|exact L]. apply qsum_member; [|now apply in_map]. intros y Hy. apply in_map_iff in Hy. destruct Hy as (x & <- & Hx).
      rewrite course_ratio by eauto using hs_valid. apply Qc_mul_nonneg; auto. now apply Qclt_le_weak.
    - rewrite course_ratio by eauto using hs_valid. apply Qc_mul_nonneg; auto. now apply Qclt_le_weak. }
  rewrite course_ratio in Z by eauto using hs_valid. apply Qcmult_integral in Z. destruct Z as [Z|Z]; auto. exfalso. exact (Qc_pos_neq _ (RP h) Z).
Qed.

(** Numbers of observations. *)
Variable k : nat.
Hypothesis K0 : 0 < k.
Definition nh (ts : series) (h : nat -> nat) : nat := nat_of (qn k * (cu ts h / eu ts))%Qc.
Hypothesis NH : forall ts h, In ts ss -> In h (hs ts) -> qn (nh ts h) = (qn k * (cu ts h / eu ts))%Qc.
Definition uses (ts : series) (c : nat * list nat) : nat := list_sum (map (fun h => nh ts h * cnt ts h c) (hs ts)).
Definition all_uses (c : nat * list nat) : nat := list_sum (map (fun ts => uses ts c) ss).
Lemma e_half : (qprod (map (fun c => pw (rho c) (all_uses c)) cells) <= pw (probability w ss / probability u ss) k)%Qc.
Proof.
  unfold all_uses. rewrite (qprod_map_ext _ _ (fun c => qprod (map (fun ts => pw (rho c) (uses ts c)) ss))) by (intros; apply pw_sum).
  rewrite (qprod_swap _ _ (fun c ts => pw (rho c) (uses ts c))).
  assert (E : (probability w ss / probability u ss)%Qc = qprod (map (fun ts => ew ts / eu ts)%Qc ss)).
  { unfold probability. clear NH. revert PP. clear. induction ss as [|ts l IH]; intros PP; [cbn; field; discriminate|]. cbn [map]. rewrite !qprod_cons.
    rewrite <- IH by (intros; apply PP; now right). assert (A := Qc_pos_neq _ (PP ts (or_introl eq_refl))).
    assert (B : qprod (map (fun ts => eu ts) l) <> 0%Qc). { apply Qc_pos_neq, qprod_pos. intros x I. apply PP. now right. }
    field. auto. }
  rewrite E, pw_qprod. apply qprod_le. intros ts I. split.
  - apply Qclt_le_weak, qprod_pos. intros c Hc. apply pw_pos. now apply rho_pos.
  - unfold uses. apply e_step with (f := cu ts); auto.
    + exact rho_pos.
    + symmetry. now apply evidence_hs.
    + rewrite (evidence_hs w ts SW). apply qsum_map_ext. intros h Hh. symmetry. apply course_ratio. eauto using hs_valid.
    + now apply ew_pos.
Qed.
Lemma qn_uses : forall v x, v < n -> qn (all_uses (v, map x (fam v))) = (qn k * expected_count u ss v x)%Qc.
Proof.
  intros v x Hv. unfold all_uses, expected_count. rewrite qn_sum, <- qsum_map_scale. apply qsum_map_ext. intros ts I.
  unfold uses. rewrite qn_sum.
  rewrite (qsum_map_ext _ _ (fun h => qsum (map (fun s => given (counted t (Nat.eqb s 0) v)
     (given (forallb (fun z => Nat.eqb (at_step t h s z) (x z)) (fam v)) (cu ts h)) * (qn k / eu ts)) (seq 0 (s_length ts))))%Qc).
  - rewrite (qsum_swap _ _ (fun h s => given (counted t (Nat.eqb s 0) v)
     (given (forallb (fun z => Nat.eqb (at_step t h s z) (x z)) (fam v)) (cu ts h)) * (qn k / eu ts))%Qc).
    rewrite <- qsum_map_scale. apply qsum_map_ext. intros s _.
    rewrite qsum_map_scale_r. unfold family_chance. rewrite (total_eq t) by auto. rewrite enum_sum. fold (hs ts).
    unfold counted. rewrite (same_before t u) by auto. rewrite (same_fam t u) by auto.
    rewrite (qsum_map_ext _ (fun h => given (forallb (fun z => Nat.eqb (at_step u h s z) (x z)) (fam v)) (cu ts h))
       (fun h => given (forallb (fun z => Nat.eqb (at_step t h s z) (x z)) (fam v)) (cu ts h))) by (intros; now rewrite (same_step t u)).
    assert (B := Qc_pos_neq _ (PP ts I)).
    destruct (Nat.eqb s 0 || negb (from_before t v))%bool; cbn [given].
    + field. exact B.
    + rewrite qsum_map_zero by auto. ring.
  - intros h Hh. rewrite qn_mul, NH by auto. unfold cnt. rewrite qn_sum, <- qsum_map_scale. apply qsum_map_ext. intros s _.
    rewrite qn_b2n. unfold used. cbn [fst snd]. rewrite ix_eqb_maps. assert (B := Qc_pos_neq _ (PP ts I)).
    destruct (counted t (Nat.eqb s 0) v); cbn [andb given]; [|ring]. destruct (forallb _ (fam v)); cbn [given]; [field; exact B|ring].
Qed.
Lemma expected_ext : forall v x y, (forall z, x z = y z) -> expected_count u ss v x = expected_count u ss v y.
Proof.
  intros v x y E. unfold expected_count, family_chance. apply qsum_map_ext. intros ts _. apply qsum_map_ext. intros s _. do 2 f_equal.
  rewrite !(total_eq t) by auto. rewrite !enum_sum. apply qsum_map_ext. intros h _. f_equal. apply forallb_ext_in. intros z _. now rewrite E.
Qed.
Lemma entry_sum : forall v a, v < n -> valid card a -> sumv card [v] (WriteSpec.entry u v) a = 1%Qc.
Proof.
  intros v a Hv Va. assert (C : child_of u (decl_of u v) = v).
  { rewrite (alike_child t u (decl_of t v)) by (auto using alike_decl). now apply (decl_of_ok t NO). }
  assert (I : In (decl_of u v) (n_potentials u)).
  { assert (K : In v (map (child_of u) (n_potentials u))).
    { rewrite (same_children t) by auto. apply in_map_iff. exists (decl_of t v). destruct (decl_of_ok t NO v Hv). auto. }
    unfold decl_of. destruct (find (fun d => Nat.eqb (child_of u d) v) (n_potentials u)) eqn:F; [now apply find_some in F|].
    apply in_map_iff in K. destruct K as (d & <- & K). apply find_none with (x := d) in F; auto. now rewrite Nat.eqb_refl in F. }
  assert (P := PR (decl_of u v) a I). rewrite C, card_same in P. exact (P Va).
Qed.
Lemma m_half : (1 <= qprod (map (fun c => pw (rho c) (k + all_uses c)) cells))%Qc.
Proof.
  unfold cells. rewrite qprod_flat. apply qprod_ge1. intros v Hv. apply (kids_small t NO) in Hv. rewrite map_map.
  assert (ND := fam_nodup v Hv). rewrite fam_head in * by auto. set (ps := parents_of t (decl_of t v)) in *. inversion ND as [|? ? NV NP]; subst.
  cbn [map all_ix]. rewrite qprod_flat. apply qprod_ge1. intros tl Htl. rewrite map_map.
  apply all_ix_valid in Htl. destruct (ix_assignment card ps tl (fun _ => 0) NP) as (a & Va & Ea & _); auto; [intros z; apply card_pos|].
  assert (EX : forall y, map (upd a v y) (fam v) = y :: tl).
  { intros y. rewrite fam_head by auto. fold ps. cbn [map]. rewrite upd_same, <- Ea. f_equal. apply map_ext_in. intros z Hz. apply upd_other. congruence. }
  assert (VY : forall y, In y (seq 0 (card v)) -> valid card (upd a v y)) by (intros y Hy; apply in_seq in Hy; apply upd_valid; auto; lia).
  apply (m_step nat (seq 0 (card v)) (fun y => theta u v (y :: tl)) (fun y => theta w v (y :: tl)) (fun y => 1 + expected_count u ss v (upd a v y))%Qc
           (fun y => k + all_uses (v, y :: tl)) k (sumv card [v] (fun y => 1 + expected_count u ss v y)%Qc a)).
  - intros y Hy. rewrite <- EX, <- entry_theta by auto. apply old_pos; auto.
  - assert (K := entry_sum v a Hv Va). cbn [sumv] in K. rewrite <- K. apply qsum_map_ext. intros y _. now rewrite <- EX, <- entry_theta by auto.
  - intros y _. apply more_pos.
  - reflexivity.
  - apply sumv_pos; auto using card_pos. intros; apply more_pos.
  - intros y Hy. rewrite <- EX, <- entry_theta by auto. rewrite next_entry by auto. apply (f_equal (fun z => (_ / z)%Qc)). cbn [sumv]. apply qsum_map_ext. intros z _. apply (f_equal (fun q => (1 + q)%Qc)).
    apply expected_ext. intros q. unfold upd. destruct (Nat.eqb q v); auto.
  - intros y Hy. rewrite qn_add, <- EX, qn_uses by auto. ring.
Qed.
Lemma weight_cells : forall z, same_network t z -> weight z = qprod (map (fun c => theta z (fst c) (snd c)) cells).
Proof.
  intros z S. unfold weight, cells. rewrite qprod_flat.
  assert (ND : NoDup (map (child_of z) (n_potentials z))).
  { rewrite (same_children t z S). eapply Permutation_NoDup; [symmetry; apply (children_perm t NO)|apply seq_NoDup]. }
  rewrite <- (same_children t z S), map_map. apply qprod_map_ext. intros d Hd. rewrite map_map. cbn [fst snd].
  assert (E : decl_of z (child_of z d) = d) by (unfold decl_of; now rewrite (find_by _ (child_of z)) by auto).
  rewrite <- (same_fam t z) by auto. unfold theta. rewrite E. cbn [table_of dims].
  now rewrite (map_ext _ card (fun v => same_card t z v S)).
Qed.
Lemma step_k : (posterior ss u <= posterior ss w)%Qc.
Proof.
  assert (E := e_half). assert (M := m_half).
  rewrite (qprod_map_ext _ _ (fun c => pw (rho c) k * pw (rho c) (all_uses c))%Qc), qprod_map_mul, <- pw_qprod in M by (intros; apply pw_add).
  assert (R : (0 < qprod (map rho cells))%Qc) by (apply qprod_pos; apply rho_pos).
  assert (M2 : (1 <= pw (qprod (map rho cells) * (probability w ss / probability u ss)) k)%Qc).
  { eapply Qcle_trans; [exact M|]. rewrite pw_mul, !(Qcmult_comm (pw (qprod (map rho cells)) k)). apply Qcmult_le_compat_r; auto. apply Qclt_le_weak. now apply pw_pos. }
  assert (PUP : (0 < probability u ss)%Qc) by (apply qprod_pos; auto).
  assert (PWP : (0 < probability w ss)%Qc) by (apply qprod_pos; apply ew_pos).
  apply pw_ge1 in M2; auto; [|apply Qclt_le_weak, Qc_mul_pos; auto; now apply Qcdiv_pos].
  unfold posterior. rewrite !weight_cells by auto.
  assert (TU : (0 < qprod (map (fun c => theta u (fst c) (snd c)) cells))%Qc).
  { apply qprod_pos. intros (v, ix) I. apply in_cells in I. exact (proj1 (theta_pos v ix (proj1 I) (proj2 I))). }
  assert (TW : qprod (map (fun c => theta w (fst c) (snd c)) cells) = (qprod (map rho cells) * qprod (map (fun c => theta u (fst c) (snd c)) cells))%Qc).
  { rewrite <- qprod_map_mul. apply qprod_map_ext. intros (v, ix) I. apply in_cells in I. destruct (theta_pos v ix (proj1 I) (proj2 I)) as (A & _).
    unfold rho. cbn [fst snd]. apply Qc_pos_neq in A. field. exact A. }
  rewrite TW. apply Qcmult_le_compat_r with (z := (probability u ss * qprod (map (fun c => theta u (fst c) (snd c)) cells))%Qc) in M2.
  - rewrite Qcmult_1_l in M2. eapply Qcle_trans; [exact M2|]. apply Qc_pos_neq in PUP.
    match goal with |- (?a <= ?b)%Qc => replace b with a; [apply Qcle_refl|field; exact PUP] end.
  - apply Qclt_le_weak. now apply Qc_mul_pos.
Qed.
End Step.

(** ** Every step *)
Lemma column_share : forall card v f a, (forall x y : nat -> nat, (forall z, x z = y z) -> f x = f y) -> sumv card [v] f a <> 0%Qc ->
  sumv card [v] (fun x => f x / sumv card [v] f x)%Qc a = 1%Qc.
Proof.
  intros card v f a E NZ. cbn [sumv] in *.
  rewrite (qsum_map_ext _ _ (fun x => (/ qsum (map (fun y => f (upd a v y)) (seq 0 (card v)))) * f (upd a v x))%Qc).
  - rewrite qsum_map_scale. rewrite Qcmult_comm. now apply Qcmult_inv_r.
  - intros x _. unfold Qcdiv. rewrite Qcmult_comm. f_equal. f_equal. apply qsum_map_ext. intros y _. apply E. intros z. unfold upd. destruct (Nat.eqb z v); auto.
Qed.
Section Every.
Variable t : net.
Hypothesis NO : net_ok t.
Variable ss : list series.
Local Notation card := (card_in t).
Local Notation n := (ParseSpec.size t).
Lemma proper_entries : forall z, same_network t z -> (forall v a, v < n -> valid card a -> sumv card [v] (WriteSpec.entry z v) a = 1%Qc) -> proper z.
Proof.
  intros z S H d a Hd Ha. assert (EC : card_in z = card) by (unfold card_in, node; now rewrite (proj1 S)). rewrite EC in *.
  assert (ND : NoDup (map (child_of z) (n_potentials z))).
  { rewrite (same_children t z S). eapply Permutation_NoDup; [symmetry; apply (children_perm t NO)|apply seq_NoDup]. }
  assert (E : decl_of z (child_of z d) = d) by (unfold decl_of; now rewrite (find_by _ (child_of z)) by auto).
  rewrite <- (H (child_of z d) a); auto.
  - unfold WriteSpec.entry. now rewrite E.
  - apply (kids_small t NO). rewrite <- (same_children t z S). now apply in_map.
Qed.
Definition fine (u : net) : Prop := same_network t u /\ proper u /\ positive_tables u.
Lemma positive_entries : forall z, same_network t z -> (forall v a, v < n -> valid card a -> (0 < WriteSpec.entry z v a)%Qc) -> positive_tables z.
Proof.
  intros z S H v a Hv Ha. apply H; [now rewrite <- (same_size t z)|]. intros k. rewrite <- (same_card t z) by auto. apply Ha.
Qed.
Lemma next_fine : forall u w, fine u -> next_estimate ss u w -> fine w.
Proof.
  intros u w (S & PR & PU) NX. assert (SW := network_trans t u w S (proj1 NX)). split; auto. split.
  - apply proper_entries; auto. intros v a Hv Ha.
    rewrite <- (column_share card v (fun y => 1 + expected_count u ss v y)%Qc a).
    + apply sumv_ext; auto. intros b Hb. now rewrite (next_entry t u w ss S NX).
    + intros x y E. f_equal. now apply (expected_ext t u ss S).
    + apply Qc_pos_neq. apply sumv_pos; auto; [intros; now apply card_in_pos|]. intros. now apply (more_pos t NO u ss S PU).
  - apply positive_entries; auto. intros v a Hv Ha. now apply (next_pos t NO u w ss S PU NX).
Qed.
Lemma posterior_nonneg : forall u, fine u -> (0 <= posterior ss u)%Qc.
Proof.
  intros u (S & PR & PU). unfold posterior. apply Qc_mul_nonneg.
  - unfold probability. apply ToolProofs.qprod_nonneg. intros ts _. now apply (evidence_nonneg t NO).
  - rewrite (weight_cells t NO u S). apply ToolProofs.qprod_nonneg. intros (v, ix) I. apply (in_cells t NO) in I. destruct I as (Hv & I). cbn [fst snd].
    destruct (cell_assignment t NO v ix Hv I) as (x & Vx & <-). rewrite <- (entry_theta t) by auto. apply Qclt_le_weak. now apply (old_pos t u S PU).
Qed.
Lemma next_posterior : forall u w, fine u -> next_estimate ss u w -> (posterior ss u <= posterior ss w)%Qc.
Proof.
  intros u w F NX. destruct (Qc_eq_dec (probability u ss) 0%Qc) as [Z|PN].
  { unfold posterior at 1. rewrite Z, Qcmult_0_l. apply posterior_nonneg. now apply (next_fine u). }
  destruct F as (SU & PR & PU).
  assert (PP : forall ts, In ts ss -> (0 < evidence u ts (s_length ts) (s_length ts))%Qc).
  { intros ts I. destruct (Qclt_le_dec 0 (evidence u ts (s_length ts) (s_length ts))) as [L|L]; auto. exfalso. apply PN. unfold probability.
    assert (Z : evidence u ts (s_length ts) (s_length ts) = 0%Qc) by (apply Qcle_antisym; auto; now apply (evidence_nonneg t NO)).
    apply in_split in I. destruct I as (l1 & l2 & ->). rewrite map_app, qprod_app. cbn [map]. rewrite qprod_cons, Z. ring. }
  destruct (common (flat_map (fun ts => map (fun h => course u ts (s_length ts) (s_length ts) h / evidence u ts (s_length ts) (s_length ts))%Qc (hs t ts)) ss)) as (k & K0 & K).
  { intros q I. apply in_flat_map in I. destruct I as (ts & I & Hq). apply in_map_iff in Hq. destruct Hq as (h & <- & Hh).
    unfold Qcdiv. apply Qc_mul_nonneg; [|apply Qclt_le_weak, Qc_inv_pos; auto]. apply (course_nonneg t NO); auto. eapply hs_valid; eauto. }
  apply (step_k t NO u w ss SU PU PR PP NX k K0). intros ts h I Hh. apply K. apply in_flat_map. exists ts. split; auto. now apply (in_map (fun h => course u ts (s_length ts) (s_length ts) h / evidence u ts (s_length ts) (s_length ts))%Qc).
Qed.

(** All estimates of a batch. *)
Lemma estimates_trail : forall u l w, estimates ss u l w -> fine u ->
  exists us, l = map (fun z => probability z ss) us /\ us <> [] /\ hd t us = u /\ last us t = w /\ (forall z, In z us -> fine z) /\
    forall i, S i < len us -> next_estimate ss (nth i us t) (nth (S i) us t) /\ (posterior ss (nth i us t) <= posterior ss (nth (S i) us t))%Qc.
Proof.
  induction 1 as [u|u u' l w N E IH]; intros F.
  - exists [u]. split; auto. split; [discriminate|]. split; auto. split; auto. split; [intros z [<-|[]]; auto|]. cbn. intros; lia.
  - destruct (IH (next_fine u u' F N)) as (us & -> & NE & HD & LA & FI & MO). exists (u :: us). split; auto. split; [discriminate|]. split; auto.
    destruct us as [|z us]; [congruence|]. cbn [hd] in HD. subst z. split; auto. split; [intros z [<-|I]; auto|].
    intros [|i] Hi; [split; [exact N|now apply next_posterior]|]. apply MO. cbn [List.length] in *. lia.
Qed.

(** What a batch starts from. *)
Variable rnd : nat -> nat -> nat -> nat -> Qc.
Hypothesis RP : forall i k v x, (0 < rnd i k v x)%Qc.
Variable file : bool.
Hypothesis FP : file = true -> proper t /\ positive_tables t.
Lemma fine_sum : forall z v a, fine z -> v < n -> valid card a -> sumv card [v] (WriteSpec.entry z v) a = 1%Qc.
Proof. intros z v a (S & PR & _) Hv Ha. now apply (entry_sum t NO z S PR). Qed.
Lemma random_fine : forall r u, (forall v x, (0 < r v x)%Qc) -> random_tables r t u -> fine u.
Proof.
  intros r u R (S & H). split; auto.
  assert (SP : forall v a, valid card a -> (0 < sumv card [v] (fun y => r v (flat (map card (family_of t (decl_of t v))) (map y (family_of t (decl_of t v))))) a)%Qc).
  { intros v a Ha. apply sumv_pos; auto. intros; now apply card_in_pos. }
  split.
  - apply proper_entries; auto. intros v a Hv Ha.
    rewrite <- (column_share card v (fun y => r v (flat (map card (family_of t (decl_of t v))) (map y (family_of t (decl_of t v))))) a).
    + apply sumv_ext; auto.
    + intros x y E. now rewrite (map_ext x y E).
    + apply Qc_pos_neq. auto.
  - apply positive_entries; auto. intros v a Hv Ha. rewrite H by auto. apply Qcdiv_pos; auto.
Qed.
Lemma without_fine : forall w u, fine w -> without_priors w u -> fine u.
Proof.
  intros w u F (S0 & H). assert (F0 := F). destruct F0 as (SW & PR & PW). assert (S := network_trans t w u SW S0).
  assert (EC : card_in w = card) by (unfold card_in, node; now rewrite (proj1 SW)). rewrite EC in H. rewrite (same_size t w SW) in H.
  split; auto. split.
  - apply proper_entries; auto. intros v a Hv Ha. destruct (parents_of w (decl_of w v)) as [|p ps] eqn:EP.
    + cbn [sumv]. rewrite (qsum_map_ext _ _ (fun _ => 1 / qn (card v))%Qc).
      * unfold qn. rewrite qsum_const, seq_length. fold (qn (card v)). field. apply Qc_pos_neq, qn_pos. now apply card_in_pos.
      * intros x Hx. apply in_seq in Hx. rewrite H, EP by (auto; apply upd_valid; auto; lia). reflexivity.
    + rewrite <- (fine_sum w v a F Hv Ha). apply sumv_ext; auto. intros b Hb. now rewrite H, EP.
  - apply positive_entries; auto. intros v a Hv Ha. rewrite H by auto. destruct (parents_of w (decl_of w v)).
    + apply Qcdiv_pos; [reflexivity|]. apply qn_pos. now apply card_in_pos.
    + apply PW; [now rewrite (same_size t)|now rewrite EC].
Qed.
Lemma started_fine : forall u, started rnd ss t file u -> fine u.
Proof.
  apply (started_both rnd ss t file fine fine).
  - intros u E S H. destruct (FP E) as (PR & PT). split; auto. split.
    + apply proper_entries; auto. intros v a Hv Ha. assert (F : fine t) by (split; [repeat split|auto]). rewrite <- (fine_sum t v a F Hv Ha). apply sumv_ext; auto.
    + apply positive_entries; auto. intros v a Hv Ha. rewrite H by auto. now apply PT.
  - intros u1 l u _ F E. destruct (estimates_trail u1 l u E F) as (us & _ & NE & _ & LA & FI & _). apply FI. rewrite <- LA.
    clear -NE. induction us as [|x [|y us] IH]; [congruence|now left|]. right. apply IH. discriminate.
  - intros i k u R. apply (random_fine (rnd i k)); auto.
  - intros w u _ F W. now apply (without_fine w).
Qed.
End Every.
