(** * Proofs about parsed models: distributions *)
From Coq Require Import Permutation Sorted String Field.
From Verif Require Import Base BaseProofs PotentialModel PotentialSpec PotentialProofs
  PotentialProofs2 PotentialProofs3 PotentialProofs4 VariableModel VariableProofs JoinTreeModel
  AssignSpec AssignProofs JoinTreeSpec JoinTreeProofs JoinTreeProofs2 JoinTreeProofs3
  JoinTreeProofs4 JoinTreeProofs5 JoinTreeProofs6 JoinTreeProofs7 NipModel NipSpec NipProofs
  NipProofs2 NipProofs3 NipProofs4 GatherProofs SliceModel SliceSpec SliceProofs4 LearnModel LearnSpec LearnProofs LearnProofs2
  LearnProofs3 LearnProofs4 GraphModel GraphSpec GraphTheory GraphProofs ReorderProofs GraphProofs7 GraphProofs8 HeapProofs ParseModel
  ParseSpec ParseProofs ParseProofs2 ParseProofs3 ParseProofs4 ParseProofs5 ParseProofs6 ParseProofs7 ParseProofs8.
Import ListNotations.
Open Scope nat_scope.
Local Open Scope res_scope.
Local Notation len := List.length.

Add Field Qcfield_parse9 : Qcft.

Lemma first_child : forall l v, (forall u, In u l -> v < u) -> first_declared (v :: l) = v.
Proof.
  cbn [first_declared]. induction l as [|x l IH]; intros v H; cbn [fold_left]; auto.
  rewrite Nat.min_l by (assert (Q := H x (or_introl eq_refl)); lia). apply IH. intros u Hu. apply H. right. auto.
Qed.
Lemma qprod_split : forall A (g : A -> bool) (f : A -> Qc) l,
  (qprod (map f (filter (fun x => negb (g x)) l)) * qprod (map f (filter g l)))%Qc = qprod (map f l).
Proof.
  induction l as [|x l IH]; cbn [filter map qprod]; [ring|].
  assert (Q : forall y l', qprod (y :: l') = (y * qprod l')%Qc) by (intros; unfold qprod; reflexivity).
  destruct (g x); cbn [negb map]; rewrite !Q, <- IH; ring.
Qed.

Section Net.
Variable t : net.
Hypothesis NO : net_ok t.
Local Notation card := (card_in t).
Local Notation n := (size t).

Lemma child_number : forall d, In d (n_potentials t) -> child_of t d < n.
Proof. exact (child_lt t NO 0%Z). Qed.

Lemma decls_perm : forall h : pot_decl -> Qc, qprod (map (fun v => h (decl_of t v)) (seq 0 n)) = qprod (map h (n_potentials t)).
Proof.
  intros h. assert (Q := filter_perm t NO (fun _ => true) h).
  assert (T : forall A (l : list A), filter (fun _ => true) l = l) by (induction l; cbn; congruence).
  rewrite !T in Q. now rewrite Q.
Qed.

Lemma priors_factors : forall names m, parsed t names m -> forall a, valid card a ->
  priors m (m_indep m) a = qprod (map (fun v => factor_of t (decl_of t v) a) (m_indep m)).
Proof.
  intros names m P a Ha. unfold priors. f_equal. apply map_ext_in. intros v Hv. rewrite (pa_indep _ _ _ P) in Hv.
  apply filter_In in Hv. destruct Hv as (Hv & B). apply in_seq in Hv.
  destruct (pa_priors _ _ _ P v) as (l & -> & Q); [lia| |auto]. destruct (parents_of t (decl_of t v)); [auto|discriminate].
Qed.
Lemma whole_joint : forall names m, parsed t names m -> forall a, valid card a ->
  (original m a * priors m (m_indep m) a)%Qc = parsed_joint t a.
Proof.
  intros names m P a Ha. rewrite (priors_factors names m P a Ha). destruct (pa_joint _ _ _ P a Ha) as (-> & _).
  rewrite (pa_indep _ _ _ P). unfold parsed_joint. rewrite <- decls_perm.
  rewrite <- (qprod_split _ (fun v => match parents_of t (decl_of t v) with [] => true | _ => false end) _ (seq 0 n)). f_equal.
  f_equal. f_equal. apply filter_ext. intros v. destruct (parents_of t (decl_of t v)); auto.
Qed.

Lemma first_declared_child : children_first t -> forall d, In d (n_potentials t) -> first_declared (family_of t d) = child_of t d.
Proof.
  intros CF d Hd. unfold family_of. apply first_child. intros u Hu. apply CF. exists d. auto.
Qed.
Lemma proper_factor : children_first t -> proper t -> forall d a, In d (n_potentials t) -> valid card a ->
  factor_of t d a = den (family_of t d) (table_of t d) a.
Proof.
  intros CF PR d a Hd Ha.
  assert (S : scaled card (family_of t d) (table_of t d) (first_declared (family_of t d)) a = den (family_of t d) (table_of t d) a).
  { unfold scaled. rewrite first_declared_child by auto. rewrite PR by auto. field. discriminate. }
  unfold factor_of. destruct (pd_parents d) eqn:EP; auto. destruct (pd_data d) eqn:ED; auto.
  assert (OK := no_decl t NO d Hd).
  assert (FO : family_of t d = [child_of t d]). { unfold family_of. f_equal. now apply rooted_bar. }
  assert (D1 : forall b, valid card b -> den (family_of t d) (table_of t d) b = 1%Qc).
  { intros b Hb. assert (T := proj1 (table_of_table t NO d OK)). unfold table_of in *. rewrite ED in *.
    unfold cells_of in *. apply (one_den card (family_of t d) b T Hb). }
  symmetry. now apply D1.
Qed.
Lemma proper_joint : children_first t -> proper t -> forall a, valid card a -> parsed_joint t a = file_joint t a.
Proof.
  intros CF PR a Ha. unfold parsed_joint, file_joint. f_equal. apply map_ext_in. intros d Hd. now apply proper_factor.
Qed.

(** ** Learning from a parsed model *)
Lemma parsed_family : forall names m, parsed t names m -> forall v, v < n -> family m v = family_of t (decl_of t v).
Proof.
  intros names m P v Hv. unfold family, family_of. rewrite (pa_parents _ _ _ P) by auto. f_equal.
  symmetry. now apply decl_of_ok.
Qed.
Lemma tables_param : forall v, v < n -> param (tables t) v = table_of t (decl_of t v).
Proof.
  intros v Hv. unfold param, tables. rewrite (nth_map _ _ _ _ _ 0) by (now rewrite seq_length). now rewrite seq_nth.
Qed.
Lemma parsed_learnable : acyclic t -> two_slices t -> forall names m, parsed t names m -> learnable card m.
Proof.
  intros (l & PL & AL) TS names m P. constructor.
  - apply P.
  - intros v Hv. rewrite (pa_size _ _ _ P) in Hv. rewrite (parsed_family _ _ P) by auto. apply family_nodup. apply (no_decl t NO). now apply decl_of_ok.
  - intros v Hv. rewrite (pa_size _ _ _ P) in Hv. rewrite (pa_parents _ _ _ P) by auto. rewrite (pa_indep _ _ _ P), filter_In, in_seq.
    destruct (parents_of t (decl_of t v)); split; auto; try discriminate; [intros _; split; [lia|auto]|intros (_ & Q); discriminate].
  - intros v Hv. apply (pa_prev _ _ _ P) in Hv. destruct Hv as (Hv & O). rewrite (pa_indep _ _ _ P), filter_In, in_seq. split; [lia|].
    destruct (parents_of t (decl_of t v)) as [|u r] eqn:E; auto. exfalso. apply (TS u v O). apply parent_iff; auto. split; auto. rewrite E. left. auto.
  - exists l. rewrite (pa_size _ _ _ P). split; auto. intros l1 v l2 E u Hu. assert (Hv : v < n).
    { assert (I : In v l) by (rewrite E; apply in_elt). eapply Permutation_in in I; [|exact PL]. apply in_seq in I. lia. }
    apply (AL l1 v l2 E). apply parent_iff; auto. split; auto. now rewrite <- (pa_parents _ _ _ P).
Qed.
Lemma tables_ok : forall names m, parsed t names m -> params_ok card m (tables t).
Proof.
  intros names m P. split.
  - unfold tables. rewrite map_length, seq_length. symmetry. apply P.
  - intros v Hv. rewrite (pa_size _ _ _ P) in Hv. rewrite tables_param, (parsed_family _ _ P) by auto.
    destruct (decl_of_ok t NO v Hv) as (A & _). assert (OK := no_decl t NO _ A).
    destruct (table_of_table t NO _ OK) as ((_ & W & D) & NN). auto.
Qed.
Lemma cond_factor : children_first t -> roots_given t -> forall names m, parsed t names m ->
  forall v a, v < n -> valid card a -> cond card m (tables t) v a = factor_of t (decl_of t v) a.
Proof.
  intros CF RG names m P v a Hv Ha. destruct (decl_of_ok t NO v Hv) as (A & B).
  unfold cond, column. rewrite tables_param, (parsed_family _ _ P) by auto.
  unfold factor_of. rewrite first_declared_child, B by auto. unfold scaled.
  destruct (pd_parents (decl_of t v)) eqn:EP; auto. destruct (pd_data (decl_of t v)) eqn:ED; auto. exfalso. eapply RG; eauto.
Qed.
Lemma parsed_installed : children_first t -> roots_given t -> forall names m, parsed t names m -> installed card m (tables t) m.
Proof.
  intros CF RG names m P. split; [|split]; rewrite ?(pa_size _ _ _ P).
  - intros a Ha. destruct (pa_joint _ _ _ P a Ha) as (-> & _). unfold product_cond. f_equal.
    erewrite (filter_ext_in (has_parents m)).
    + apply map_ext_in. intros v Hv. apply filter_In in Hv. destruct Hv as (Hv & _). apply in_seq in Hv. symmetry. eapply cond_factor; eauto. lia.
    + intros v Hv. apply in_seq in Hv. unfold has_parents. rewrite (pa_parents _ _ _ P) by lia. reflexivity.
  - intros k a Hk Ha. rewrite (pa_factored _ _ _ P) by auto. apply qprod_map_ext. intros v Hv. unfold housed in Hv.
    apply filter_In in Hv. destruct Hv as (Hv & _). apply in_seq in Hv. rewrite (pa_size _ _ _ P) in Hv. symmetry. eapply cond_factor; eauto. lia.
  - intros v Hv HP. rewrite (pa_parents _ _ _ P) in HP by auto. destruct (pa_priors _ _ _ P v Hv HP) as (l & E & Q).
    exists l. split; auto. intros a Ha. rewrite Q by auto. symmetry. eapply cond_factor; eauto.
Qed.
Lemma same_structure_self : forall m, same_structure m m.
Proof. intros m. unfold same_structure. repeat split; auto. Qed.
Lemma parsed_conditional : children_first t -> roots_given t -> acyclic t -> two_slices t -> columns_ok t ->
  forall names m, parsed t names m -> conditional_slices card m.
Proof.
  intros CF RG AC TS CO names m P.
  apply (installed_conditional card m (parsed_learnable AC TS names m P) (tables t) (tables_ok names m P)).
  - intros v a Hv Ha. rewrite (pa_size _ _ _ P) in Hv. unfold column. rewrite tables_param, (parsed_family _ _ P) by auto.
    destruct (decl_of_ok t NO v Hv) as (A & B). assert (Q := CO _ a A Ha). now rewrite B in Q.
  - apply same_structure_self.
  - eapply parsed_installed; eauto.
Qed.

(** ** Evidence *)
Definition hards (obs : list (string * string)) : list insertion := map (fun o => Hard (fst o) (snd o)) obs.
Definition state_no (o : string * string) : nat :=
  match position (snd o) (states (node t (number t (fst o)))) with Some i => i | None => 0 end.

Section Obs.
Variable names : list named_variable.
Variable m : model.
Hypothesis P : parsed t names m.

Lemma position_some : forall s l, In s l -> exists i, position s l = Some i /\ i < len l.
Proof.
  intros s l H. destruct (position_in s l H) as (i & E & L & _). eauto.
Qed.
Lemma says_hard : forall obs o, observations_ok t obs -> In o obs ->
  says card names (Hard (fst o) (snd o)) = Some (number t (fst o), one_hot (card (number t (fst o))) (state_no o)) /\
  number t (fst o) < n /\ state_no o < card (number t (fst o)) /\
  position (snd o) (states (node t (number t (fst o)))) = Some (state_no o).
Proof.
  intros obs [s x] (ND & SH & IN) H. destruct (IN s x H) as (I1 & I2). cbn [fst snd] in *.
  cbn [says]. rewrite (pa_symbols _ _ _ P). destruct (position_some s _ I1) as (v & EV & LV). rewrite EV.
  assert (NV : number t s = v) by (unfold number; now rewrite EV). rewrite symbols_length in LV.
  destruct (position_some x _ I2) as (i & EI & LI).
  assert (LN : len names = n). { destruct (pa_names _ _ _ P) as (-> & _). apply P. }
  rewrite (pa_states _ _ _ P v).
  2:{ apply nth_error_nth'. rewrite LN. exact LV. } 2:{ apply SH. }
  unfold state_no. cbn [fst snd]. rewrite NV in *. rewrite EI. auto.
Qed.

Lemma latest_obs : forall obs all lik, observations_ok t all -> incl obs all -> NoDup (map fst obs) -> forall w,
  latest card names (hards obs) lik w =
  match find (fun o => Nat.eqb (number t (fst o)) w) obs with
  | Some o => one_hot (card w) (state_no o) | None => lik w end.
Proof.
  intros obs all. induction obs as [|o obs IH]; intros lik OA IN ND w; [reflexivity|].
  cbn [hards map latest find]. fold (hards obs). destruct (says_hard all o OA (IN o (or_introl eq_refl))) as (-> & _).
  inversion ND as [|? ? NI ND']; subst. rewrite IH; auto. 2:{ intros x Hx. apply IN. right. auto. }
  destruct (Nat.eqb_spec (number t (fst o)) w) as [E|N].
  - destruct (find (fun o0 => Nat.eqb (number t (fst o0)) w) obs) as [o'|] eqn:EF.
    + exfalso. apply find_some in EF. destruct EF as (I & Q). apply Nat.eqb_eq in Q. apply NI.
      assert (fst o' = fst o) as <-; [|now apply in_map]. destruct OA as (_ & _ & OA). apply (number_inj t).
      * destruct o'. eapply OA. apply IN. right. eauto.
      * destruct o. eapply OA. apply IN. left. eauto.
      * congruence.
    + rewrite <- E, Nat.eqb_refl. reflexivity.
  - destruct (find _ obs); auto. destruct (Nat.eqb_spec w (number t (fst o))); congruence.
Qed.
Lemma never_obs : forall obs all lik, observations_ok t all -> incl obs all -> NoDup (map fst obs) ->
  (forall o, In o obs -> lik (number t (fst o)) = repeat 1%Qc (card (number t (fst o)))) ->
  never_revives card names (hards obs) lik.
Proof.
  intros obs all. induction obs as [|o obs IH]; intros lik OA IN ND H; cbn [hards map never_revives]; auto. fold (hards obs).
  destruct (says_hard all o OA (IN o (or_introl eq_refl))) as (-> & _). split.
  - rewrite H by (left; auto). intros (i & Hi & Z & _). rewrite repeat_length in Hi. rewrite nth_repeat_lt in Z by auto. discriminate.
  - inversion ND as [|? ? NI ND']; subst. apply IH; auto. { intros x Hx. apply IN. right. auto. }
    intros o' Ho'. destruct (Nat.eqb_spec (number t (fst o')) (number t (fst o))) as [E|N]; [|apply H; right; auto].
    exfalso. apply NI. destruct OA as (_ & _ & OA). assert (fst o' = fst o) as <-; [|now apply in_map]. apply (number_inj t); auto.
    * destruct o'. eapply OA. apply IN. right. eauto.
    * destruct o. eapply OA. apply IN. left. eauto.
Qed.
Lemma weight_obs : forall obs a, observations_ok t obs -> valid card a ->
  weight n (latest card names (hards obs) (fun v => repeat 1%Qc (card v))) a = given (observed t obs a) 1%Qc.
Proof.
  intros obs a OA Ha. unfold weight.
  assert (HOT : forall k i j, i < k -> nth i (one_hot k j) 0%Qc = if Nat.eqb i j then 1%Qc else 0%Qc).
  { intros k i j H. unfold one_hot. rewrite (nth_map _ _ _ _ _ 0) by (now rewrite seq_length). now rewrite seq_nth. }
  assert (W : forall v, at_state (latest card names (hards obs) (fun v => repeat 1%Qc (card v)) v) v a =
     match find (fun o => Nat.eqb (number t (fst o)) v) obs with
     | Some o => if Nat.eqb (a v) (state_no o) then 1%Qc else 0%Qc | None => 1%Qc end).
  { intros v. rewrite (latest_obs obs obs); auto; [|apply incl_refl|apply OA]. unfold at_state.
    destruct (find _ obs) as [o|]; [apply HOT; apply Ha|]. apply nth_repeat_lt. apply Ha. }
  destruct (observed t obs a) eqn:O; cbn [given].
  - unfold observed in O. rewrite forallb_forall in O. apply NipProofs.qprod_ones. intros v _. rewrite W.
    destruct (find (fun o => Nat.eqb (number t (fst o)) v) obs) as [o|] eqn:EF; auto. apply find_some in EF. destruct EF as (I & Q). apply Nat.eqb_eq in Q. 
    specialize (O o I). destruct (says_hard obs o OA I) as (_ & _ & _ & EP). rewrite EP, Q in O. now rewrite O.
  - apply qprod_zero. assert (X : exists o, In o obs /\ a (number t (fst o)) <> state_no o).
    { unfold observed in O. clear W. induction obs as [|o l IH]; [discriminate|]. cbn [forallb] in O.
      destruct (says_hard (o :: l) o OA (or_introl eq_refl)) as (_ & _ & _ & EP). rewrite EP in O. apply andb_false_iff in O. destruct O as [O|O].
      - apply Nat.eqb_neq in O. exists o. split; [left; auto|auto].
      - destruct IH as (o' & I & Q); auto. { destruct OA as (A & B & C). split; [inversion A; auto|]. split; auto. intros s x Hx. apply C. right. auto. }
        exists o'. split; [right; auto|auto]. }
    destruct X as (o & I & Q). destruct (says_hard obs o OA I) as (_ & L & _ & _).
    apply in_map_iff. exists (number t (fst o)). split; [|apply in_seq; lia]. rewrite W.
    destruct (find (fun o0 => Nat.eqb (number t (fst o0)) (number t (fst o))) obs) as [o'|] eqn:EF.
    + apply find_some in EF. destruct EF as (I' & Q'). apply Nat.eqb_eq in Q'.
      assert (o' = o) as ->.
      { destruct OA as (ND & _ & OA). assert (EF : fst o' = fst o). { apply (number_inj t); auto; [destruct o'|destruct o]; eapply OA; eauto. }
        clear - ND I I' EF. induction obs as [|y l IH]; [destruct I|]. cbn in ND. inversion ND; subst.
        destruct I as [->|I], I' as [->|I']; auto; exfalso; [|]; apply H1; [rewrite <- EF|rewrite EF]; now apply in_map. }
      destruct (Nat.eqb_spec (a (number t (fst o))) (state_no o)); [contradiction|auto].
    + exfalso. eapply find_none in EF; [|exact I]. cbv beta in EF. rewrite Nat.eqb_refl in EF. discriminate.
Qed.

Lemma knows_parsed : knows card m (no_belief card) m.
Proof.
  assert (MO : model_ok card m) by (apply (so_model _ _ (pa_slices _ _ _ P))).
  constructor; auto.
  - apply same_model_refl.
  - intros v Hv. rewrite (pa_size _ _ _ P) in Hv. now apply (pa_fresh _ _ _ P).
  - intros v Hv. apply (mo_indep _ _ MO) in Hv. destruct Hv as (Hv & _). rewrite (pa_size _ _ _ P) in Hv. now apply (pa_fresh _ _ _ P).
  - intros a Ha. destruct (pa_joint _ _ _ P a Ha) as (_ & ->). cbn [no_belief b_active]. unfold priors, evidence, weight. cbn [map].
    rewrite NipProofs.qprod_ones.
    + cbn. ring.
    + intros v Hv. apply in_seq in Hv. rewrite (pa_size _ _ _ P) in Hv. destruct (pa_fresh _ _ _ P v) as (-> & _); [lia|].
      unfold at_state. apply nth_repeat_lt. apply Ha.
Qed.

Lemma posterior_lemma : forall obs, observations_ok t obs ->
  exists m1 m2, run names m (Priors false :: map Insert (hards obs)) = Ok m1 /\
    make_consistent_model m1 = Ok m2 /\
    (forall v, v < n -> exists m3 r, get_probability m2 v = Ok (m3, Some r) /\ len r = card v /\
       forall x, x < card v -> nth x r 0%Qc = (mass_where t (parsed_joint t) obs v x / mass t (parsed_joint t) obs)%Qc) /\
    exists m3, model_prob_mass m2 = Ok (m3, mass t (parsed_joint t) obs).
Proof.
  intros obs OA.
  assert (HO : Forall (op_ok card names m) (Priors false :: map Insert (hards obs))).
  { constructor; [exact I|]. apply inserts_ok. unfold hards. apply Forall_forall. intros x Hx. apply in_map_iff in Hx.
    destruct Hx as (o & <- & Ho). intros v l. destruct (says_hard obs o OA Ho) as (-> & _). intros E. injection E as <- <-.
    unfold one_hot. split; [now rewrite map_length, seq_length|]. apply Forall_forall. intros y Hy. apply in_map_iff in Hy.
    destruct Hy as (j & <- & _). destruct (Nat.eqb j (state_no o)); discriminate. }
  destruct (knows_run card names m _ _ m (pa_names _ _ _ P) knows_parsed HO) as (m1 & E1 & K1).
  set (b := learn card names m (no_belief card) (Priors false :: map Insert (hards obs))) in *.
  assert (BA : b_active b = m_indep m /\ b_lik b = latest card names (hards obs) (fun v => repeat 1%Qc (card v))).
  { unfold b. unfold learn. cbn [fold_left]. fold (learn card names m).
    match goal with |- context [fold_left (learn1 card names m) ?l ?b0] => change (fold_left (learn1 card names m) l b0) with (learn card names m b0 l); set (b1 := b0) end.
    destruct (learn_inserts card names m (hards obs) b1) as (Q1 & _ & _ & Q4). rewrite Q1, Q4.
    - split; auto. unfold b1. cbn. assert (T : forall A (l : list A), filter (fun _ => true) l = l) by (induction l; cbn; congruence). apply T.
    - apply (never_obs obs obs); auto; [apply incl_refl|apply OA]. }
  destruct BA as (BA & BL).
  assert (J1 : forall a, valid card a -> joint (m_jt m1) a = given (observed t obs a) (parsed_joint t a)).
  { intros a Ha. rewrite (knows_joint card m b m1 a K1 Ha), BA, BL. rewrite (pa_size _ _ _ P), weight_obs by auto.
    rewrite <- (whole_joint names m P a Ha). destruct (observed t obs a); cbn [given]; ring. }
  assert (M1 : model_ok card m1) by apply K1.
  assert (L1 : len (m_vars m1) = n). { rewrite (proj1 (proj2 (kn_same _ _ _ _ K1))). apply P. }
  assert (POS := card_in_pos t NO).
  assert (V0 : valid card (fun _ => 0)) by (intros w; apply POS).
  destruct (make_consistent_model_ok card m1 M1) as (jt' & E2 & _).
  exists m1, (set_jt m1 jt'). split; auto. split; auto. split.
  - intros v Hv. destruct (get_probability_ok card m1 v M1 ltac:(lia) _ E2) as (m3 & r & E3 & _ & _ & LR & Q).
    exists m3, r. split; auto. split; auto. intros x Hx. rewrite Q by auto. unfold sum_where, sum_all, mass_where, mass. rewrite L1.
    assert (VU : valid card (upd (fun _ => 0) v x)). { intros w. unfold upd. destruct (Nat.eqb_spec w v) as [->|]; auto. }
    rewrite (sumv_ext card _ _ _ _ VU J1), (sumv_ext card _ _ _ _ V0 J1). reflexivity.
  - destruct (model_mass_ok card m1 _ M1 E2) as (m3 & E3). exists m3. rewrite E3. f_equal. f_equal.
    unfold sum_all, mass. rewrite L1. apply sumv_ext; auto.
Qed.
End Obs.
End Net.
