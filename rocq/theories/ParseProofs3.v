(** * Proofs about the declarations of potentials *)
From Coq Require Import Permutation Sorted Field String.
From Verif Require Import Base BaseProofs PotentialModel PotentialSpec PotentialProofs
  PotentialProofs2 PotentialProofs3 PotentialProofs4 VariableModel VariableProofs JoinTreeModel
  AssignSpec AssignProofs JoinTreeSpec NipModel NipSpec NipProofs NipProofs3 SliceModel SliceSpec SliceProofs4
  LearnModel LearnSpec LearnProofs2 GraphModel GraphSpec GraphTheory ReorderProofs HeapProofs ParseModel ParseSpec
  ParseProofs.
Import ListNotations.
Open Scope nat_scope.
Local Open Scope res_scope.

Add Field Qcfield_parse3 : Qcft.

Lemma table_ext : forall c1 c2 vs p, (forall v, c1 v = c2 v) -> table c1 vs p -> table c2 vs p.
Proof.
  intros c1 c2 vs p E (A & B & D). split; auto. split; auto. rewrite D. apply map_ext. auto.
Qed.
Lemma valid_ext : forall c1 c2 a, (forall v, c1 v = c2 v) -> valid c1 a -> valid c2 a.
Proof. intros c1 c2 a E H v. rewrite <- E. apply H. Qed.

(** ** Normalisation *)
Section Norm.
Variable card : nat -> nat.
Hypothesis pos : forall v, 0 < card v.

Lemma Qc_div_zero : forall x y : Qc, x = 0%Qc -> (x / y = 0)%Qc.
Proof. intros x y ->. unfold Qcdiv. ring. Qed.
Lemma Qc_div_nonneg : forall x y : Qc, (0 <= x)%Qc -> (0 <= y)%Qc -> (0 <= x / y)%Qc.
Proof. intros. unfold Qcdiv. apply Qc_mul_nonneg; auto. now apply Qc_inv_nonneg. Qed.

Lemma nonneg_dens : forall vs p, table card vs p -> (forall a, valid card a -> (0 <= den vs p a)%Qc) -> nonneg p.
Proof.
  intros vs p T H. apply nonneg_cells; [apply T|]. intros ix Hix. rewrite (proj2 (proj2 T)) in Hix.
  destruct (ix_assignment card vs ix (fun _ => 0)) as (a & Va & Ea & _); auto. { apply T. }
  rewrite <- Ea. apply (H a Va).
Qed.

Lemma colsum_sumv : forall v vs p a, table card (v :: vs) p ->
  colsum p (map a vs) = sumv card [v] (den (v :: vs) p) a.
Proof.
  intros v vs p a (ND & _ & D). unfold colsum. rewrite D. cbn [map hd sumv]. f_equal.
  apply map_ext. intros x. unfold den. cbn [map]. rewrite upd_same. f_equal. f_equal.
  apply map_ext_in. intros w Hw. unfold upd. destruct (Nat.eqb_spec w v) as [->|]; auto.
  inversion ND; contradiction.
Qed.

Lemma normalise_cpd_den : forall vs p, table card vs p -> vs <> [] -> nonneg p ->
  exists p', normalise_cpd (Some p) = Ok (Some p', NO_ERROR) /\ table card vs p' /\ nonneg p' /\
    forall a, valid card a -> den vs p' a = scaled card vs p (hd 0 vs) a.
Proof.
  intros vs p T NE NN. destruct vs as [|v vs]; [congruence|]. cbn [hd].
  destruct (C08_normalise_cpd_lemma p) as (p' & E & D & W & H & _). { apply T. }
  { unfold dimensionality. destruct T as (_ & _ & ->). cbn. lia. }
  assert (T' : table card (v :: vs) p').
  { destruct T as (A & B & C). split; auto. split; auto. congruence. }
  assert (DD : forall a, valid card a -> den (v :: vs) p' a = scaled card (v :: vs) p v a).
  { intros a Ha. unfold scaled. rewrite <- (colsum_sumv v vs p a T).
    assert (DP := proj2 (proj2 T)). cbn [map] in DP. rewrite DP in H. cbn [tl hd] in H.
    destruct (H (map a vs)) as (Z & N). { now apply valid_ix_map. }
    destruct (Qc_eq_dec (colsum p (map a vs)) 0) as [K|K].
    - unfold den. cbn [map]. rewrite Z by auto.
      assert (X : den (v :: vs) p a = 0%Qc).
      { rewrite (colsum_sumv v vs p a T) in K.
        apply (sumv_zero_inv card [v] (den (v :: vs) p) a); auto.
        - apply (dep_ext (v :: vs)), den_dep.
        - intros b Hb. eapply den_nonneg; eauto. }
      unfold den in X. cbn [map] in X. rewrite X. symmetry. now apply Qc_div_zero.
    - unfold den. cbn [map]. apply N; auto. }
  exists p'. split; auto. split; auto. split; auto.
  eapply nonneg_dens; eauto. intros a Ha. rewrite DD by auto. apply Qc_div_nonneg.
  - eapply den_nonneg; eauto.
  - apply sumv_nonneg; auto. intros b Hb. eapply den_nonneg; eauto.
Qed.

Lemma normalise_root_den : forall v p, table card [v] p -> nonneg p ->
  exists p', normalise_potential (Some p) = Ok (Some p', NO_ERROR) /\ table card [v] p' /\ nonneg p' /\
    forall a, valid card a -> den [v] p' a = scaled card [v] p v a.
Proof.
  intros v p T NN. destruct (C07_normalise_potential_lemma p) as (p' & E & D & W & Z & N & _). { apply T. }
  assert (T' : table card [v] p').
  { destruct T as (A & B & C). split; auto. split; auto. congruence. }
  assert (DD : forall a, valid card a -> den [v] p' a = scaled card [v] p v a).
  { intros a Ha. unfold scaled. rewrite <- (total_sumv card [v] p a) by auto.
    destruct (Qc_eq_dec (total p) 0) as [K|K].
    - rewrite Z by auto. assert (X : den [v] p a = 0%Qc).
      { rewrite (total_sumv card [v] p a) in K by auto.
        apply (sumv_zero_inv card [v] (den [v] p) a); auto.
        - apply (dep_ext [v]), den_dep.
        - intros b Hb. eapply den_nonneg; eauto. }
      rewrite X. symmetry. now apply Qc_div_zero.
    - unfold den. apply N; auto. destruct T as (_ & _ & ->). now apply valid_ix_map. }
  exists p'. split; auto. split; auto. split; auto.
  eapply nonneg_dens; eauto. intros a Ha. rewrite DD by auto. apply Qc_div_nonneg.
  - eapply den_nonneg; eauto.
  - apply sumv_nonneg; auto. intros b Hb. eapply den_nonneg; eauto.
Qed.
End Norm.

(** ** The first-declared member *)
Lemma fold_min_in : forall l v, In (fold_left Nat.min l v) (v :: l).
Proof.
  induction l as [|x l IH]; intros v; cbn [fold_left]; [left; auto|].
  destruct (IH (Nat.min v x)) as [E|H]; [|right; right; auto].
  rewrite <- E. destruct (Nat.min_dec v x) as [->| ->]; [left; auto|right; left; auto].
Qed.
Lemma fold_min_le : forall l v x, In x (v :: l) -> fold_left Nat.min l v <= x.
Proof.
  induction l as [|y l IH]; intros v x Hx; cbn [fold_left].
  - destruct Hx as [->|[]]; auto.
  - destruct Hx as [->|[->|Hx]].
    + etransitivity; [apply IH; left; reflexivity|]. lia.
    + etransitivity; [apply IH; left; reflexivity|]. lia.
    + apply IH. right. auto.
Qed.
Lemma hd_first : forall vs v l, Permutation vs (v :: l) -> StronglySorted lt vs ->
  hd 0 vs = first_declared (v :: l).
Proof.
  intros vs v l P S. cbn [first_declared]. destruct vs as [|h r]; [apply Permutation_nil in P; discriminate|].
  cbn [hd]. inversion S as [|? ? S' F]; subst. rewrite Forall_forall in F.
  assert (A : fold_left Nat.min l v <= h). { apply fold_min_le. eapply Permutation_in; [exact P|left; auto]. }
  assert (B : In (fold_left Nat.min l v) (h :: r)).
  { eapply Permutation_in; [symmetry; exact P|]. apply fold_min_in. }
  destruct B as [B|B]; auto. specialize (F _ B). lia.
Qed.

(** ** Symbols *)
Lemma position_in : forall s l, In s l -> exists v, position s l = Some v /\ v < List.length l /\ nth v l EmptyString = s.
Proof.
  induction l as [|x l IH]; intros H; [contradiction|]. cbn [position].
  destruct (String.eqb_spec s x) as [->|N].
  - exists 0. cbn. split; auto. split; auto. lia.
  - destruct H as [->|H]; [congruence|]. destruct (IH H) as (v & -> & L & E). exists (S v). cbn. split; auto. split; auto. lia.
Qed.
Lemma position_nth : forall l v, NoDup l -> v < List.length l -> position (nth v l EmptyString) l = Some v.
Proof.
  intros l v ND Hv. destruct (position_in (nth v l EmptyString) l) as (w & E & Lw & Ew). { now apply nth_In. }
  rewrite E. f_equal. apply (NoDup_nth l EmptyString) in Ew; auto.
Qed.

(** The list of variables represents the nodes of the file. *)
Definition vars_ok (t : net) (vl : list pvar) : Prop :=
  List.length vl = size t /\
  forall v x, nth_error vl v = Some x ->
    nv_symbol (pv_named x) = Some (nth v (symbols t) EmptyString) /\ nv_card (pv_named x) = card_in t v.

Section Decl.
Variable t : net.
Hypothesis NO : net_ok t.
Variable vl : list pvar.
Hypothesis VL : vars_ok t vl.

Lemma card_in_pos : forall v, 0 < card_in t v.
Proof.
  intros v. unfold card_in, node. destruct (Nat.lt_ge_cases v (List.length (n_nodes t))) as [L|G].
  - assert (I := nth_In (n_nodes t) (mkNode EmptyString None (Some [EmptyString]) None) L).
    destruct (no_states t NO _ I) as (_ & H). destruct (states _); [congruence|cbn; lia].
  - rewrite nth_overflow by auto. cbn. lia.
Qed.
Lemma cardp_in : forall v, cardp vl v = card_in t v.
Proof.
  intros v. unfold cardp. destruct (nth_error vl v) as [x|] eqn:E.
  - now apply (proj2 VL).
  - apply nth_error_None in E. unfold card_in, node. rewrite nth_overflow; [reflexivity|]. change (size t <= v). rewrite <- (proj1 VL). auto.
Qed.
Lemma symbols_length : List.length (symbols t) = size t.
Proof. unfold symbols, size. apply map_length. Qed.

Lemma search_gen : forall s k l, (forall v x, nth_error l v = Some x ->
    nv_symbol (pv_named x) = Some (nth (k + v) (symbols t) EmptyString)) -> List.length l = size t - k -> k <= size t ->
  search_list l s k = Ok (option_map (fun v => k + v) (position s (skipn k (symbols t)))).
Proof.
  intros s k l. revert k. induction l as [|x l IH]; intros k H L K; cbn [search_list].
  - rewrite skipn_all2 by (rewrite symbols_length; cbn in L; lia). reflexivity.
  - rewrite (H 0 x eq_refl). rewrite Nat.add_0_r. cbn in L.
    assert (SK : skipn k (symbols t) = nth k (symbols t) EmptyString :: skipn (S k) (symbols t)).
    { assert (LT : k < List.length (symbols t)) by (rewrite symbols_length; lia). clear -LT. revert k LT.
      induction (symbols t) as [|y m IH]; intros [|k] LT; cbn [List.length skipn nth] in *; try lia; [reflexivity|]. rewrite IH by lia. reflexivity. }
    rewrite SK. cbn [position]. destruct (String.eqb s (nth k (symbols t) EmptyString)).
    + cbn. f_equal. f_equal. lia.
    + rewrite (IH (S k)) by (try lia; intros v y E; rewrite Nat.add_succ_comm; apply (H (S v)); auto).
      f_equal. destruct (position s (skipn (S k) (symbols t))); cbn; auto; try (do 2 f_equal; lia).
Qed.
Lemma search_ok : forall s, In s (symbols t) -> search_list vl s 0 = Ok (Some (number t s)) /\ number t s < size t.
Proof.
  intros s H. rewrite (search_gen s 0 vl); [|intros v x E; now apply (proj2 VL)|rewrite (proj1 VL); lia|lia].
  cbn [skipn]. unfold number. destruct (position_in s _ H) as (v & -> & L & _). rewrite symbols_length in L. cbn. auto.
Qed.
Lemma number_inj : forall s u, In s (symbols t) -> In u (symbols t) -> number t s = number t u -> s = u.
Proof.
  intros s u H1 H2 E. unfold number in E. destruct (position_in s _ H1) as (v & E1 & _ & <-).
  destruct (position_in u _ H2) as (w & E2 & _ & <-). rewrite E1, E2 in E. now subst.
Qed.
Lemma map_number_nodup : forall l, incl l (symbols t) -> NoDup l -> NoDup (map (number t) l).
Proof.
  induction l as [|s l IH]; intros I ND; cbn; [constructor|]. inversion ND; subst. constructor.
  - intros H. apply in_map_iff in H. destruct H as (u & E & Hu). apply number_inj in E; [subst; contradiction| |]; apply I; cbn; auto.
  - apply IH; auto. intros x Hx. apply I. right. auto.
Qed.
Lemma parent_list_ok : forall l acc, incl l (symbols t) ->
  parent_list vl l acc = Ok (Some (map (number t) (rev l) ++ acc)).
Proof.
  induction l as [|s l IH]; intros acc I; cbn [parent_list]; auto.
  destruct (search_ok s) as (-> & _). { apply I. left. auto. }
  cbn [bind]. rewrite IH by (intros x Hx; apply I; right; auto).
  cbn [rev]. rewrite map_app, <- app_assoc. reflexivity.
Qed.

Lemma family_nodup : forall d, decl_ok t d -> NoDup (family_of t d).
Proof.
  intros d (I & ND & _). unfold family_of, child_of, parents_of.
  change (NoDup (map (number t) (pd_child d :: rev (given_symbols d)))). apply map_number_nodup.
  - intros x [<-|Hx]; [apply I; left; auto|]. apply I. right. now apply in_rev.
  - inversion ND; subst. constructor; [intros H; apply in_rev in H; contradiction|]. now apply NoDup_rev.
Qed.
Lemma family_lt : forall d v, decl_ok t d -> In v (family_of t d) -> v < size t.
Proof.
  intros d v (I & _) H. unfold family_of, child_of, parents_of in H.
  change (In v (map (number t) (pd_child d :: rev (given_symbols d)))) in H. apply in_map_iff in H. destruct H as (s & <- & Hs).
  apply search_ok. apply I. destruct Hs as [<-|Hs]; [left; auto|right; now apply in_rev].
Qed.

(** The table of a declaration. *)
Lemma table_of_table : forall d, decl_ok t d -> table (card_in t) (family_of t d) (table_of t d) /\ nonneg (table_of t d).
Proof.
  intros d OK. split.
  - split; [now apply family_nodup|]. split; [|reflexivity].
    split; [apply map_card_pos; apply card_in_pos|]. destruct OK as (_ & _ & _ & D & M). split; [|exact M].
    unfold table_of. cbn [data dims]. destruct (pd_data d) as [l|].
    + destruct (D l eq_refl) as (L & _). rewrite firstn_length. fold (cells_of t d). lia.
    + now rewrite repeat_length.
  - destruct OK as (_ & _ & _ & D & M). unfold nonneg, table_of. cbn [data]. destruct (pd_data d) as [l|].
    + destruct (D l eq_refl) as (_ & F). rewrite Forall_forall in *. intros x Hx. apply F. rewrite <- (firstn_skipn (cells_of t d) l). apply in_or_app. left. exact Hx.
    + apply Forall_forall. intros x Hx. apply repeat_spec in Hx. subst. discriminate.
Qed.
Lemma table_of_den : forall d a, decl_ok t d -> valid (card_in t) a -> den (family_of t d) (table_of t d) a =
  match pd_data d with
  | Some l => nth (flat (map (card_in t) (family_of t d)) (map a (family_of t d))) l 0%Qc
  | None => 1%Qc
  end.
Proof.
  intros d a OK Ha. unfold den, cell, table_of. cbn [dims data].
  assert (V := valid_ix_map (card_in t) (family_of t d) a Ha). apply flat_lt in V.
  destruct (pd_data d) as [l|].
  - apply nth_firstn. exact V.
  - apply nth_repeat_lt. exact V.
Qed.

Lemma size_loop : forall parents child n, n <= List.length parents ->
  (Z.of_nat (cardp vl child * prod (map (cardp vl) parents)) <= INT_MAX)%Z ->
  for_up 0 n (fun i size => let* p := rd parents i in imul size (cardp vl p)) (cardp vl child) =
  Ok (cardp vl child * prod (map (cardp vl) (firstn n parents))).
Proof.
  intros parents child n Hn HM.
  assert (CP : forall v, 0 < cardp vl v) by (intros v; rewrite cardp_in; apply card_in_pos).
  match goal with |- context [for_up 0 n ?b0 ?s0] =>
    destruct (for_up_inv nat (fun i s => s = cardp vl child * prod (map (cardp vl) (firstn i parents))) b0 0 n s0) as (s & E & ->) end.
  - lia.
  - cbn. lia.
  - intros i s Hi ->. rewrite (rd_ok _ parents i 0) by lia. cbn [bind].
    rewrite (firstn_S_nth _ parents i 0) by lia. rewrite map_app, prod_app. cbn [map prod].
    assert (LE := prod_firstn_le (map (cardp vl) parents) (S i) (map_card_pos _ _ CP)).
    rewrite firstn_map in LE. rewrite (firstn_S_nth _ parents i 0), map_app, prod_app in LE by lia. cbn [map prod] in LE.
    rewrite Nat.mul_1_r in *. rewrite imul_ok by nia. eexists. split; [reflexivity|]. lia.
  - exact E.
Qed.

(** What a parsed potential means. *)
Definition pot_means (d : pot_decl) (p : parsed_potential) : Prop :=
  pp_child p = child_of t d /\ pp_parents p = parents_of t d /\
  exists vs, Permutation vs (family_of t d) /\ StronglySorted lt vs /\
    table (card_in t) vs (pp_data p) /\ nonneg (pp_data p) /\
    forall a, valid (card_in t) a -> den vs (pp_data p) a = factor_of t d a.

Lemma potential_declaration_ok : forall d, decl_ok t d ->
  exists p, potential_declaration vl d = Ok (Some p) /\ pot_means d p.
Proof.
  intros d OK. destruct (table_of_table d OK) as (TT & TN). assert (FN := family_nodup d OK).
  assert (TD := table_of_den d). assert (POS := card_in_pos).
  assert (OK' := OK). destruct OK' as (I & ND & BAR & DAT & MAX).
  assert (CP : forall v, 0 < cardp vl v) by (intros v; rewrite cardp_in; apply card_in_pos).
  assert (CE : forall vs, map (cardp vl) vs = map (card_in t) vs) by (intros; apply map_ext; apply cardp_in).
  destruct (search_ok (pd_child d)) as (SC & _). { apply I. left. auto. }
  unfold potential_declaration. rewrite SC. cbn [bind]. fold (child_of t d).
  (* the table read *)
  assert (CR : forall dat, dat = pd_data d -> exists vs p, Permutation vs (family_of t d) /\ StronglySorted lt vs /\
     create_potential (cardp vl) (family_of t d) (List.length (family_of t d)) dat = Ok (Some p) /\
     table (card_in t) vs p /\ nonneg p /\
     forall a, valid (card_in t) a -> den vs p a = den (family_of t d) (table_of t d) a).
  { intros dat ->. destruct (create_potential_ok (cardp vl) (family_of t d) (pd_data d)) as (vs & p & P & S & E & T & D); auto.
    { rewrite CE. exact MAX. }
    { destruct (pd_data d) as [l|]; auto. rewrite CE. now apply DAT. }
    exists vs, p. split; auto. split; auto. split; auto.
    assert (T' : table (card_in t) vs p) by (eapply table_ext; [|exact T]; apply cardp_in).
    assert (D' : forall a, valid (card_in t) a -> den vs p a = den (family_of t d) (table_of t d) a).
    { intros a Ha. rewrite TD by auto. rewrite D by (eapply valid_ext; [|exact Ha]; intros; symmetry; apply cardp_in).
      now rewrite CE. }
    split; auto. split; auto. apply (nonneg_dens (card_in t) POS vs p T'). intros a Ha. rewrite D' by auto. eapply den_nonneg; eauto. }
  assert (SCALE : forall vs p, Permutation vs (family_of t d) -> StronglySorted lt vs ->
     (forall a, valid (card_in t) a -> den vs p a = den (family_of t d) (table_of t d) a) ->
     forall a, valid (card_in t) a -> scaled (card_in t) vs p (hd 0 vs) a =
       scaled (card_in t) (family_of t d) (table_of t d) (first_declared (family_of t d)) a).
  { intros vs p P S D a Ha. unfold scaled. rewrite D by auto. assert (HF : hd 0 vs = first_declared (family_of t d)) by (apply hd_first; auto).
    rewrite HF. f_equal. apply sumv_ext; auto. }
  assert (VN : forall vs, Permutation vs (family_of t d) -> vs <> []).
  { intros vs P ->. apply Permutation_nil in P. discriminate. }
  assert (DAT0 : match pd_data d with Some [] => UB | x => Ok x end = Ok (pd_data d)).
  { destruct (pd_data d) as [[|x l]|] eqn:E; auto. destruct (DAT [] eq_refl) as (L & _). cbn [List.length] in L.
    assert (0 < cells_of t d)%nat. { apply prod_pos. apply map_card_pos. auto. } exfalso. lia. }
  destruct (pd_parents d) as [gs|] eqn:EP.
  - assert (GS : given_symbols d = gs) by (unfold given_symbols; now rewrite EP).
    rewrite parent_list_ok by (intros x Hx; apply I; right; now rewrite GS). cbn [bind]. rewrite app_nil_r.
    rewrite DAT0. cbn [bind].
    replace (map (number t) (rev gs)) with (parents_of t d) by (unfold parents_of; now rewrite GS).
    destruct (parents_of t d) as [|q qs] eqn:EQ.
    { exfalso. apply BAR. f_equal. unfold parents_of in EQ. apply map_eq_nil in EQ. rewrite GS in EQ.
      rewrite <- (rev_involutive gs), EQ. reflexivity. }
    rewrite <- EQ. clear EQ q qs.
    assert (FC : prod (map (cardp vl) (child_of t d :: parents_of t d)) = cells_of t d) by (rewrite CE; reflexivity).
    cbn [map prod] in FC.
    rewrite size_loop by (auto; rewrite FC; exact MAX). cbn [bind]. rewrite firstn_all, FC.
    assert (LB : match pd_data d with Some l => Nat.ltb (List.length l) (cells_of t d) | None => false end = false).
    { destruct (pd_data d) as [l|]; auto. apply Nat.ltb_ge. now apply DAT. }
    rewrite LB. replace (List.length (parents_of t d) + 1) with (List.length (family_of t d)) by (cbn; lia).
    destruct (CR (pd_data d) eq_refl) as (vs & p & P & S & E & T & NN & D).
    change (child_of t d :: parents_of t d) with (family_of t d). rewrite E. cbn [bind].
    destruct (normalise_cpd_den (card_in t) POS vs p T (VN vs P) NN) as (p' & E' & T' & N' & D').
    rewrite E'. cbn [bind]. eexists. split; [reflexivity|]. split; [reflexivity|]. split; [reflexivity|]. cbn [pp_data].
    exists vs. split; auto. split; auto. split; auto. split; auto.
    intros a Ha. rewrite D' by auto. rewrite (SCALE vs p) by auto. unfold factor_of. rewrite EP. reflexivity.
  - assert (PN : parents_of t d = []). { unfold parents_of, given_symbols. now rewrite EP. }
    assert (FE : family_of t d = [child_of t d]) by (unfold family_of; now rewrite PN).
    assert (CC : cells_of t d = cardp vl (child_of t d)). { unfold cells_of. rewrite FE, cardp_in. cbn. lia. }
    cbn [bind]. rewrite DAT0. cbn [bind].
    destruct (CR (pd_data d) eq_refl) as (vs & p & P & S & E & T & NN & D).
    assert (VE : vs = [child_of t d]). { rewrite FE in P. apply Permutation_sym, Permutation_length_1_inv in P. auto. }
    rewrite FE in E. cbn [List.length] in E.
    destruct (pd_data d) as [l|] eqn:ED.
    + destruct (DAT l eq_refl) as (L & _). rewrite CC in L. apply Nat.ltb_ge in L. rewrite L. rewrite E. cbn [bind].
      subst vs. destruct (normalise_root_den (card_in t) POS (child_of t d) p T NN) as (p' & E' & T' & N' & D').
      rewrite E'. cbn [bind]. eexists. split; [reflexivity|]. split; [reflexivity|]. split; [now rewrite PN|]. cbn [pp_data].
      exists [child_of t d]. split; auto. split; auto. split; auto. split; auto.
      intros a Ha. rewrite D' by auto. assert (X := SCALE [child_of t d] p P S D a Ha). cbn [hd] in X. rewrite X.
      unfold factor_of. rewrite EP, ED. reflexivity.
    + rewrite E. cbn [bind]. eexists. split; [reflexivity|]. split; [reflexivity|]. split; [now rewrite PN|]. cbn [pp_data].
      exists vs. split; auto. split; auto. split; auto. split; auto.
      intros a Ha. rewrite D by auto. unfold factor_of. rewrite EP, ED. rewrite TD by auto. reflexivity.
Qed.

Lemma potential_declarations_ok : forall l qs, (forall d, In d l -> decl_ok t d) ->
  exists ps, Forall2 pot_means l ps /\
    potential_declarations vl l (Live qs) = Ok (Some (Live (qs ++ ps))).
Proof.
  induction l as [|d l IH]; intros qs H; cbn [potential_declarations].
  - exists []. split; auto. now rewrite app_nil_r.
  - destruct (potential_declaration_ok d) as (p & E & M). { apply H. left. auto. }
    rewrite E. cbn [bind append_to]. destruct (IH (qs ++ [p])) as (ps & F & Es). { intros x Hx. apply H. right. auto. }
    exists (p :: ps). split; [constructor; auto|]. rewrite Es. now rewrite <- app_assoc.
Qed.
Lemma potential_declarations_first : forall l, l <> [] -> (forall d, In d l -> decl_ok t d) ->
  exists ps, Forall2 pot_means l ps /\ potential_declarations vl l Null = Ok (Some (Live ps)).
Proof.
  intros [|d l] NE H; [congruence|]. cbn [potential_declarations].
  destruct (potential_declaration_ok d) as (p & E & M). { apply H. left. auto. }
  rewrite E. cbn [bind append_to]. destruct (potential_declarations_ok l [p]) as (ps & F & Es). { intros x Hx. apply H. right. auto. }
  exists (p :: ps). split; [constructor; auto|]. exact Es.
Qed.
End Decl.
