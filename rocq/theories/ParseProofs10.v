(** * Property lemmas about the parser *)
From Coq Require Import Permutation Sorted String Field.
From Verif Require Import Base BaseProofs PotentialModel PotentialSpec PotentialProofs VariableModel VariableProofs JoinTreeModel
  AssignSpec AssignProofs JoinTreeSpec NipModel NipSpec NipProofs NipProofs3 SliceModel SliceSpec LearnModel LearnSpec
  GraphModel GraphSpec GraphProofs8 GraphCheck ParseModel
  ParseSpec ParseProofs ParseProofs2 ParseProofs3 ParseProofs4 ParseProofs5 ParseProofs6 ParseProofs7 ParseProofs8 ParseProofs9
  ParseCheck.
Import ListNotations.
Open Scope nat_scope.
Local Open Scope res_scope.
Local Notation len := List.length.

(** ** Sizes *)
Lemma prod_perm : forall a b : list nat, Permutation a b -> prod a = prod b.
Proof. intros a b P. induction P; cbn in *; try lia; nia. Qed.
Lemma prod_incl : forall (card : nat -> nat) c l, (forall v, 0 < card v) -> NoDup c -> incl c l ->
  prod (map card c) <= prod (map card l).
Proof.
  intros card c. induction c as [|v c IH]; intros l HC ND I.
  - cbn. induction l as [|x l IHl]; cbn; [lia|]. assert (Q := HC x). assert (prod [] <= prod (map card l)) by (apply IHl; intros y []). cbn in *. nia.
  - inversion ND as [|? ? NI ND']; subst. assert (IV : In v l) by (apply I; left; auto).
    apply in_split in IV. destruct IV as (l1 & l2 & ->).
    rewrite (prod_perm (map card (l1 ++ v :: l2)) (map card (v :: l1 ++ l2))) by (apply Permutation_map, Permutation_sym, Permutation_middle).
    cbn. apply Nat.mul_le_mono_l. apply IH; auto. intros x Hx. assert (Q := I x (or_intror Hx)).
    apply in_app_iff in Q. apply in_app_iff. destruct Q as [Q|[<-|Q]]; auto. contradiction.
Qed.
Lemma small_fits : forall k1 k2 t, net_ok t -> (Z.of_nat (prod (map (card_in t) (seq 0 (size t)))) <= INT_MAX)%Z ->
  cliques_fit k1 k2 t.
Proof.
  intros k1 k2 t NO H vl iface g gt c _ _ _ ND I _. unfold fits.
  assert (Q := prod_incl (card_in t) c (seq 0 (size t)) (card_in_pos t NO) ND I). lia.
Qed.

(** ** C30 *)
Lemma C30_factors_lemma : forall k1 k2 c t names m g, net_ok t -> (c + Z.of_nat (size t) <= LONG_MAX)%Z ->
  parse_model k1 k2 (fresh_globals c) t = Ok (Some (names, m, g)) ->
  forall a, valid (card_in t) a -> (original m a * priors m (m_indep m) a)%Qc = parsed_joint t a.
Proof.
  intros k1 k2 c t names m g NO HC E a Ha. destruct (parse_lemma t NO c k1 k2 _ HC E) as (names' & m' & g' & Q & P).
  injection Q as <- <- <-. now apply (whole_joint t NO names).
Qed.
Lemma C30_lemma : forall k1 k2 c t names m g, net_ok t -> children_first t -> proper t -> (c + Z.of_nat (size t) <= LONG_MAX)%Z ->
  parse_model k1 k2 (fresh_globals c) t = Ok (Some (names, m, g)) ->
  forall a, valid (card_in t) a -> (original m a * priors m (m_indep m) a)%Qc = file_joint t a.
Proof.
  intros k1 k2 c t names m g NO CF PR HC E a Ha. rewrite (C30_factors_lemma k1 k2 c t names m g NO HC E a Ha). now apply proper_joint.
Qed.
Definition same_cards : forall v, card_in px_net v = card_in px_net v := fun v => eq_refl.
Lemma px_rev_proper : proper px_rev.
Proof.
  intros d a Hd Ha. assert (A : a 0 < 2 /\ a 1 < 2) by (split; apply Ha). cbn in Hd.
  destruct Hd as [<-|[<-|[<-|[]]]]; unfold sumv, upd, den, cell, family_of, child_of, parents_of; cbn;
    destruct (a 0) as [|[|]]; try lia; destruct (a 1) as [|[|]]; try lia; apply Qc_is_canon; vm_compute; reflexivity.
Qed.
Lemma C30_refuted_lemma : exists t names m g a, net_ok t /\ proper t /\
  parse_model kz kz (fresh_globals 0) t = Ok (Some (names, m, g)) /\ valid (card_in t) a /\
  (original m a * priors m (m_indep m) a)%Qc <> file_joint t a.
Proof.
  destruct (parse_succeeds px_rev px_rev_ok 0%Z kz kz) as (names & m & g & E & P).
  { unfold LONG_MAX. cbn. lia. } { apply small_fits; [apply px_rev_ok|]. unfold INT_MAX. cbn. lia. }
  exists px_rev, names, m, g, (fun _ => 0). split; [apply px_rev_ok|]. split; [apply px_rev_proper|]. split; auto.
  assert (V : valid (card_in px_rev) (fun _ => 0)) by (intros v; apply (card_in_pos _ px_rev_ok)). split; auto.
  rewrite (whole_joint px_rev px_rev_ok names m P _ V). intros H. apply (f_equal this) in H. vm_compute in H. discriminate H.
Qed.

(** ** C54 *)
Lemma C54_lemma : forall k1 k2 c t vl m g, net_ok t -> (c + Z.of_nat (size t) <= LONG_MAX)%Z ->
  yyparse k1 k2 (fresh_globals c) t = Ok (Some (vl, m, g)) ->
  len vl = size t /\
  forall v x, nth_error vl v = Some x ->
    (Nat.testbit (pv_iface x) 2 = true <-> old_outgoing t v) /\
    (Nat.testbit (pv_iface x) 1 = true <-> outgoing t v) /\
    (Nat.testbit (pv_iface x) 0 = true <-> incoming t v) /\
    pv_next x = next_in t v /\ (forall u, pv_previous x = Some u <-> next_in t u = Some v).
Proof.
  intros k1 k2 c t vl m g NO HC H. destruct (steps t NO c HC) as (vl' & gr & g1 & ps & FV & _ & OG & AG & F & E).
  rewrite E in H.
  destruct (graph_to_cliques (k1 vl') (k2 vl') (cardp vl') (iface_of vl') gr) as [[jt e]| |] eqn:EG; cbn [bind] in H; try discriminate H.
  destruct (build t NO c vl' FV gr OG AG ps F _ _ jt e EG) as (m' & E5 & Q). rewrite E5 in H. cbn [bind] in H.
  injection H as <- <- <-. split; [apply FV|]. intros v x Hx.
  assert (Hv : v < size t). { rewrite <- (proj1 (proj1 FV)). apply nth_error_Some. congruence. }
  assert (x = pv vl' v) as -> by (unfold pv; symmetry; now apply nth_error_nth).
  destruct (proj2 FV v Hv) as (_ & _ & A & B & C & D & G). auto.
Qed.

(** ** Several files *)
Lemma first_node : forall g d l, g_parsed g = Freed -> states d <> [] ->
  (forall r, node_declarations g (d :: l) <> Ok (Some r)).
Proof.
  intros g d l HF ST r H. cbn [node_declarations] in H. unfold node_declaration in H.
  assert (ES : nd_states d = Some (states d)). { unfold states in *. destruct (nd_states d); congruence. }
  rewrite ES in H. destruct (states d) as [|s ss] eqn:E; [congruence|].
  destruct (nd_label d).
  - cbn [bind] in H.
    match type of H with context [new_variable ?a ?b ?c ?d ?e ?f ?h] => destruct (new_variable a b c d e f h) as [[[v|] k]| |]; cbn [bind] in H; try discriminate H end.
    rewrite HF in H. discriminate H.
  - cbn [bind] in H. destruct (g_label g); cbn [bind] in H; try discriminate H;
    match type of H with context [new_variable ?a ?b ?c ?d ?e ?f ?h] => destruct (new_variable a b c d e f h) as [[[v|] k]| |]; cbn [bind] in H; try discriminate H end;
    rewrite HF in H; discriminate H.
Qed.
Lemma parsed_freed : forall k1 k2 g t names m g', parse_model k1 k2 g t = Ok (Some (names, m, g')) -> g_parsed g' = Freed.
Proof.
  intros k1 k2 g t names m g' H. rewrite parse_finish in H.
  destruct (yyparse k1 k2 g t) as [[[[vl m1] g1]|]| |]; cbn [bind] in H; try discriminate H.
  unfold finish in H.
  match type of H with context [fill_interfaces ?a ?b] => destruct (fill_interfaces a b) as [[prev out]| |]; cbn [bind] in H; try discriminate H end.
  match type of H with bind ?x _ = _ => destruct x as [[ic oc]| |]; cbn [bind] in H; try discriminate H end.
  injection H as _ _ <-. reflexivity.
Qed.
Lemma second_parse_lemma : forall k1 k2 k1' k2' g t t' names m g',
  parse_model k1 k2 g t = Ok (Some (names, m, g')) ->
  n_nodes t' <> [] -> (forall d, In d (n_nodes t') -> states d <> []) ->
  forall r, parse_model k1' k2' g' t' <> Ok (Some r).
Proof.
  intros k1 k2 k1' k2' g t t' names m g' H NE ST r H'. apply parsed_freed in H.
  rewrite parse_finish in H'. unfold yyparse in H'. destruct (n_nodes t') as [|d l] eqn:EN; [congruence|].
  destruct (node_declarations g' (d :: l)) as [[g2|]| |] eqn:ED; cbn [bind] in H'; try discriminate H'.
  eapply first_node; [exact H| |exact ED]. apply ST. left. auto.
Qed.

(** In a proper second file the list is used after it was freed. *)
Lemma second_parse_ub : forall k1 k2 k1' k2' c t t' names m g', net_ok t -> net_ok t' ->
  (c + Z.of_nat (size t) + Z.of_nat (size t') <= LONG_MAX)%Z ->
  parse_model k1 k2 (fresh_globals c) t = Ok (Some (names, m, g')) ->
  parse_model k1' k2' g' t' = UB.
Proof.
  intros k1 k2 k1' k2' c t t' names m g' NO NO' HC H.
  assert (GF := parsed_freed _ _ _ _ _ _ _ H).
  assert (GC : g_counter g' = (c + Z.of_nat (size t))%Z).
  { assert (V0 := vl0_ok t NO c). rewrite parse_finish in H.
    destruct (node_declarations_ok (n_nodes t) c Null [] [] Null) as (lab & E1); auto.
    { apply (no_states t NO). } { apply (no_labels t NO). } { unfold size in HC. lia. }
    unfold yyparse, fresh_globals in H. change (mkGlobals c Null Null Null Null) with (mkGlobals c Null (ptr []) (ptr []) Null) in H.
    rewrite E1 in H. cbn [bind] in H. cbn [g_parsed g_relations g_potentials g_counter g_label] in H.
    repeat match type of H with
      | context [match ptr ?x with _ => _ end] => destruct (ptr x); cbn [bind] in H; try discriminate H
      end.
    all: match type of H with (let* _ := ?b in _) = _ => destruct b as [[[[vl m1] g1]|]| |] eqn:EB; cbn [bind] in H; try discriminate H end.
    all: assert (G1 : g_counter g1 = (c + Z.of_nat (size t))%Z).
    all: try (clear H; unfold input_action in EB;
      repeat (match type of EB with
      | (let* _ := ?x in _) = _ => destruct x as [?| |] eqn:?; cbn [bind] in EB; try discriminate EB
      | match ?x with _ => _ end = _ => destruct x eqn:?; try discriminate EB
      end); injection EB as _ _ <-; reflexivity).
    all: unfold finish in H;
      match type of H with context [fill_interfaces ?a ?b] => destruct (fill_interfaces a b) as [[prev out]| |]; cbn [bind] in H; try discriminate H end;
      match type of H with bind ?x _ = _ => destruct x as [[ic oc]| |]; cbn [bind] in H; try discriminate H end;
      injection H as _ _ <-; exact G1. }
  rewrite parse_finish. unfold yyparse. assert (NE := no_nodes t' NO'). destruct (n_nodes t') as [|d l] eqn:EN; [congruence|].
  assert (ST := no_states t' NO'). rewrite EN in ST. destruct (ST d (or_introl eq_refl)) as (S1 & S2).
  cbn [node_declarations]. unfold node_declaration.
  assert (ES : nd_states d = Some (states d)). { unfold states in *. destruct (nd_states d); congruence. }
  rewrite ES. destruct (states d) as [|s ss] eqn:E; [congruence|].
  assert (NV : exists v k, new_variable (g_counter g') true true true (Some (nd_symbol d)) (Some (map Some (s :: ss))) (len (s :: ss)) = Ok (Some v, k)).
  { eexists _, _. apply (new_variable_ok (g_counter g') (Some (nd_symbol d)) (s :: ss)). rewrite GC. assert (Q : 0 < size t') by (unfold size; rewrite EN; cbn; lia). lia. }
  destruct NV as (v & k & NV).
  destruct (nd_label d).
  - cbn [bind]. rewrite NV. cbn [bind]. rewrite GF. reflexivity.
  - cbn [bind]. destruct (g_label g'); cbn [bind]; auto; rewrite NV; cbn [bind]; rewrite GF; reflexivity.
Qed.

(** ** Labels *)
Lemma label_lemma : forall k1 k2 c t d1 d2 l, n_nodes t = d1 :: d2 :: l ->
  nd_label d1 <> None -> nd_label d2 = None -> states d1 <> [] -> states d2 <> [] -> (c < LONG_MAX)%Z ->
  parse_model k1 k2 (fresh_globals c) t = UB.
Proof.
  intros k1 k2 c t d1 d2 l EN L1 L2 S1 S2 HC. rewrite parse_finish. unfold yyparse. rewrite EN.
  assert (ES : forall d, states d <> [] -> nd_states d = Some (states d)). { intros d H. unfold states in *. destruct (nd_states d); congruence. }
  cbn [node_declarations]. unfold node_declaration. rewrite !ES by auto. destruct (nd_label d1) as [s1|]; [|congruence]. rewrite L2.
  destruct (states d1) as [|a1 r1]; [congruence|]. destruct (states d2) as [|a2 r2]; [congruence|].
  cbn [bind fresh_globals g_label g_counter].
  rewrite (new_variable_ok c (Some (nd_symbol d1)) (a1 :: r1)) by auto. cbn [bind g_parsed append_to].
  destruct (nd_next d1); reflexivity.
Qed.

(** ** The case *)
Lemma px_acyclic : acyclic px_net.
Proof.
  exists [2; 1; 0]. split. { apply (Permutation_rev [2; 1; 0]). }
  intros l1 v l2 E u (d & Hd & Hv & Hu). cbn in Hd.
  destruct Hd as [<-|[<-|[<-|[]]]]; cbn in Hu, Hv; [destruct Hu|..]; destruct Hu as [<-|[]]; subst v;
    destruct l1 as [|x1 [|x2 [|x3 l1]]]; cbn in E; try (injection E; intros; subst; discriminate); injection E; intros; subst; cbn; auto;
    try discriminate; try (destruct l1; discriminate).
Qed.
Lemma px_two_slices : two_slices px_net.
Proof.
  intros u v (H & _) (d & Hd & Hv & Hu). cbn in Hd.
  destruct Hd as [<-|[<-|[<-|[]]]]; cbn in Hu, Hv; [destruct Hu|..]; subst v; apply H; reflexivity.
Qed.
Lemma px_columns : columns_ok px_net.
Proof. intros d a Hd Ha H. rewrite (px_proper d a Hd Ha) in H. discriminate H. Qed.
Lemma px_fits : cliques_fit kz kz px_net.
Proof. apply small_fits; [apply px_ok|]. unfold INT_MAX. cbn. lia. Qed.
Open Scope string_scope.
Lemma px_observations : observations_ok px_net [("Y", "off"); ("X0", "a")].
Proof.
  split; [repeat constructor; cbn; intuition discriminate|]. split.
  - intros v. destruct v as [|[|[|[|v]]]]; cbn; repeat constructor; lia.
  - intros s x [E|[E|[]]]; injection E as <- <-; cbn; auto 6.
Qed.
Lemma C65_lemma : forall t names m obs, net_ok t -> children_first t -> proper t ->
  parsed t names m -> observations_ok t obs ->
  exists m1 m2,
    run names m (Priors false :: map (fun o => Insert (Hard (fst o) (snd o))) obs) = Ok m1 /\
    make_consistent_model m1 = Ok m2 /\
    (forall v, v < size t -> exists m3 r, get_probability m2 v = Ok (m3, Some r) /\ len r = card_in t v /\
       forall x, x < card_in t v ->
         nth x r 0%Qc = (mass_where t (file_joint t) obs v x / mass t (file_joint t) obs)%Qc) /\
    exists m3, model_prob_mass m2 = Ok (m3, mass t (file_joint t) obs).
Proof.
  intros t names m obs NO CF PR P OA. destruct (posterior_lemma t NO names m P obs OA) as (m1 & m2 & E1 & E2 & G & M).
  unfold hards in E1. rewrite map_map in E1. exists m1, m2. split; [exact E1|]. split; [exact E2|].
  assert (POS := card_in_pos t NO). assert (V0 : valid (card_in t) (fun _ => 0)) by (intros w; apply POS).
  assert (J : forall a, valid (card_in t) a -> given (observed t obs a) (parsed_joint t a) = given (observed t obs a) (file_joint t a)).
  { intros a Ha. now rewrite (proper_joint t NO CF PR a Ha). }
  assert (EM : mass t (parsed_joint t) obs = mass t (file_joint t) obs) by (apply sumv_ext; auto).
  split.
  - intros v Hv. destruct (G v Hv) as (m3 & r & E3 & LR & Q). exists m3, r. split; auto. split; auto. intros x Hx. rewrite (Q x Hx), EM. f_equal.
    apply sumv_ext; auto. intros w. unfold upd. destruct (Nat.eqb_spec w v) as [->|]; auto.
  - destruct M as (m3 & E3). exists m3. now rewrite E3, EM.
Qed.
