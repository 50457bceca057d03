(** * Proofs about a corrected NET file after a rejected one (C106) *)
From Coq Require Import Permutation String.
From Verif Require Import Base BaseProofs PotentialModel PotentialSpec VariableModel JoinTreeModel JoinTreeSpec NipModel NipSpec ParseModel ParseSpec
  ParseProofs ParseProofs3 ParseProofs4 ParseProofs6 ParseProofs8 StaleModel StaleSpec StaleProofs.
Import ListNotations.
Open Scope nat_scope.
Local Open Scope res_scope.
Local Open Scope list_scope.
Local Notation len := List.length.

(** ** Nodes do not look at the potentials *)
Definition with_pots (ps : pointer (list parsed_potential)) (g : globals) : globals :=
  mkGlobals (g_counter g) (g_label g) (g_parsed g) (g_relations g) ps.
Lemma node_pots : forall ps g d, node_declaration (with_pots ps g) d = let* r := node_declaration g d in Ok (option_map (with_pots ps) r).
Proof.
  intros ps g d. unfold node_declaration. cbn [g_counter g_label g_parsed g_relations g_potentials with_pots].
  destruct (match nd_label d with Some s => Ok (Live s) | None => Ok (g_label g) end) as [lab| |]; cbn [bind]; try reflexivity.
  destruct (match nd_states d with Some [] => UB | Some l => Ok (Some l) | None => Ok None end) as [[st|]| |]; cbn [bind]; try reflexivity; [|destruct lab; reflexivity].
  destruct (match lab with Null => Ok Null | Live _ => Ok Freed | Freed => UB end) as [nl| |]; cbn [bind]; try reflexivity.
  destruct (new_variable _ _ _ _ _ _ _) as [[[v|] k]| |]; cbn [bind]; try reflexivity.
  destruct (append_to (g_parsed g) _) as [[|l|]| |]; cbn [bind]; try reflexivity.
  destruct (match nd_next d with None => Ok (g_relations g) | Some next => append_to (g_relations g) (len l - 1, next) end) as [rel| |]; reflexivity.
Qed.
Lemma nodes_pots : forall ps l g, node_declarations (with_pots ps g) l = let* r := node_declarations g l in Ok (option_map (with_pots ps) r).
Proof.
  induction l as [|d l IH]; intros g; [reflexivity|]. cbn [node_declarations]. rewrite node_pots.
  destruct (node_declaration g d) as [[g1|]| |]; cbn [bind option_map]; [apply IH|reflexivity..].
Qed.
Lemma nodes_app : forall a b g, node_declarations g (a ++ b) =
  let* r := node_declarations g a in match r with None => Ok None | Some g => node_declarations g b end.
Proof.
  induction a as [|d a IH]; intros b g; [reflexivity|]. cbn [app node_declarations].
  destruct (node_declaration g d) as [[g1|]| |]; cbn [bind]; [apply IH|reflexivity..].
Qed.

(** ** Distributions without parents do not see the further variables *)
Lemma create_one : forall card card' child x, card child = card' child -> create_potential card [child] 1 x = create_potential card' [child] 1 x.
Proof.
  intros card card' child x E. unfold create_potential. destruct (reordering [child] 1) as [[ta ro]| |]; cbn [bind]; try reflexivity.
  assert (Q : for_up 0 1 (fun i '(ca, size) => let* k := rd ro i in let* v := rd [child] k in let* ca' := wr ca i (card v) in
      let* size' := imul size (card v) in Ok (ca', size')) (repeat 0 1, 1) =
    for_up 0 1 (fun i '(ca, size) => let* k := rd ro i in let* v := rd [child] k in let* ca' := wr ca i (card' v) in
      let* size' := imul size (card' v) in Ok (ca', size')) (repeat 0 1, 1)).
  { unfold for_up. cbn [Nat.sub loop_up]. destruct (rd ro 0) as [k| |]; cbn [bind]; try reflexivity.
    destruct k as [|k]; [cbn [rd nth_error bind]; now rewrite E|]. destruct k; reflexivity. }
  rewrite Q. reflexivity.
Qed.

Lemma size_total : forall (card : nat -> nat) (parents : list nat), (forall v, In v parents -> 0 < card v) ->
  forall n lo s, n + lo = len parents -> 0 < s -> (Z.of_nat (s * prod (map card (skipn lo parents))) <= INT_MAX)%Z ->
  loop_up n lo (fun i size => let* p := rd parents i in imul size (card p)) s = Ok (s * prod (map card (skipn lo parents))).
Proof.
  intros card parents P. induction n as [|n IH]; intros lo s N S0 H; cbn [loop_up].
  - rewrite skipn_all2 by lia. cbn [map prod]. f_equal. lia.
  - assert (SK : exists p, rd parents lo = Ok p /\ skipn lo parents = p :: skipn (S lo) parents).
    { assert (L : lo < len parents) by lia. clear -L. revert lo L. induction parents as [|x l IH]; intros [|lo] L; cbn [len skipn] in *; try lia; [exists x; auto|].
      destruct (IH lo ltac:(lia)) as (p & A & B). exists p. split; [exact A|exact B]. }
    destruct SK as (p & R & SK). rewrite R. cbn [bind]. rewrite SK in H |- *. cbn [map prod] in H |- *.
    assert (PP : 0 < card p). { apply P. rewrite <- (firstn_skipn lo parents), SK. apply in_or_app. right. left. reflexivity. }
    assert (PT : 0 < prod (map card (skipn (S lo) parents))).
    { apply prod_pos. apply Forall_forall. intros x Hx. apply in_map_iff in Hx. destruct Hx as (v & <- & Hv). apply P.
      rewrite <- (firstn_skipn (S lo) parents). apply in_or_app. right. exact Hv. }
    assert (H1 : (Z.of_nat (s * card p) <= INT_MAX)%Z) by nia.
    rewrite imul_ok by exact H1. cbn [bind]. rewrite IH; [f_equal; lia|lia|nia|].
    replace (s * card p * prod (map card (skipn (S lo) parents))) with (s * (card p * prod (map card (skipn (S lo) parents)))) by lia. exact H.
Qed.

Section Read.
Variable t : net.
Hypothesis NO : net_ok t.
Variable vl : list pvar.
Hypothesis VL : vars_ok t vl.
Variable more : list pvar.
Notation W := (vl ++ more).

Lemma root_more : forall d, decl_ok t d -> pd_parents d = None -> potential_declaration W d = potential_declaration vl d.
Proof.
  intros d (I & _) N. unfold potential_declaration. rewrite N.
  destruct (search_ok t vl VL (pd_child d)) as (E & L); [apply I; left; reflexivity|].
  rewrite (search_more _ _ _ _ _ E), E. cbn [bind].
  assert (C : cardp W (number t (pd_child d)) = cardp vl (number t (pd_child d))) by (apply card_more; rewrite (proj1 VL); exact L).
  destruct (match pd_data d with Some [] => UB | x => Ok x end) as [[l|]| |]; cbn [bind]; try reflexivity.
  - rewrite C. now rewrite (create_one _ (cardp vl) _ (Some l) C).
  - now rewrite (create_one _ (cardp vl) _ None C).
Qed.

Lemma given_rejected : forall d l stale, decl_ok t d -> pd_parents d <> None -> pd_data d = Some l -> len l = cells_of t d ->
  left_behind t vl stale -> (Z.of_nat (cells_of t d * prod (map (card_in t) stale)) <= INT_MAX)%Z ->
  potential_after W stale d = Ok (None, parents_of t d ++ stale).
Proof.
  intros d l stale OK HP HD HL LB MAX.
  assert (D : exists r, potential_after W stale d = Ok r /\ snd r = parents_of t d ++ stale).
  { destruct OK as (I & _ & _ & _). destruct LB as (F & P2). unfold potential_after.
    destruct (pd_parents d) as [gs|] eqn:EP; [|congruence]. assert (GS : given_symbols d = gs) by (unfold given_symbols; now rewrite EP).
    destruct (search_ok t vl VL (pd_child d)) as (SC & LC); [apply I; left; reflexivity|].
    rewrite (search_more _ _ _ _ _ SC). cbn [bind].
    assert (IG : incl gs (symbols t)) by (intros x Hx; apply I; right; now rewrite GS).
    rewrite (read_known t vl VL more gs stale IG). cbn [bind negb]. rewrite HD.
    assert (PO : map (number t) (rev gs) = parents_of t d) by (unfold parents_of; now rewrite GS). rewrite PO.
    assert (F1 : Forall (fun v => v < len vl) (parents_of t d ++ stale)) by (apply Forall_app; split; [rewrite <- PO; apply (parents_lt t vl VL gs IG)|exact F]).
    assert (CL := cards_left t vl VL more _ F1).
    assert (POS : 0 < prod (map (card_in t) (family_of t d))) by (apply prod_pos, map_card_pos, card_in_pos; exact NO).
    destruct l as [|x l]; [exfalso; cbn [len] in HL; unfold cells_of in HL; lia|]. cbn [bind].
    assert (CC : cardp W (number t (pd_child d)) = card_in t (child_of t d)) by (apply (card_known t vl VL more); apply I; left; reflexivity).
    assert (CE : cardp W (number t (pd_child d)) * prod (map (cardp W) (parents_of t d ++ stale)) = cells_of t d * prod (map (card_in t) stale)).
    { rewrite CC, CL. unfold cells_of, family_of. rewrite map_app, prod_app. cbn [map prod]. lia. }
    destruct (parents_of t d ++ stale) as [|u us] eqn:EU.
    { exfalso. apply app_eq_nil in EU. destruct EU as (_ & ->). cbn in P2. lia. }
    assert (Q : for_up 0 (len (u :: us)) (fun i size => let* p := rd (u :: us) i in imul size (cardp W p)) (cardp W (number t (pd_child d))) =
      Ok (cells_of t d * prod (map (card_in t) stale))).
    { unfold for_up. rewrite Nat.sub_0_r, size_total.
      - cbn [skipn]. now rewrite CE.
      - intros v Hv. rewrite Forall_forall in F1. rewrite card_more by (apply F1; exact Hv). rewrite (cardp_in t vl VL). apply card_in_pos. exact NO.
      - lia.
      - rewrite CC. apply card_in_pos. exact NO.
      - cbn [skipn]. rewrite CE. exact MAX. }
    rewrite Q. cbn [bind]. assert (LT : Nat.ltb (len (x :: l)) (cells_of t d * prod (map (card_in t) stale)) = true).
    { apply Nat.ltb_lt. rewrite HL. fold (cells_of t d) in POS. nia. }
    rewrite LT. eexists. split; reflexivity. }
  destruct D as ((p & st) & E & ES). cbn [snd] in ES. subst st.
  destruct (exact_rejected t NO vl VL more d l stale _ OK HP HD HL LB E) as (st & Q & _). rewrite E, Q. f_equal. congruence.
Qed.

Lemma potentials_given : forall a d l b stale ps, Forall (fun x => pd_parents x = None) a -> (forall x, In x a -> decl_ok t x) ->
  decl_ok t d -> pd_parents d <> None -> pd_data d = Some l -> len l = cells_of t d ->
  left_behind t vl stale -> (Z.of_nat (cells_of t d * prod (map (card_in t) stale)) <= INT_MAX)%Z ->
  exists ps', potentials_after W stale (a ++ d :: b) (ptr ps) = Ok (false, ps', parents_of t d ++ stale).
Proof.
  intros a d l b stale ps FA OA OK HP HD HL LB MAX. revert ps. induction FA as [|x a N FA IH]; intros ps; cbn [app potentials_after].
  - rewrite (given_rejected d l stale OK HP HD HL LB MAX). cbn [bind]. eauto.
  - assert (OX : decl_ok t x) by (apply OA; left; reflexivity).
    destruct (potential_declaration_ok t NO vl VL x OX) as (p & E & _).
    unfold potential_after at 1. rewrite N, (root_more x OX N), E. cbn [bind]. rewrite append_ptr. cbn [bind].
    apply IH. intros y Hy. apply OA. right. exact Hy.
Qed.
End Read.

(** ** The two files *)
Lemma rejected_again : forall ds wrong stale t d l c k1 k2, spoilt ds wrong stale -> (exists u, In u stale /\ 2 <= card_in (mkNet ds wrong) u) ->
  net_ok t -> n_nodes t = ds -> first_given (n_potentials t) d -> pd_data d = Some l -> len l = cells_of t d ->
  same_labels ds -> (c + 2 * Z.of_nat (len ds) <= LONG_MAX)%Z ->
  (Z.of_nat (cells_of t d * prod (map (card_in t) stale)) <= INT_MAX)%Z ->
  exists g1 g2, parse_all k1 k2 (fresh_globals c) [] [mkNet ds wrong; t] = Ok [Rejected g1 stale; Rejected g2 (parents_of t d ++ stale)].
Proof.
  intros ds wrong stale t d l c k1 k2 SP (u & IU & CU) NO ND (a & b & EP & FA & HP) HD HL SL HC MAX.
  destruct (first_rejected ds wrong stale c k1 k2 SP) as (g & E & G & V & LT & POS & g0 & ps & E0 & G0); [lia|].
  destruct t as [ds' pots]. cbn [n_nodes n_potentials] in *. subst ds' pots. set (t := mkNet ds (a ++ d :: b)) in *.
  assert (LB : left_behind t (mkvars c ds) stale) by (split; [exact LT|exact (prod_two _ stale u POS IU CU)]).
  (* the nodes of both files *)
  destruct (node_declarations_ok (ds ++ ds) c Null [] [] Null) as (lab & EN).
  { intros x Hx. apply (no_states t NO). apply in_app_or in Hx. destruct Hx; assumption. }
  { intros l1 d1 l2 d2 l3 Q N1. assert (I1 : In d1 ds). { assert (X : In d1 (ds ++ ds)) by (rewrite Q; apply in_elt). apply in_app_or in X. tauto. }
    assert (I2 : In d2 ds). { assert (X : In d2 (ds ++ ds)) by (rewrite Q; apply in_or_app; right; right; apply in_elt). apply in_app_or in X. tauto. }
    destruct SL as [SL|SL]; [exfalso; exact (N1 (SL d1 I1))|exact (SL d2 I2)]. }
  { left. reflexivity. }
  { rewrite app_length. lia. }
  cbn [app] in EN. change (len (@nil pvar)) with 0 in EN. change (mkGlobals c Null (ptr []) (ptr []) Null) with (fresh_globals c) in EN.
  rewrite nodes_app, E0 in EN. cbn [bind] in EN.
  change (g = with_pots (ptr ps) g0) in G0.
  assert (GP : g_parsed g0 = Live (mkvars c ds)) by (rewrite G0 in G; exact G).
  match type of EN with _ = Ok ?r => destruct (nodes_more ds g0 r (mkvars c ds)) as (g2 & more & EQ & G2); [|exact GP|exact EN|] end.
  { intros x Hx. apply (no_states t NO x Hx). }
  assert (EN2 : node_declarations g ds = Ok (Some (with_pots (ptr ps) g2))) by (rewrite G0, nodes_pots, EN, EQ; reflexivity).
  assert (OK : forall x, In x (a ++ d :: b) -> decl_ok t x) by exact (no_decl t NO).
  destruct (potentials_given t NO (mkvars c ds) (V _) more a d l b stale ps FA) as (ps' & E2); try assumption.
  { intros x Hx. apply OK. apply in_or_app. left. exact Hx. }
  { apply OK. apply in_elt. }
  cbn [parse_all]. rewrite E. cbn [bind]. unfold parse_after. cbn [n_nodes n_potentials t]. rewrite EN2. cbn [bind].
  cbn [g_parsed g_potentials with_pots]. rewrite G2, E2. cbn [bind negb]. eexists _, _. reflexivity.
Qed.
