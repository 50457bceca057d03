(** * Proofs about the parents that a rejected NET file leaves behind (C106) *)
From Coq Require Import Permutation String.
From Verif Require Import Base BaseProofs PotentialModel PotentialSpec VariableModel JoinTreeModel JoinTreeSpec NipModel NipSpec ParseModel ParseSpec
  ParseProofs ParseProofs3 ParseProofs4 ParseProofs6 ParseProofs8 MemoryProofs27 StaleModel StaleSpec.
Import ListNotations.
Open Scope nat_scope.
Local Open Scope res_scope.
Local Open Scope list_scope.
Local Notation len := List.length.

(** ** The same as before without parents left behind *)
Lemma read_same : forall vl symbols acc, parent_list vl symbols acc =
  let* (known, l) := read_parents vl symbols acc in Ok (if (known : bool) then Some l else None).
Proof.
  induction symbols as [|s l IH]; intros acc; [reflexivity|]. cbn [parent_list read_parents].
  destruct (search_list vl s 0) as [[v|]| |]; cbn [bind]; [apply IH|reflexivity..].
Qed.
Lemma potential_same : forall vl d, potential_declaration vl d = let* (p, _) := potential_after vl [] d in Ok p.
Proof.
  intros vl d. unfold potential_after. destruct (pd_parents d) as [symbols|] eqn:EP.
  2:{ destruct (potential_declaration vl d); reflexivity. }
  unfold potential_declaration. rewrite EP. destruct (search_list vl (pd_child d) 0) as [child| |]; cbn [bind]; try reflexivity.
  rewrite read_same. destruct (read_parents vl symbols []) as [[[] parents]| |]; cbn [bind negb]; try reflexivity.
  destruct (match pd_data d with Some [] => UB | x => Ok x end) as [doubles| |]; cbn [bind]; try reflexivity.
  destruct parents as [|u parents]; cbn [bind]; try reflexivity. destruct child as [child|]; cbn [bind]; try reflexivity.
  destruct (for_up 0 (len (u :: parents)) _ _) as [size| |]; cbn [bind]; try reflexivity.
  destruct (match doubles with Some l => Nat.ltb (len l) size | None => false end); cbn [bind]; try reflexivity.
  destruct (create_potential _ _ _ _) as [p| |]; cbn [bind]; try reflexivity.
  destruct (normalise_cpd p) as [[[q|] e]| |]; reflexivity.
Qed.
Lemma potential_emptied : forall vl d p stale, potential_after vl [] d = Ok (Some p, stale) -> stale = [].
Proof.
  intros vl d p stale. unfold potential_after. destruct (pd_parents d) as [symbols|].
  2:{ destruct (potential_declaration vl d) as [q| |]; cbn [bind]; congruence. }
  destruct (search_list vl (pd_child d) 0) as [child| |]; cbn [bind]; try discriminate.
  destruct (read_parents vl symbols []) as [[[] parents]| |]; cbn [bind negb]; try discriminate.
  destruct (match pd_data d with Some [] => UB | x => Ok x end) as [doubles| |]; cbn [bind]; try discriminate.
  destruct parents as [|u parents]; try discriminate. destruct child as [child|]; try discriminate.
  destruct (for_up 0 (len (u :: parents)) _ _) as [size| |]; cbn [bind]; try discriminate.
  destruct (match doubles with Some l => Nat.ltb (len l) size | None => false end); try discriminate.
  destruct (create_potential _ _ _ _) as [q| |]; cbn [bind]; try discriminate.
  destruct (normalise_cpd q) as [[[r|] e]| |]; cbn [bind]; congruence.
Qed.
Lemma potentials_same : forall l vl ps, potential_declarations vl l ps =
  let* (complete, ps, _) := potentials_after vl [] l ps in Ok (if (complete : bool) then Some ps else None).
Proof.
  induction l as [|d l IH]; intros vl ps; [reflexivity|]. cbn [potential_declarations potentials_after].
  rewrite potential_same. destruct (potential_after vl [] d) as [[[p|] stale]| |] eqn:E; cbn [bind]; try reflexivity.
  apply potential_emptied in E. subst stale. destruct (append_to ps p) as [ps'| |]; cbn [bind]; [apply IH|reflexivity..].
Qed.
Definition model_read (e : ending) : option (list named_variable * model * globals) :=
  match e with Accepted names m g _ => Some (names, m, g) | _ => None end.
Lemma parse_same : forall k1 k2 g t, parse_model k1 k2 g t = let* e := parse_after k1 k2 g [] t in Ok (model_read e).
Proof.
  intros k1 k2 g t. unfold parse_model, parse_after, yyparse. destruct (node_declarations g (n_nodes t)) as [[g1|]| |]; cbn [bind]; try reflexivity.
  destruct (g_parsed g1) as [|vl|]; cbn [bind]; try reflexivity. rewrite potentials_same.
  destruct (potentials_after vl [] (n_potentials t) (g_potentials g1)) as [[[[] ps] stale]| |]; cbn [bind negb]; try reflexivity.
  destruct (input_action k1 k2 g1 vl ps) as [[[[vl2 m] g2]|]| |]; cbn [bind]; try reflexivity.
  destruct (finish vl2 m g2) as [[[[names m2] g3]|]| |]; reflexivity.
Qed.

(** ** Variables that were found stay found *)
Lemma search_more : forall vl more s i v, search_list vl s i = Ok (Some v) -> search_list (vl ++ more) s i = Ok (Some v).
Proof.
  induction vl as [|x vl IH]; intros more s i v E; [discriminate E|]. cbn [app search_list] in *.
  destruct (nv_symbol (pv_named x)) as [y|]; [|discriminate E]. destruct (String.eqb s y); [exact E|]. apply IH. exact E.
Qed.
Lemma card_more : forall vl more v, v < len vl -> cardp (vl ++ more) v = cardp vl v.
Proof. intros vl more v H. unfold cardp. now rewrite nth_error_app1. Qed.

Lemma size_value : forall (card : nat -> nat) (parents : list nat) n lo s r, n + lo = len parents ->
  loop_up n lo (fun i size => let* p := rd parents i in imul size (card p)) s = Ok r -> r = s * prod (map card (skipn lo parents)).
Proof.
  intros card parents. induction n as [|n IH]; intros lo s r N E; cbn [loop_up] in E.
  - injection E as <-. rewrite skipn_all2 by lia. cbn. lia.
  - assert (SK : exists p, rd parents lo = Ok p /\ skipn lo parents = p :: skipn (S lo) parents).
    { assert (L : lo < len parents) by lia. clear -L. revert lo L. induction parents as [|x l IH]; intros [|lo] L; cbn [len skipn] in *; try lia; [exists x; auto|].
      destruct (IH lo ltac:(lia)) as (p & A & B). exists p. split; [exact A|exact B]. }
    destruct SK as (p & R & SK). rewrite R in E. cbn [bind] in E. unfold imul in E.
    destruct (Z.of_nat s * Z.of_nat (card p) <=? INT_MAX)%Z; cbn [bind] in E; [|discriminate E].
    apply IH in E; [|lia]. rewrite SK, E. cbn [map prod]. lia.
Qed.

Section Read.
Variable t : net.
Hypothesis NO : net_ok t.
Variable vl : list pvar.
Hypothesis VL : vars_ok t vl.
Variable more : list pvar.
Notation W := (vl ++ more).

Lemma read_known : forall l acc, incl l (symbols t) -> read_parents W l acc = Ok (true, map (number t) (rev l) ++ acc).
Proof.
  induction l as [|s l IH]; intros acc I; [reflexivity|]. cbn [read_parents].
  destruct (search_ok t vl VL s) as (E & _); [apply I; left; reflexivity|]. rewrite (search_more _ _ _ _ _ E). cbn [bind].
  rewrite IH by (intros x Hx; apply I; right; exact Hx). cbn [rev]. rewrite map_app, <- app_assoc. reflexivity.
Qed.
Lemma card_known : forall s, In s (symbols t) -> cardp W (number t s) = card_in t (number t s).
Proof. intros s H. destruct (search_ok t vl VL s H) as (_ & L). rewrite card_more by (rewrite (proj1 VL); exact L). apply cardp_in. exact VL. Qed.

(** Parents left behind: variables of the file, one of them with more than one state. *)
Definition left_behind (stale : list nat) : Prop := Forall (fun v => v < len vl) stale /\ 2 <= prod (map (card_in t) stale).
Lemma cards_left : forall l, Forall (fun v => v < len vl) l -> map (cardp W) l = map (card_in t) l.
Proof. intros l F. induction F as [|v l L F IH]; [reflexivity|]. cbn [map]. rewrite IH, card_more by exact L. f_equal. apply cardp_in. exact VL. Qed.
Lemma parents_lt : forall l, incl l (symbols t) -> Forall (fun v => v < len vl) (map (number t) (rev l)).
Proof.
  intros l I. apply Forall_forall. intros v Hv. apply in_map_iff in Hv. destruct Hv as (s & <- & Hs). apply in_rev in Hs.
  rewrite (proj1 VL). exact (proj2 (search_ok t vl VL s (I s Hs))).
Qed.
Lemma prod_cards_pos : forall l, 0 < prod (map (card_in t) l).
Proof. intros l. apply prod_pos. apply map_card_pos. apply card_in_pos. exact NO. Qed.

(** A potential with exactly its numbers is given up. *)
Lemma exact_rejected : forall d l stale r, decl_ok t d -> pd_parents d <> None -> pd_data d = Some l -> len l = cells_of t d ->
  left_behind stale -> potential_after W stale d = Ok r -> exists stale', r = (None, stale') /\ left_behind stale'.
Proof.
  intros d l stale r (I & _ & _ & _) HP HD HL (F & P2) E. unfold potential_after in E.
  destruct (pd_parents d) as [gs|] eqn:EP; [|congruence]. assert (GS : given_symbols d = gs) by (unfold given_symbols; now rewrite EP).
  destruct (search_ok t vl VL (pd_child d)) as (SC & LC); [apply I; left; reflexivity|].
  rewrite (search_more _ _ _ _ _ SC) in E. cbn [bind] in E.
  assert (IG : incl gs (symbols t)) by (intros x Hx; apply I; right; now rewrite GS).
  rewrite (read_known gs stale IG) in E. cbn [bind negb] in E. rewrite HD in E.
  remember (map (number t) (rev gs) ++ stale) as parents eqn:EPS.
  assert (LB : left_behind parents).
  { split; [rewrite EPS; apply Forall_app; split; [apply parents_lt; exact IG|exact F]|]. rewrite EPS, map_app, prod_app.
    assert (Q := prod_cards_pos (map (number t) (rev gs))). nia. }
  destruct l as [|x l]; cbn [bind] in E; [discriminate E|]. set (L := x :: l) in *.
  destruct parents as [|u ps]; [destruct LB as (_ & X); cbn in X; lia|].
  destruct (for_up 0 (len (u :: ps)) _ _) as [size| |] eqn:ES; cbn [bind] in E; try discriminate E.
  unfold for_up in ES. apply size_value in ES; [|lia]. cbn [skipn] in ES.
  assert (SZ : size = cells_of t d * prod (map (card_in t) stale)).
  { rewrite ES, (cards_left (u :: ps) (proj1 LB)), (card_known (pd_child d)) by (apply I; left; reflexivity).
    unfold cells_of, family_of, child_of, parents_of. rewrite GS, EPS. rewrite map_app, prod_app. cbn [map prod]. lia. }
  assert (LT : Nat.ltb (len L) size = true).
  { apply Nat.ltb_lt. rewrite SZ, HL. assert (0 < len L) by (cbn; lia). nia. }
  rewrite LT in E. injection E as <-. eauto.
Qed.

Lemma none_kept : forall d stale p stale', pd_parents d = None -> potential_after W stale d = Ok (p, stale') -> stale' = stale.
Proof. intros d stale p stale' N E. unfold potential_after in E. rewrite N in E. destruct (potential_declaration W d) as [q| |]; cbn [bind] in E; congruence. Qed.

Lemma potentials_rejected : forall a d l b stale ps c ps' stale', Forall (fun x => pd_parents x = None) a ->
  decl_ok t d -> pd_parents d <> None -> pd_data d = Some l -> len l = cells_of t d -> left_behind stale ->
  potentials_after W stale (a ++ d :: b) ps = Ok (c, ps', stale') -> c = false /\ left_behind stale'.
Proof.
  intros a d l b stale ps c ps' stale' FA OK HP HD HL LB. revert ps. induction FA as [|x a N FA IH]; intros ps E; cbn [app potentials_after] in E.
  - destruct (potential_after W stale d) as [r| |] eqn:ED; cbn [bind] in E; try discriminate E.
    destruct (exact_rejected d l stale r OK HP HD HL LB ED) as (st & -> & LB'). injection E as <- <- <-. auto.
  - destruct (potential_after W stale x) as [[p st]| |] eqn:ED; cbn [bind] in E; try discriminate E.
    apply none_kept in ED; [|exact N]. subst st. destruct p as [p|].
    + destruct (append_to ps p) as [ps1| |]; cbn [bind] in E; try discriminate E. eapply IH. exact E.
    + injection E as <- <- <-. auto.
Qed.
End Read.

(** ** The nodes of the next file *)
Lemma nodes_more : forall ds g r vl, (forall d, In d ds -> nd_states d <> None) -> g_parsed g = Live vl -> node_declarations g ds = Ok r ->
  exists g' more, r = Some g' /\ g_parsed g' = Live (vl ++ more).
Proof.
  induction ds as [|d ds IH]; intros g r vl ST G E; cbn [node_declarations] in E.
  - injection E as <-. exists g, []. rewrite app_nil_r. auto.
  - destruct (node_declaration g d) as [[g1|]| |] eqn:ED; cbn [bind] in E; try discriminate E.
    + destruct (node_value _ _ _ ED) as (_ & _ & _ & _ & (v & l & A & B)). rewrite G in A. cbn [append_to] in A. injection A as <-.
      destruct (IH g1 r (vl ++ [v])) as (g' & more & -> & G'); [intros x Hx; apply ST; right; exact Hx|exact B|exact E|].
      exists g', (v :: more). split; [reflexivity|]. rewrite G', <- app_assoc. reflexivity.
    + exfalso. assert (N := ST d (or_introl eq_refl)). unfold node_declaration in ED.
      destruct (match nd_label d with Some s => Ok (Live s) | None => Ok (g_label g) end) as [lab| |]; cbn [bind] in ED; try discriminate ED.
      destruct (nd_states d) as [[|x y]|]; cbn [bind] in ED; try discriminate ED; [|congruence].
      destruct (match lab with Null => Ok Null | Live _ => Ok Freed | Freed => UB end) as [nl| |]; cbn [bind] in ED; try discriminate ED.
      unfold new_variable in ED. cbn [negb] in ED.
      destruct (g_counter g <? LONG_MAX)%Z; cbn [bind] in ED; try discriminate ED.
      destruct (for_up 0 _ _ _) as [names| |]; cbn [bind] in ED; try discriminate ED.
      rewrite G in ED. cbn [append_to bind] in ED. destruct (nd_next d); cbn [bind] in ED; try discriminate ED. destruct (append_to (g_relations g) _); discriminate ED.
Qed.

Definition is_rejected (e : ending) : Prop := exists g stale, e = Rejected g stale.
Lemma all_rejected : forall ds vl k1 k2, (forall ps, vars_ok (mkNet ds ps) vl) ->
  forall ts g more stale es, Forall (corrected ds) ts -> g_parsed g = Live (vl ++ more) -> left_behind (mkNet ds []) vl stale ->
  parse_all k1 k2 g stale ts = Ok es -> len es = len ts /\ Forall is_rejected es.
Proof.
  intros ds vl k1 k2 V ts g more stale es C. revert g more stale es. induction C as [|t ts (NO & ND & d & l & (a & b & EP & FA & HP) & HD & HL) C IH]; intros g more stale es G LB E; cbn [parse_all] in E.
  - injection E as <-. split; [reflexivity|constructor].
  - unfold parse_after in E. destruct t as [ds' pots]. cbn [n_nodes n_potentials] in *. subst ds'.
    destruct (node_declarations g ds) as [r| |] eqn:EN; cbn [bind] in E; try discriminate E.
    destruct (nodes_more ds g r (vl ++ more)) as (g1 & more1 & -> & G1); [|exact G|exact EN|].
    { intros x Hx. apply (no_states _ NO x Hx). }
    rewrite G1 in E. rewrite <- app_assoc in E, G1. subst pots.
    destruct (potentials_after (vl ++ more ++ more1) stale (a ++ d :: b) (g_potentials g1)) as [[[c ps] st]| |] eqn:EQ; cbn [bind] in E; try discriminate E.
    assert (OK : decl_ok (mkNet ds (a ++ d :: b)) d) by (apply (no_decl _ NO); apply in_or_app; right; left; reflexivity).
    destruct (potentials_rejected (mkNet ds (a ++ d :: b)) NO vl (V _) (more ++ more1) a d l b stale _ _ _ _ FA OK HP HD HL LB EQ) as (-> & LB1).
    cbn [negb bind] in E.
    match type of E with (let* x := parse_all k1 k2 ?gg st ts in _) = _ => destruct (parse_all k1 k2 gg st ts) as [es1| |] eqn:EA; cbn [bind] in E; try discriminate E;
      destruct (IH gg (more ++ more1) st es1 eq_refl LB1 EA) as (L & F) end.
    injection E as <-. split; [cbn [len]; now rewrite L|]. constructor; [red; eauto|exact F].
Qed.

(** ** The file with too few numbers *)
Section First.
Variable t : net.
Hypothesis NO : net_ok t.
Variable vl : list pvar.
Hypothesis VL : vars_ok t vl.
Lemma few_rejected : forall d l, decl_ok t d -> pd_parents d <> None -> l <> [] -> len l < cells_of t d ->
  potential_after vl [] (mkDecl (pd_child d) (pd_parents d) (Some l)) = Ok (None, parents_of t d).
Proof.
  intros d l (I & _ & BAR & _ & MAX) HP LN HL. unfold potential_after. cbn [pd_parents pd_child pd_data].
  destruct (pd_parents d) as [gs|] eqn:EP; [|congruence]. assert (GS : given_symbols d = gs) by (unfold given_symbols; now rewrite EP).
  destruct (search_ok t vl VL (pd_child d)) as (SC & LC); [apply I; left; reflexivity|]. rewrite SC. cbn [bind].
  assert (IG : incl gs (symbols t)) by (intros x Hx; apply I; right; now rewrite GS).
  assert (R := read_known t vl VL [] gs [] IG). rewrite !app_nil_r in R. rewrite R. cbn [bind negb].
  assert (PO : map (number t) (rev gs) = parents_of t d) by (unfold parents_of; now rewrite GS). rewrite PO.
  destruct l as [|x l]; [congruence|]. cbn [bind]. set (L := x :: l) in *.
  destruct (parents_of t d) as [|u us] eqn:EU.
  { exfalso. apply map_eq_nil in PO. destruct gs as [|s gs]; [congruence|]. cbn [rev] in PO. apply app_eq_nil in PO. destruct PO. discriminate. }
  assert (CE : cardp vl (number t (pd_child d)) * prod (map (cardp vl) (u :: us)) = cells_of t d).
  { unfold cells_of, family_of, child_of. rewrite EU. cbn [map prod]. rewrite !(cardp_in t vl VL). f_equal. f_equal. f_equal. apply map_ext. intros v. apply cardp_in. exact VL. }
  rewrite (size_loop t NO vl VL (u :: us) (number t (pd_child d)) (len (u :: us))) by (try lia; rewrite CE; exact MAX).
  rewrite firstn_all, CE. cbn [bind]. apply Nat.ltb_lt in HL. rewrite HL. reflexivity.
Qed.
Lemma position_none : forall s l, ~ In s l -> position s l = None.
Proof.
  intros s l N. destruct (position s l) as [v|] eqn:E; [|reflexivity]. exfalso. apply N. clear N. revert v E. induction l as [|x l IH]; intros v E; [discriminate E|].
  cbn [position] in E. destruct (String.eqb s x) eqn:Q; [apply String.eqb_eq in Q; left; auto|].
  destruct (position s l) as [w|]; [|discriminate E]. right. eapply IH. reflexivity.
Qed.
Lemma search_unknown : forall s, ~ In s (symbols t) -> search_list vl s 0 = Ok None.
Proof.
  intros s N. rewrite (search_gen t s 0 vl).
  - cbn [skipn]. rewrite position_none by exact N. reflexivity.
  - intros v x E. apply (proj2 VL v x E).
  - rewrite (proj1 VL). lia.
  - lia.
Qed.
Lemma read_unknown : forall known s unread acc, incl known (symbols t) -> ~ In s (symbols t) ->
  read_parents vl (known ++ s :: unread) acc = Ok (false, map (number t) (rev known) ++ acc).
Proof.
  induction known as [|x l IH]; intros s unread acc I N; cbn [app read_parents].
  - rewrite search_unknown by exact N. reflexivity.
  - destruct (search_ok t vl VL x) as (E & _); [apply I; left; reflexivity|]. rewrite E. cbn [bind].
    rewrite IH by (try exact N; intros y Hy; apply I; right; exact Hy). cbn [rev]. rewrite map_app, <- app_assoc. reflexivity.
Qed.
Lemma unknown_rejected : forall d known s unread numbers, decl_ok t d -> incl known (symbols t) -> ~ In s (symbols t) ->
  potential_after vl [] (mkDecl (pd_child d) (Some (known ++ s :: unread)) numbers) = Ok (None, map (number t) (rev known)).
Proof.
  intros d known s unread numbers (I & _) K N. unfold potential_after. cbn [pd_parents pd_child pd_data].
  destruct (search_ok t vl VL (pd_child d)) as (SC & _); [apply I; left; reflexivity|]. rewrite SC. cbn [bind].
  rewrite read_unknown by assumption. cbn [bind negb]. now rewrite app_nil_r.
Qed.
Lemma potentials_wrong : forall a w c ps stale, Forall (fun x => pd_parents x = None) a -> (forall x, In x a -> decl_ok t x) ->
  potential_after vl [] w = Ok (None, stale) -> exists ps', potentials_after vl [] (a ++ w :: c) (ptr ps) = Ok (false, ptr ps', stale).
Proof.
  intros a w c ps stale FA. revert ps. induction FA as [|x a N FA IH]; intros ps OK E; cbn [app potentials_after].
  - rewrite E. cbn [bind]. eauto.
  - destruct (potential_declaration_ok t NO vl VL x) as (p & EX & _); [apply OK; left; reflexivity|].
    unfold potential_after at 1. rewrite N, EX. cbn [bind]. rewrite append_ptr. cbn [bind]. apply IH; auto.
    intros y Hy. apply OK. right. exact Hy.
Qed.
End First.

Lemma prod_two : forall (card : nat -> nat) l u, (forall v, 0 < card v) -> In u l -> 2 <= card u -> 2 <= prod (map card l).
Proof.
  intros card l u P I H. induction l as [|v l IH]; [destruct I|]. cbn [map prod]. assert (A := P v). assert (B := prod_pos _ (map_card_pos card l P)).
  destruct I as [->|I]; [nia|]. specialize (IH I). nia.
Qed.

Lemma wrong_rejected : forall ds a d b w c0 c k1 k2 stale, net_ok (mkNet ds (a ++ d :: b)) -> (c + Z.of_nat (len ds) <= LONG_MAX)%Z ->
  Forall (fun x => pd_parents x = None) a ->
  potential_after (mkvars c ds) [] w = Ok (None, stale) ->
  exists g, parse_after k1 k2 (fresh_globals c) [] (mkNet ds (a ++ w :: c0)) = Ok (Rejected g stale) /\ g_parsed g = Live (mkvars c ds) /\
    exists g0 ps, node_declarations (fresh_globals c) ds = Ok (Some g0) /\ g = mkGlobals (g_counter g0) (g_label g0) (g_parsed g0) (g_relations g0) (ptr ps).
Proof.
  intros ds a d b w q c k1 k2 stale NO HC FA EW. set (t := mkNet ds (a ++ d :: b)) in *.
  assert (V0 := vl0_ok t NO c). change (vl0 t c) with (mkvars c ds) in V0.
  destruct (node_declarations_ok ds c Null [] [] Null) as (lab & E1); [exact (no_states t NO)|exact (no_labels t NO)|left; reflexivity|exact HC|].
  cbn [app] in E1. change (len (@nil pvar)) with 0 in E1.
  assert (EP : ptr (mkvars c ds) = Live (mkvars c ds)).
  { assert (NN := no_nodes t NO). cbn [n_nodes t] in NN. destruct ds; [exfalso; apply NN; reflexivity|reflexivity]. }
  rewrite EP in E1.
  assert (OK : forall x, In x a -> decl_ok t x).
  { intros x Hx. apply (no_decl t NO). cbn [n_potentials t]. apply in_or_app. left. exact Hx. }
  destruct (potentials_wrong t NO (mkvars c ds) V0 a w q [] stale FA OK EW) as (ps' & E2). change (ptr (@nil parsed_potential)) with (@Null (list parsed_potential)) in E2.
  unfold parse_after, fresh_globals. cbn [n_nodes n_potentials].
  change (mkGlobals c Null Null Null Null) with (mkGlobals c Null (ptr []) (ptr []) Null). rewrite E1. cbn [bind g_parsed g_potentials]. rewrite E2. cbn [bind negb].
  eexists. split; [reflexivity|]. split; [reflexivity|]. eexists _, ps'. split; reflexivity.
Qed.

Lemma first_rejected : forall ds wrong stale c k1 k2, spoilt ds wrong stale -> (c + Z.of_nat (len ds) <= LONG_MAX)%Z ->
  exists g, parse_after k1 k2 (fresh_globals c) [] (mkNet ds wrong) = Ok (Rejected g stale) /\
    g_parsed g = Live (mkvars c ds) /\ (forall qs, vars_ok (mkNet ds qs) (mkvars c ds)) /\
    Forall (fun v => v < len (mkvars c ds)) stale /\ (forall v, 0 < card_in (mkNet ds []) v) /\
    exists g0 ps, node_declarations (fresh_globals c) ds = Ok (Some g0) /\ g = mkGlobals (g_counter g0) (g_label g0) (g_parsed g0) (g_relations g0) (ptr ps).
Proof.
  intros ds wrong stale c k1 k2 [a d b l q NO FA HP LN HL|a d b known s unread numbers q NO FA HP K N] HC;
    set (t := mkNet ds (a ++ d :: b)) in *; assert (V0 := vl0_ok t NO c); change (vl0 t c) with (mkvars c ds) in V0;
    assert (OK : decl_ok t d) by (apply (no_decl t NO); cbn [n_potentials t]; apply in_or_app; right; left; reflexivity).
  - destruct (wrong_rejected ds a d b _ q c k1 k2 _ NO HC FA (few_rejected t NO (mkvars c ds) V0 d l OK HP LN HL)) as (g & E & G & G0).
    exists g. split; [exact E|]. split; [exact G|]. split; [intros qs; exact V0|]. split; [|split; [exact (card_in_pos t NO)|exact G0]].
    apply Forall_forall. intros v Hv. rewrite (proj1 V0). apply (family_lt t (mkvars c ds) V0 d v OK). right. exact Hv.
  - destruct (wrong_rejected ds a d b _ q c k1 k2 _ NO HC FA (unknown_rejected t (mkvars c ds) V0 d known s unread numbers OK K N)) as (g & E & G & G0).
    exists g. split; [exact E|]. split; [exact G|]. split; [intros qs; exact V0|]. split; [|split; [exact (card_in_pos t NO)|exact G0]].
    exact (parents_lt t (mkvars c ds) V0 known K).
Qed.

Lemma never_accepted : forall ds wrong stale c k1 k2 ts es, spoilt ds wrong stale -> (exists u, In u stale /\ 2 <= card_in (mkNet ds wrong) u) ->
  (c + Z.of_nat (len ds) <= LONG_MAX)%Z -> Forall (corrected ds) ts -> parse_all k1 k2 (fresh_globals c) [] (mkNet ds wrong :: ts) = Ok es ->
  len es = S (len ts) /\ Forall is_rejected es.
Proof.
  intros ds wrong stale c k1 k2 ts es SP (u & IU & CU) HC C E. destruct (first_rejected ds wrong stale c k1 k2 SP HC) as (g & E1 & G & V & LT & POS & _).
  cbn [parse_all] in E. rewrite E1 in E. cbn [bind] in E.
  destruct (parse_all k1 k2 g stale ts) as [es1| |] eqn:EA; cbn [bind] in E; try discriminate E. injection E as <-.
  assert (LB : left_behind (mkNet ds []) (mkvars c ds) stale) by (split; [exact LT|exact (prod_two _ stale u POS IU CU)]).
  destruct (all_rejected ds (mkvars c ds) k1 k2 V ts g [] stale es1 C) as (L & F); [now rewrite app_nil_r|exact LB|exact EA|].
  split; [cbn [len]; now rewrite L|]. constructor; [red; eauto|exact F].
Qed.
