(** * Proofs: a file that was read can be written, and the result read *)
From Coq Require Import String Ascii Permutation QArith.QArith QArith.Qcanon Field.
From Verif Require Import Base BaseProofs StringSpec PotentialModel PotentialSpec PotentialProofs VariableModel VariableProofs JoinTreeModel
  AssignSpec AssignProofs JoinTreeSpec JoinTreeProofs NipModel NipSpec NipProofs SliceModel SliceSpec LearnSpec
  ParseModel ParseSpec ParseProofs3 ParseProofs6 ParseProofs8 ParseProofs9 ParseProofs10
  NetLexModel NetGrammarModel NetSpec NetLexProofs NetLexProofs2 NetGrammarProofs WriteModel WriteSpec WriteProofs WriteProofs4 WriteProofs6 WriteProofs7
  WriteProofs8 WriteProofs9.
From Verif Require LearnProofs3 LearnProofs5 FactorProofs ParseProofs5.
Import ListNotations.
Open Scope nat_scope.
Local Open Scope res_scope.
Local Notation len := List.length.

Add Field Qcfield_write10 : Qcft.

(** ** Loading *)
Lemma load_parsed : forall k1 k2 g contents toks ts t ks size, text_tokens contents toks -> Forall2 reads_as toks ts -> document t ks size ts ->
  forall names pages size' m g', load k1 k2 g contents = Ok (Some (names, pages, size', m, g')) ->
  size' = size /\ parse_model k1 k2 g t = Ok (Some (names, m, g')) /\
  exists vl m0 g0, yyparse k1 k2 g t = Ok (Some (vl, m0, g0)) /\ pages = map (fun '(k, v) => page_of k v) (combine ks vl).
Proof.
  intros k1 k2 g contents toks ts t ks size H1 H2 H3 names pages size' m g' H. unfold load in H.
  rewrite (lex_text contents toks ts H1 H2) in H. cbn [bind] in H. rewrite (input_ok k1 k2 g t ks size ts H3) in H. unfold with_looks in H.
  unfold parse_model. destruct (yyparse k1 k2 g t) as [[[[vl m0] g0]|]| |] eqn:E; cbn [bind] in H; try discriminate H.
  cbn [bind]. destruct (finish vl m0 g0) as [[[[nm m1] g1]|]| |]; cbn [bind] in H; try discriminate H.
  injection H as <- <- <- <- <-. split; auto. split; auto. eauto.
Qed.
Lemma load_succeeds : forall k1 k2 g contents toks ts t ks size, text_tokens contents toks -> Forall2 reads_as toks ts -> document t ks size ts ->
  forall names m g', parse_model k1 k2 g t = Ok (Some (names, m, g')) ->
  exists pages, load k1 k2 g contents = Ok (Some (names, pages, size, m, g')).
Proof.
  intros k1 k2 g contents toks ts t ks size H1 H2 H3 names m g' H. unfold load.
  rewrite (lex_text contents toks ts H1 H2). cbn [bind]. rewrite (input_ok k1 k2 g t ks size ts H3). unfold with_looks.
  unfold parse_model in H. destruct (yyparse k1 k2 g t) as [[[[vl m0] g0]|]| |] eqn:E; cbn [bind] in H; try discriminate H.
  cbn [bind]. rewrite H. cbn [bind]. eauto.
Qed.

(** ** What documents say about labels, positions and sizes *)
Definition in_range (p : Z * Z) : Prop := (0 <= fst p <= INT_MAX)%Z /\ (0 <= snd p <= INT_MAX)%Z.
Lemma last_of_in : forall A (l : list A) x, last_of l = Some x -> In x l.
Proof. intros A l x H. unfold last_of in H. apply in_rev. destruct (rev l); [discriminate|]. injection H as ->. left. auto. Qed.
Lemma fields_range : forall kind l ts, fields_text kind l ts ->
  (forall p, In p (positions l) -> in_range p) /\ (forall p, In p (sizes l) -> in_range p).
Proof.
  intros kind l ts H. induction H as [|x l t ts K F H (IH1 & IH2)]; [split; intros p []|].
  assert (W : forall a z, whole a z -> (0 <= z <= INT_MAX)%Z) by (intros a z (q & _ & R & _); exact R).
  split; intros p Hp; unfold positions, sizes in Hp; cbn [flat_map] in Hp; apply in_app_or in Hp; destruct Hp as [Hp|Hp]; auto;
    inversion F; subst; cbn in Hp; try contradiction; destruct Hp as [<-|[]]; split; cbn; eauto.
Qed.
Lemma place_range : forall kind l ts, fields_text kind l ts -> in_range (place l).
Proof.
  intros kind l ts H. unfold place. destruct (last_of (positions l)) eqn:E.
  - apply last_of_in in E. exact (proj1 (fields_range kind l ts H) _ E).
  - split; vm_compute; split; discriminate.
Qed.
Lemma size_of_range : forall kind l ts, fields_text kind l ts -> in_range (size_of l).
Proof.
  intros kind l ts H. unfold size_of. destruct (last_of (sizes l)) eqn:E.
  - apply last_of_in in E. exact (proj2 (fields_range kind l ts H) _ E).
  - split; vm_compute; split; discriminate.
Qed.
Lemma nodes_looks : forall ds ks ts, nodes_in_text ds ks ts ->
  Forall2 (fun d k => k_label k = nd_label d /\ in_range (k_x k, k_y k)) ds ks.
Proof.
  intros ds ks ts H. induction H as [|d k t ds ks ts HX H IH]; constructor; auto. destruct HX as [kind s l ts' HF].
  split; [reflexivity|]. cbn [k_x k_y]. rewrite <- surjective_pairing. eapply place_range; eauto.
Qed.
Definition look_alike (t : net) (ks : list looks) (size : Z * Z) : Prop :=
  Forall2 (fun d k => k_label k = nd_label d /\ in_range (k_x k, k_y k)) (n_nodes t) ks /\ in_range size.
Lemma document_looks : forall t ks size ts, document t ks size ts -> look_alike t ks size.
Proof.
  intros t ks size ts H. destruct H as [ds ks ps t1 t2 H1 H2|l t0 ds ks ps t1 t2 H0 H1 H2|s l t0 ds ks ps t1 t2 H0 H1 H2]; unfold look_alike; cbn [n_nodes];
    (split; [eapply nodes_looks; eauto|]).
  - split; vm_compute; split; discriminate.
  - eapply size_of_range; eauto.
  - eapply size_of_range; eauto.
Qed.
Lemma Forall2_nth_error : forall A B (R : A -> B -> Prop) l l', Forall2 R l l' -> forall i y, nth_error l' i = Some y ->
  exists x, nth_error l i = Some x /\ R x y.
Proof.
  intros A B R l l' H. induction H as [|x y l l' HR H IH]; intros [|i] z E; try discriminate E; cbn in *; eauto.
  injection E as <-. eauto.
Qed.
Lemma nth_error_combine : forall A B (l : list A) (l' : list B) i p, nth_error (combine l l') i = Some p ->
  nth_error l i = Some (fst p) /\ nth_error l' i = Some (snd p).
Proof.
  induction l as [|x l IH]; intros [|y l'] [|i] p H; try discriminate H; cbn in *; auto. injection H as <-. auto.
Qed.
Lemma blank_quotable : quotable " ".
Proof. split; [cbn; lia|]. repeat constructor; try discriminate. Qed.

Section Read.
Variable t : net.
Variable ks : list looks.
Variable size : Z * Z.
Hypothesis DOC : look_alike t ks size.
Hypothesis NO : net_ok t.
Hypothesis CF : children_first t.
Hypothesis TS : two_slices t.
Hypothesis CO : columns_ok t.
Hypothesis RG : roots_given t.
Hypothesis PR : printable t.
Local Notation card := (card_in t).
Local Notation n := (ParseSpec.size t).
Variable names : list named_variable.
Variable m : model.
Hypothesis P : parsed t names m.
Variable vl : list pvar.
Hypothesis LVL : len vl = n.
Hypothesis NEXT : forall v x, nth_error vl v = Some x -> pv_next x = next_in t v.
Local Notation pages := (map (fun '(k, v) => page_of k v) (combine ks vl)).

Let AC : acyclic t := acyclic_children_first t NO CF.
Let HL : learnable card m := parsed_learnable t NO AC TS names m P.
Let n_eq : len (m_vars m) = n := pa_size _ _ _ P.

Lemma ks_len : len ks = n.
Proof. destruct DOC as (F & _). unfold ParseSpec.size. clear - F. induction F; cbn; auto. Qed.
Lemma pages_len : len pages = n.
Proof. rewrite map_length, combine_length, ks_len, LVL. lia. Qed.
Lemma node_nth : forall v, v < n -> nth_error (n_nodes t) v = Some (node t v).
Proof. intros v Hv. unfold node. now apply nth_error_nth'. Qed.
Lemma node_in : forall v, v < n -> In (node t v) (n_nodes t).
Proof. intros v Hv. eapply nth_error_In. now apply node_nth. Qed.
Lemma page_at : forall v p, nth_error pages v = Some p -> v < n /\ exists k, nth_error ks v = Some k /\
  k_label k = nd_label (node t v) /\ in_range (k_x k, k_y k) /\
  quotable (match nd_label (node t v) with Some s => s | None => " "%string end) /\
  p = mkPage (label_or_blank (nd_label (node t v))) (k_x k) (k_y k) (next_in t v).
Proof.
  intros v p H. assert (Hv : v < n) by (rewrite <- pages_len; apply nth_error_Some; congruence). split; auto.
  rewrite nth_error_map in H. destruct (nth_error (combine ks vl) v) as [[k x]|] eqn:E; cbn in H; [|discriminate]. injection H as <-.
  apply nth_error_combine in E. cbn in E. destruct E as (E1 & E2). exists k. split; auto.
  destruct DOC as (F & _). destruct (Forall2_nth_error _ _ _ _ _ F v k E1) as (d & Ed & LB & RN).
  rewrite node_nth in Ed by auto. injection Ed as <-. split; auto. split; auto.
  assert (Q : quotable (match nd_label (node t v) with Some s => s | None => " "%string end)).
  { destruct (nd_label (node t v)) as [s|] eqn:EL; [|apply blank_quotable]. apply (pr_labels _ PR (node t v)); auto. now apply node_in. }
  split; auto. unfold page_of, label_or_blank. rewrite LB, (NEXT v x E2). f_equal. f_equal. apply variable_text_short. apply Q.
Qed.
Lemma names_at : forall v nv, nth_error names v = Some nv -> v < n /\ states_of nv = states (node t v).
Proof.
  intros v nv H. assert (Hv : v < n). { rewrite <- n_eq, <- (proj1 (pa_names _ _ _ P)). apply nth_error_Some. congruence. }
  split; auto. apply (pa_states _ _ _ P v nv H). assert (Q := pr_states _ PR _ (node_in v Hv)). revert Q. apply Forall_impl. intros s (A & _). exact A.
Qed.
Lemma has_parents_t : forall v, v < n -> has_parents m v = match parents_of t (decl_of t v) with [] => false | _ => true end.
Proof. intros v Hv. unfold has_parents. now rewrite (pa_parents _ _ _ P). Qed.

Lemma prior_sums : forall v l, v < n -> parents_of t (decl_of t v) = [] -> v_prior (var m v) = Some l -> qsum l = 1%Qc.
Proof.
  intros v l Hv NP E. destruct (pa_priors _ _ _ P v Hv NP) as (l' & E' & Q). assert (l' = l) by congruence. subst l'.
  assert (Ha : valid card (fun _ => 0)) by (intros w; apply card_in_pos; auto).
  assert (CN : column card m (tables t) v (fun _ => 0) <> 0%Qc).
  { unfold column. rewrite tables_param, (parsed_family t NO _ _ P) by auto. destruct (decl_of_ok t NO v Hv) as (A & B).
    assert (K := CO _ _ A Ha). now rewrite B in K. }
  rewrite <- (LearnProofs3.cond_sum card m HL (tables t) v (fun _ => 0) (tables_ok t NO names m P)) by (auto; rewrite n_eq; auto).
  assert (IN : In v (m_indep m)). { apply (le_roots _ _ HL); [rewrite n_eq; auto|]. now rewrite (pa_parents _ _ _ P). }
  destruct (proj2 (mo_indep _ _ (so_model _ _ (le_slices _ _ HL))) v IN) as (_ & l2 & E2 & (LL & _) & _).
  assert (l2 = l) by congruence. subst l2. cbn [sumv].
  rewrite <- (nth_seq_map _ l 0%Qc) at 1. rewrite LL. apply qsum_map_ext. intros x Hx. apply in_seq in Hx.
  assert (Vx : valid card (upd (fun _ => 0) v x)) by (apply upd_valid; auto; lia).
  rewrite (cond_factor t NO CF RG names m P) by auto. rewrite <- Q by auto. unfold at_state. now rewrite upd_same.
Qed.

Lemma read_writable : writable card m names pages size.
Proof.
  constructor.
  - apply P.
  - rewrite (pa_symbols _ _ _ P). split; [apply (no_symbols _ NO)|apply PR].
  - intros nv Hn. apply In_nth_error in Hn. destruct Hn as (v & Hn). destruct (names_at v nv Hn) as (Hv & ->). apply (pr_states _ PR). now apply node_in.
  - rewrite n_eq. split; [apply pages_len|]. intros p Hp. apply In_nth_error in Hp. destruct Hp as (v & Hp).
    destruct (page_at v p Hp) as (Hv & k & _ & _ & (X & Y) & Q & ->). cbn [pg_name pg_x pg_y pg_next fst snd] in *. split; [eexists; split; [reflexivity|exact Q]|]. split; auto. split; auto.
    intros w Hw. unfold next_in in Hw. destruct (nd_next (node t v)) as [s|] eqn:E; cbn in Hw; [|discriminate]. injection Hw as <-.
    destruct (no_next _ NO (node t v) s (node_in v Hv) E) as (IN & _). unfold ParseSpec.number. destruct (ParseProofs3.position_in s _ IN) as (w & -> & L & _).
    now rewrite symbols_length in L.
  - apply DOC.
  - intros v Hv. rewrite n_eq in Hv. rewrite (pa_parents _ _ _ P) by auto. unfold parents_of. rewrite map_length, rev_length. apply (pr_parents _ PR). now apply decl_of_ok.
  - rewrite n_eq, (pa_indep _ _ _ P), (pa_children _ _ _ P). split; apply filter_ext_in; intros v Hv; apply in_seq in Hv; rewrite has_parents_t by lia;
      destruct (parents_of t (decl_of t v)); reflexivity.
  - intros v l Hv E. assert (Hn : v < n) by (rewrite (pa_indep _ _ _ P) in Hv; apply filter_In in Hv; destruct Hv as (Hv & _); apply in_seq in Hv; lia).
    apply (prior_sums v l Hn); auto. rewrite <- (pa_parents _ _ _ P) by auto. apply (le_roots _ _ HL); auto. now rewrite n_eq.
Qed.

Lemma read_readable : readable card m pages.
Proof.
  constructor.
  - intros v p w Hp Hw. destruct (page_at v p Hp) as (Hv & k & _ & _ & _ & _ & ->). cbn [pg_next] in Hw.
    unfold next_in in Hw. destruct (nd_next (node t v)) as [s|] eqn:E; cbn in Hw; [|discriminate]. injection Hw as <-.
    apply (no_next _ NO (node t v) s (node_in v Hv) E).
  - intros v p v' p' w Hp Hp' Hw Hw'. destruct (page_at v p Hp) as (Hv & k & _ & _ & _ & _ & ->). destruct (page_at v' p' Hp') as (Hv' & k' & _ & _ & _ & _ & ->).
    cbn [pg_next] in Hw, Hw'. unfold next_in in Hw, Hw'. destruct (nd_next (node t v)) as [s|] eqn:E; cbn in Hw; [|discriminate].
    destruct (nd_next (node t v')) as [s'|] eqn:E'; cbn in Hw'; [|discriminate]. injection Hw as Hw. injection Hw' as Hw'.
    assert (s' = s).
    { destruct (no_next _ NO _ s (node_in v Hv) E) as (I1 & _). destruct (no_next _ NO _ s' (node_in v' Hv') E') as (I2 & _).
      unfold ParseSpec.number in *. destruct (ParseProofs3.position_in s _ I1) as (x & E1 & _ & N1). destruct (ParseProofs3.position_in s' _ I2) as (y & E2 & _ & N2).
      rewrite E1 in Hw. rewrite E2 in Hw'. congruence. }
    subst s'. assert (K := no_next_once _ NO _ _ s (node_in v Hv) (node_in v' Hv') E E').
    assert (S : nth v (symbols t) EmptyString = nth v' (symbols t) EmptyString).
    { unfold symbols. rewrite !(nth_map _ _ _ _ _ (mkNode EmptyString None (Some [EmptyString]) None)) by auto. fold (node t v) (node t v'). now rewrite K. }
    apply (proj1 (NoDup_nth (symbols t) EmptyString) (proj1 (no_symbols _ NO))); rewrite ?symbols_length; auto.
  - intros K. assert (Q := n_eq). rewrite K in Q. cbn in Q. apply (no_nodes _ NO). unfold ParseSpec.size in Q. destruct (n_nodes t); [auto|discriminate Q].
  - rewrite n_eq. apply (no_size _ NO).
  - intros v Hv. rewrite n_eq in Hv. apply (pr_cards _ PR). now apply node_in.
Qed.

(** ** What is written *)
Lemma read_factored : factored card m (fun v => factor_of t (decl_of t v)).
Proof. apply P. Qed.
Lemma read_conditional : conditional_factors card m (fun v => factor_of t (decl_of t v)).
Proof.
  intros v Hv NP. rewrite n_eq in Hv. destruct (decl_of_ok t NO v Hv) as (A & B). split.
  - intros a b H. rewrite (parsed_family t NO _ _ P) in H by auto.
    assert (PB : pd_parents (decl_of t v) <> None).
    { intros K. apply NP. rewrite (pa_parents _ _ _ P) by auto. apply (ParseProofs5.rooted_bar t); auto. now apply (no_decl t NO). }
    unfold factor_of. destruct (pd_parents (decl_of t v)) as [l|]; [|congruence]. unfold scaled. f_equal.
    + unfold den. f_equal. apply map_ext_in. auto.
    + rewrite first_declared_child by auto. rewrite B. cbn [sumv]. apply qsum_map_ext. intros x _. unfold den. f_equal. apply map_ext_in. intros w Hw.
      unfold upd. destruct (Nat.eqb w v); auto.
  - intros a Ha. transitivity (sumv card [v] (LearnSpec.cond card m (tables t) v) a).
    + apply sumv_ext; auto. intros b Hb. symmetry. now apply (cond_factor t NO CF RG names m P).
    + apply (LearnProofs3.cond_sum card m HL (tables t) v a (tables_ok t NO names m P)); [rewrite n_eq; auto|].
      unfold column. rewrite tables_param, (parsed_family t NO _ _ P) by auto. assert (K := CO _ _ A Ha). now rewrite B in K.
Qed.
Lemma read_distribution : forall v a, v < n -> valid card a ->
  (happens t v a -> distribution card m v a = factor_of t (decl_of t v) a) /\
  (distribution card m v a <> factor_of t (decl_of t v) a -> distribution card m v a = 0%Qc).
Proof.
  intros v a Hv Ha. destruct (parents_of t (decl_of t v)) as [|u us] eqn:EP.
  - assert (E : distribution card m v a = factor_of t (decl_of t v) a).
    { unfold distribution. rewrite has_parents_t, EP by auto. destruct (pa_priors _ _ _ P v Hv EP) as (l & -> & Q). now apply Q. }
    split; auto. intros K. contradiction.
  - assert (NP : v_parents (var m v) <> []) by (rewrite (pa_parents _ _ _ P), EP by auto; discriminate).
    assert (Hm : v < len (m_vars m)) by (rewrite n_eq; auto).
    destruct (distributions_lemma card m HL _ read_factored read_conditional v a Hm NP Ha) as (D1 & D2). split.
    + intros (b & Vb & AG & NZ). apply D1. apply (possible_where card m HL _ read_factored read_conditional v a b); auto.
      { rewrite (pa_parents _ _ _ P) by auto. exact AG. }
      intros K. apply NZ. rewrite <- (whole_joint t NO names m P b Vb), K. ring.
    + intros K. apply D2. intros Q. apply K. now apply D1.
Qed.

Section Written.
Variable t' : net.
Hypothesis DS : describes card m names pages t'.

Lemma again_ok : net_ok t'.
Proof. apply (written_net_ok card m names pages size t' read_writable HL DS read_readable). Qed.
Lemma again_size : ParseSpec.size t' = n.
Proof. rewrite (d_size card m names pages size t' read_writable DS). apply n_eq. Qed.
Lemma again_decl : forall v, v < n -> In (decl_of t' v) (n_potentials t') /\ child_of t' (decl_of t' v) = v.
Proof. intros v Hv. apply (decl_of_ok t' again_ok). now rewrite again_size. Qed.
Lemma again_same : same_declarations t t'.
Proof.
  constructor.
  - rewrite (ds_symbols _ _ _ _ _ DS). apply P.
  - intros v Hv. assert (Hm : v < len (m_vars m)) by (rewrite n_eq; auto).
    destruct (d_node card m names pages size t' read_writable DS v Hm) as (nv & p & E1 & E2 & A & _ & B & _ & C).
    destruct (names_at v nv E1) as (_ & S). destruct (page_at v p E2) as (_ & k & _ & _ & _ & _ & ->). cbn [pg_name pg_next] in *.
    split; [|split; auto]. unfold states at 1. now rewrite B, S.
  - intros v Hv. destruct (again_decl v Hv) as (A & B). destruct (ds_parents _ _ _ _ _ DS _ A) as (_ & -> & _). rewrite B. now apply P.
Qed.
Lemma again_entry : forall v a, v < n -> valid card a -> rounded (distribution card m v a) (entry t' v a).
Proof. intros v a Hv Ha. destruct (again_decl v Hv) as (A & B). assert (K := proj2 (ds_table _ _ _ _ _ DS _ A) a Ha). now rewrite B in K. Qed.
Lemma again_entries : forall v a, v < n -> valid card a ->
  (happens t v a -> rounded (factor_of t (decl_of t v) a) (entry t' v a)) /\
  (rounded (factor_of t (decl_of t v) a) (entry t' v a) \/ entry t' v a = 0%Qc).
Proof.
  intros v a Hv Ha. destruct (read_distribution v a Hv Ha) as (D1 & D2). assert (E := again_entry v a Hv Ha). split.
  - intros H. now rewrite <- D1.
  - destruct (Qc_eq_dec (distribution card m v a) (factor_of t (decl_of t v) a)) as [K|K]; [left; now rewrite <- K|right].
    rewrite D2 in E by auto. apply (rounded_six 0); [apply six_zero|exact E].
Qed.

Lemma again_lost : forall v a, v < n -> valid card a -> parents_of t (decl_of t v) <> [] -> ~ possible card m v a -> entry t' v a = 0%Qc.
Proof.
  intros v a Hv Ha NP PO. assert (E := again_entry v a Hv Ha). rewrite <- (pa_parents _ _ _ P) in NP by auto.
  assert (Hm : v < len (m_vars m)) by (rewrite n_eq; auto).
  rewrite (proj2 (distributions_lemma card m HL _ read_factored read_conditional v a Hm NP Ha) PO) in E.
  apply (rounded_six 0); [apply six_zero|exact E].
Qed.

(** ** Numbers with six decimals *)
Hypothesis SIX : forall v a, v < n -> valid card a -> six_decimals (factor_of t (decl_of t v) a).

Lemma again_exact : forall v a, v < n -> valid card a -> entry t' v a = distribution card m v a.
Proof.
  intros v a Hv Ha. apply (rounded_six (distribution card m v a)); [|now apply again_entry].
  destruct (Qc_eq_dec (distribution card m v a) (factor_of t (decl_of t v) a)) as [->|K]; [now apply SIX|].
  rewrite (proj2 (read_distribution v a Hv Ha) K). apply six_zero.
Qed.
Lemma factor_sum : forall v a, v < n -> valid card a -> sumv card [v] (factor_of t (decl_of t v)) a = 1%Qc.
Proof.
  intros v a Hv Ha. transitivity (sumv card [v] (LearnSpec.cond card m (tables t) v) a).
  - apply sumv_ext; auto. intros b Hb. symmetry. now apply (cond_factor t NO CF RG names m P).
  - apply (LearnProofs3.cond_sum card m HL (tables t) v a (tables_ok t NO names m P)); [rewrite n_eq; auto|].
    destruct (decl_of_ok t NO v Hv) as (A & B). unfold column. rewrite tables_param, (parsed_family t NO _ _ P) by auto. assert (K := CO _ _ A Ha). now rewrite B in K.
Qed.
Lemma again_factor : forall v a, v < n -> valid card a ->
  factor_of t' (decl_of t' v) a = factor_of t (decl_of t v) a \/
  (parents_of t (decl_of t v) <> [] /\ ~ possible card m v a /\ factor_of t' (decl_of t' v) a = 0%Qc).
Proof.
  intros v a Hv Ha. destruct (again_decl v Hv) as (A & B).
  assert (E : factor_of t' (decl_of t' v) a = scaled card (family_of t' (decl_of t' v)) (table_of t' (decl_of t' v)) v a).
  { unfold factor_of. destruct (ds_table _ _ _ _ _ DS _ A) as ((l & -> & _) & _).
    rewrite (first_declared_child t' (same_children_first t t' NO again_ok again_same CF)) by auto. rewrite B.
    assert (C : scaled (card_in t') (family_of t' (decl_of t' v)) (table_of t' (decl_of t' v)) v a = scaled card (family_of t' (decl_of t' v)) (table_of t' (decl_of t' v)) v a).
    { unfold scaled. f_equal. cbn [sumv]. f_equal. now rewrite (same_card t t' again_same). }
    destruct (pd_parents (decl_of t' v)); exact C. }
  rewrite E. unfold scaled. fold (entry t' v a). rewrite again_exact by auto.
  assert (SM : sumv card [v] (den (family_of t' (decl_of t' v)) (table_of t' (decl_of t' v))) a = sumv card [v] (distribution card m v) a).
  { apply sumv_ext; auto. intros b Hb. now apply again_exact. }
  rewrite SM. destruct (parents_of t (decl_of t v)) as [|u us] eqn:EP.
  - left. assert (Q : forall b, valid card b -> distribution card m v b = factor_of t (decl_of t v) b).
    { intros b Hb. unfold distribution. rewrite has_parents_t, EP by auto. destruct (pa_priors _ _ _ P v Hv EP) as (l & -> & Q). now apply Q. }
    rewrite (sumv_ext card [v] _ (factor_of t (decl_of t v))), factor_sum, Q by auto. field. discriminate.
  - assert (NP : v_parents (var m v) <> []) by (rewrite (pa_parents _ _ _ P), EP by auto; discriminate).
    assert (Hm : v < len (m_vars m)) by (rewrite n_eq; auto).
    assert (D := distributions_lemma card m HL _ read_factored read_conditional v). 
    destruct (possible_dec card m v a) as [PO|PO].
    + left. rewrite (proj1 (D a Hm NP Ha) PO).
      assert (S1 : sumv card [v] (distribution card m v) a = 1%Qc).
      { rewrite <- (factor_sum v a) by auto. cbn [sumv]. apply qsum_map_ext. intros x Hx. apply in_seq in Hx.
        assert (Vx : valid card (upd a v x)) by (apply upd_valid; auto; lia). apply (D _ Hm NP Vx).
        destruct (family_column card m HL _ read_factored read_conditional v Hm NP) as (g & G1 & G2). unfold possible in *.
        rewrite (proj1 (G2 _ Vx)). rewrite (proj1 (G2 _ Ha)) in PO. rewrite <- (G1 a); auto. intros w Hw.
        assert (ND := le_family _ _ HL v Hm). inversion ND as [|? ? NI _]; subst. symmetry. apply upd_other. intros ->. contradiction. }
      rewrite S1. field. discriminate.
    + right. split; [discriminate|]. split; auto. rewrite (proj2 (D a Hm NP Ha) PO). apply Qc_div_zero. reflexivity.
Qed.
Lemma again_joint : forall a, valid card a -> parsed_joint t' a = parsed_joint t a.
Proof.
  intros a Ha. unfold parsed_joint. rewrite <- (decls_perm t NO (fun d => factor_of t d a)), <- (decls_perm t' again_ok (fun d => factor_of t' d a)), again_size.
  destruct (Exists_dec (fun v => factor_of t' (decl_of t' v) a <> factor_of t (decl_of t v) a) (seq 0 n)) as [X|X].
  { intros v. destruct (Qc_eq_dec (factor_of t' (decl_of t' v) a) (factor_of t (decl_of t v) a)); [right|left]; tauto. }
  - apply Exists_exists in X. destruct X as (v & Hv & K). assert (Hn : v < n) by (apply in_seq in Hv; lia).
    destruct (again_factor v a Hn Ha) as [Q|(NP & PO & Z)]; [contradiction|].
    rewrite (qprod_zero (map (fun v => factor_of t' (decl_of t' v) a) (seq 0 n))) by (apply in_map_iff; eauto).
    rewrite (decls_perm t NO (fun d => factor_of t d a)). fold (parsed_joint t a). rewrite <- (whole_joint t NO names m P a Ha).
    assert (O : original m a = 0%Qc); [|rewrite O; ring].
    destruct (Qc_eq_dec (original m a) 0) as [O|O]; auto. exfalso. apply PO.
    apply (possible_where card m HL _ read_factored read_conditional v a a); auto; [rewrite n_eq; auto|].
    rewrite (pa_parents _ _ _ P); auto.
  - f_equal. apply map_ext_in. intros v Hv. destruct (Qc_eq_dec (factor_of t' (decl_of t' v) a) (factor_of t (decl_of t v) a)) as [Q|Q]; auto.
    exfalso. apply X. apply Exists_exists. eauto.
Qed.
End Written.
End Read.
