(** * Proofs: reading, writing and reading again *)
From Coq Require Import String Ascii Permutation QArith.QArith QArith.Qcanon Field.
From Verif Require Import Base BaseProofs StringSpec PotentialModel PotentialSpec PotentialProofs VariableModel VariableProofs JoinTreeModel
  AssignSpec AssignProofs JoinTreeSpec JoinTreeProofs NipModel NipSpec NipProofs SliceModel SliceSpec LearnSpec
  ParseModel ParseSpec ParseProofs3 ParseProofs6 ParseProofs8 ParseProofs9 ParseProofs10
  NetLexModel NetGrammarModel NetSpec NetLexProofs NetLexProofs2 NetGrammarProofs WriteModel WriteSpec WriteProofs WriteProofs4 WriteProofs6 WriteProofs7
  WriteProofs8 WriteProofs9 WriteProofs10.
Import ListNotations.
Open Scope nat_scope.
Local Open Scope res_scope.
Local Notation len := List.length.

Lemma not_opened_lemma : forall closed names pages size m, write_model false closed names pages size m = Ok (m, None, EIO).
Proof. reflexivity. Qed.
Lemma not_closed_lemma : forall names pages size m m' text e, write_model true true names pages size m = Ok (m', text, e) ->
  write_model true false names pages size m = Ok (m', text, EIO).
Proof.
  intros names pages size m m' text e H. unfold write_model in *. cbn [negb] in *.
  repeat match goal with
  | H : bind ?x _ = Ok _ |- context [bind ?x _] => destruct x as [?| |]; cbn [bind] in *; try discriminate H
  end.
  match goal with H : bind ?x _ = Ok _ |- _ => idtac | H : context [let (_, _) := ?p in _] |- _ => destruct p | _ => idtac end.
  congruence.
Qed.

Lemma proper_lemma : forall card m names pages size t, writable card m names pages size -> learnable card m -> readable card m pages ->
  describes card m names pages t -> net_ok t.
Proof. intros card m names pages size t HW HL HR HD. exact (written_net_ok card m names pages size t HW HL HD HR). Qed.

Lemma looks_pages : forall t ks size ts, document t ks size ts -> printable t -> forall vl, len vl = ParseSpec.size t ->
  map looks_on (map (fun '(k, v) => page_of k v) (combine ks vl)) = map labelled ks.
Proof.
  intros t ks size ts DOC PR vl LV. destruct (document_looks _ _ _ _ DOC) as (F & _). unfold ParseSpec.size in LV.
  assert (L : forall d, In d (n_nodes t) -> quotable (match nd_label d with Some s => s | None => " "%string end)).
  { intros d Hd. destruct (nd_label d) as [s|] eqn:E; [|apply blank_quotable]. now apply (pr_labels _ PR d). }
  clear DOC PR. revert vl LV L. induction F as [|d k ds ks (H & _) F IH]; intros [|v vl] LV L; try discriminate LV; [reflexivity|].
  cbn [combine map]. f_equal.
  - unfold page_of, looks_on, labelled, label_or_blank. cbn [pg_name pg_x pg_y]. rewrite H. f_equal. f_equal. apply variable_text_short.
    apply (L d). left. auto.
  - apply IH; [cbn in LV; lia|]. intros d' Hd. apply L. right. auto.
Qed.

Section Trip.
Variable k1 k2 : list pvar -> list nat -> Z.
Variable c : Z.
Variable contents : list ascii.
Variable toks : list (list ascii).
Variable ts : list terminal.
Variable t : net.
Variable ks : list looks.
Variable size : Z * Z.
Hypothesis H1 : text_tokens contents toks.
Hypothesis H2 : Forall2 reads_as toks ts.
Hypothesis DOC : document t ks size ts.
Hypothesis NO : net_ok t.
Hypothesis CF : children_first t.
Hypothesis TS : two_slices t.
Hypothesis CO : columns_ok t.
Hypothesis RG : roots_given t.
Hypothesis PR : printable t.
Hypothesis HC : (c + Z.of_nat (ParseSpec.size t) <= LONG_MAX)%Z.
Variable names : list named_variable.
Variable pages : list page.
Variable size' : Z * Z.
Variable m : model.
Variable g : globals.
Hypothesis LOAD : load k1 k2 (fresh_globals c) contents = Ok (Some (names, pages, size', m, g)).

Lemma trip_lemma : exists m' text toks' ts' t',
  write_model true true names pages size' m = Ok (m', Some text, NO_ERROR) /\
  text_tokens text toks' /\ Forall2 reads_as toks' ts' /\ document t' (map labelled ks) size ts' /\
  net_ok t' /\ children_first t' /\ two_slices t' /\ roots_given t' /\ same_declarations t t' /\
  (forall v a, v < ParseSpec.size t -> valid (card_in t) a ->
     (happens t v a -> rounded (factor_of t (decl_of t v) a) (entry t' v a)) /\
     (rounded (factor_of t (decl_of t v) a) (entry t' v a) \/ entry t' v a = 0%Qc)) /\
  (forall v a, v < ParseSpec.size t -> valid (card_in t) a -> parents_of t (decl_of t v) <> [] ->
     ~ possible (card_in t) m v a -> entry t' v a = 0%Qc) /\
  ((forall v a, v < ParseSpec.size t -> valid (card_in t) a -> six_decimals (factor_of t (decl_of t v) a)) ->
     forall a, valid (card_in t) a -> parsed_joint t' a = parsed_joint t a) /\
  forall k1' k2' c', cliques_fit k1' k2' t -> (c' + Z.of_nat (ParseSpec.size t) <= LONG_MAX)%Z ->
    exists names2 pages2 m2 g2, load k1' k2' (fresh_globals c') text = Ok (Some (names2, pages2, size, m2, g2)) /\ parsed t' names2 m2.
Proof.
  destruct (load_parsed k1 k2 _ contents toks ts t ks size H1 H2 DOC _ _ _ _ _ LOAD) as (-> & PM & vl & m0 & g0 & YY & ->).
  destruct (parse_lemma t NO c k1 k2 _ HC PM) as (nm & mm & gg & E & P). injection E as <- <- <-.
  destruct (C54_lemma k1 k2 c t vl m0 g0 NO HC YY) as (LVL & C54).
  assert (NEXT : forall v x, nth_error vl v = Some x -> pv_next x = next_in t v) by (intros v x Hx; apply (C54 v x Hx)).
  set (pages' := map (fun '(k, v) => page_of k v) (combine ks vl)) in *.
  assert (HW : writable (card_in t) m names pages' size) by (eapply read_writable; eauto using document_looks).
  assert (HL : learnable (card_in t) m) by (eapply parsed_learnable; eauto; now apply acyclic_children_first).
  destruct (write_model_ok (card_in t) m names pages' size HW HL) as (m' & text & toks' & ts' & t' & W & _ & _ & _ & _ & T1 & T2 & D' & DS).
  assert (LK : map looks_on pages' = map labelled ks) by (eapply looks_pages; eauto). rewrite LK in D'.
  assert (NO' : net_ok t') by (exact (again_ok t ks size (document_looks _ _ _ _ DOC) NO CF TS CO RG PR names m P vl LVL NEXT t' DS)).
  assert (SD : same_declarations t t') by (exact (again_same t ks size (document_looks _ _ _ _ DOC) NO CF TS CO RG PR names m P vl LVL NEXT t' DS)).
  exists m', text, toks', ts', t'. split; [exact W|]. split; [exact T1|]. split; [exact T2|]. split; [exact D'|]. split; [exact NO'|].
  split; [now apply (same_children_first t t')|]. split; [now apply (same_two_slices t t')|].
  split. { intros d Hd _. destruct (ds_table _ _ _ _ _ DS d Hd) as ((l & -> & _) & _). discriminate. }
  split; auto. split; [exact (again_entries t ks size (document_looks _ _ _ _ DOC) NO CF TS CO RG PR names m P vl LVL NEXT t' DS)|]. split; [exact (again_lost t ks size (document_looks _ _ _ _ DOC) NO CF TS CO RG PR names m P vl LVL NEXT t' DS)|]. split.
  - intros SIX. exact (again_joint t ks size (document_looks _ _ _ _ DOC) NO CF TS CO RG PR names m P vl LVL NEXT t' DS SIX).
  - intros k1' k2' c' FIT HC'. rewrite <- (same_size t t' SD) in HC'.
    destruct (parse_succeeds t' NO' c' k1' k2' HC') as (names2 & m2 & g2 & E2 & P2). { now apply (same_fit t t'). }
    destruct (load_succeeds k1' k2' _ text toks' ts' t' (map labelled ks) size T1 T2 D' names2 m2 g2 E2) as (pages2 & E3).
    exists names2, pages2, m2, g2. auto.
Qed.
End Trip.
