(** * Proofs: the written file *)
From Coq Require Import String Ascii QArith.QArith QArith.Qcanon.
From Verif Require Import Base BaseProofs StringSpec PotentialModel PotentialSpec PotentialProofs VariableModel JoinTreeModel
  AssignSpec AssignProofs JoinTreeSpec JoinTreeProofs NipModel NipSpec NipProofs NipProofs2 SliceModel SliceSpec LearnSpec
  LearnProofs4 ParseModel ParseSpec ParseProofs3
  StringModel SeriesFileModel NetLexModel NetGrammarModel NetSpec WriteModel WriteSpec WriteProofs WriteProofs2
  WriteProofs3 WriteProofs4 WriteProofs5.
From Verif Require LearnProofs5.
Import ListNotations.
Open Scope nat_scope.
Local Notation chars := list_ascii_of_string.
Local Notation len := List.length.

Lemma writable_same : forall card m m' names pages size, writable card m names pages size -> same_model m m' ->
  writable card m' names pages size.
Proof.
  intros card m m' names pages size H S. assert (L : len (m_vars m') = len (m_vars m)) by apply S.
  assert (P : forall v, v_parents (var m' v) = v_parents (var m v)) by (intros; apply S).
  assert (HP : forall v, has_parents m' v = has_parents m v) by (intros v; unfold has_parents; now rewrite P).
  assert (I : m_indep m' = m_indep m) by apply S. assert (C : m_children m' = m_children m) by apply S.
  constructor.
  - destruct (wb_names _ _ _ _ _ H) as (A & B). split; [congruence|]. auto.
  - apply H.
  - apply H.
  - rewrite L. apply (wb_pages _ _ _ _ _ H).
  - apply H.
  - intros v Hv. rewrite P. apply (wb_parents _ _ _ _ _ H). lia.
  - rewrite I, C, L. destruct (wb_kinds _ _ _ _ _ H) as (A & B). split; [rewrite A|rewrite B]; apply filter_ext; intros v; now rewrite HP.
  - intros v l Hv E. rewrite I in Hv. apply (wb_priors _ _ _ _ _ H v); auto. rewrite <- E. symmetry. apply S.
Qed.

Lemma filter_split_length : forall A (f : A -> bool) l, len (filter (fun x => negb (f x)) l) + len (filter f l) = len l.
Proof. induction l as [|x l IH]; cbn; auto. destruct (f x); cbn; lia. Qed.

Section File.
Variable card : nat -> nat.
Variable m : model.
Variable names : list named_variable.
Variable pages : list page.
Variable size : Z * Z.
Hypothesis HW : writable card m names pages size.
Hypothesis HL : learnable card m.
Local Notation n := (len (m_vars m)).
Local Notation sym := (sym names).
Local Notation prior v := (match v_prior (var m v) with Some l => l | None => [] end).
Let HM : model_ok card m := so_model _ _ (le_slices _ _ HL).

Lemma indep_in : forall v, In v (m_indep m) -> v < n /\ v_parents (var m v) = [].
Proof.
  intros v Hv. assert (V : v < n) by (apply (mo_indep _ _ HM); auto). split; auto. now apply (le_roots _ _ HL).
Qed.
Lemma child_in : forall v, In v (m_children m) -> v < n /\ v_parents (var m v) <> [].
Proof.
  intros v Hv. destruct (wb_kinds _ _ _ _ _ HW) as (_ & B). rewrite B in Hv. apply filter_In in Hv. destruct Hv as (H1 & H2).
  apply in_seq in H1. split; [lia|]. unfold has_parents in H2. intros K. rewrite K in H2. discriminate.
Qed.
Lemma kinds_length : n - len (m_children m) = len (m_indep m).
Proof.
  destruct (wb_kinds _ _ _ _ _ HW) as (A & B). rewrite A, B.
  assert (L := filter_split_length nat (has_parents m) (seq 0 n)). rewrite seq_length in L. lia.
Qed.
Lemma children_nodup : NoDup (m_children m).
Proof. destruct (wb_kinds _ _ _ _ _ HW) as (_ & ->). apply NoDup_filter, seq_NoDup. Qed.

Lemma prior_range : forall v, In v (m_indep m) -> v_prior (var m v) = Some (prior v) /\ len (prior v) = card v /\
  Forall (fun x => (0 <= x)%Qc /\ (x <= 1)%Qc) (prior v).
Proof.
  intros v Hv. destruct (proj2 (mo_indep _ _ HM) v Hv) as (_ & l & E & (LL & F) & _). rewrite E.
  split; auto. split; auto. assert (S := wb_priors _ _ _ _ _ HW v l Hv E). rewrite Forall_forall in *. intros x Hx.
  split; [auto|]. rewrite <- S. apply qsum_member; auto.
Qed.

Definition prior_decl (v : nat) : pot_decl := mkDecl (sym v) None (Some (map round6 (prior v))).
Definition net_of (f : nat -> potential) : net :=
  mkNet (map (node_of_page names pages) (seq 0 n))
    (map prior_decl (m_indep m) ++ map (fun v => cpd_decl m names v (data (f v))) (m_children m)).

Definition all_terms (f : nat -> potential) : list terminal :=
  ([T_key K_net] ++ marks "{" ++ ([T_key K_node_size] ++ marks "=(" ++ [num (fst size); num (snd size)] ++ marks ");") ++ marks "}") ++
  flat_map (node_terms names pages) (seq 0 n) ++
  flat_map (fun v => prior_terms names v (prior v)) (m_indep m) ++
  flat_map (fun v => cpd_terms card m names v (data (f v))) (m_children m).

Lemma write_model_text : exists m' text f, write_model true true names pages size m = Ok (m', Some text, NO_ERROR) /\
  model_ok card m' /\ same_model m m' /\
  (forall v, v < n -> v_lik (var m' v) = repeat 1%Qc (card v) /\ v_entered (var m' v) = false) /\
  (forall a, valid card a -> joint (m_jt m') a = original m a) /\
  open_text 0 text (all_terms f) /\
  (forall v, In v (m_children m) -> table card (family m v) (f v) /\ Forall (fun x => (0 <= x)%Qc /\ (x <= 1)%Qc) (data (f v)) /\
    forall a, valid card a -> den (family m v) (f v) a = distribution card m v a).
Proof.
  unfold write_model. cbn [negb].
  destruct (reset_model_ok card m HM) as (m1 & E1 & M1 & S1 & R1 & _ & J1). rewrite E1. cbn [bind].
  assert (HW1 := writable_same card m m1 names pages size HW S1).
  assert (L1 : len (m_vars m1) = n) by apply S1. assert (CI : m_indep m1 = m_indep m) by apply S1.
  assert (CC : m_children m1 = m_children m) by apply S1. rewrite L1, CI, CC, kinds_length.
  destruct (wb_size _ _ _ _ _ HW) as (X & Y).
  destruct (print_d_piece _ X) as (X1 & X2 & X3 & X4). destruct (print_d_piece _ Y) as (Y1 & Y2 & Y3 & Y4).
  assert (CV : forall v, v < n -> v_card (var m1 v) = card v) by (intros v Hv; apply (mo_var _ _ M1); lia).
  assert (C0 : forall v, 0 < card v) by apply (shape_card card _ (mo_shape _ _ HM)).
  assert (O := open_nil). set (DX := print_d (fst size)) in *. set (DY := print_d (snd size)) in *.
  change str with chars.
  add_line O (chars "net") ([T_key K_net]). add_line O (chars "{") (marks "{").
  add_line O (chars "    node_size = (" ++ DX ++ chars " " ++ DY ++ chars ");")
    ([T_key K_node_size] ++ marks "=(" ++ [num (fst size); num (snd size)] ++ marks ");").
  add_line O (chars "}") (marks "}").
  set (ts0 := [T_key K_net] ++ marks "{" ++ ([T_key K_node_size] ++ marks "=(" ++ [num (fst size); num (snd size)] ++ marks ");") ++ marks "}").
  match goal with |- context [for_up 0 n ?b ?s] => set (s0 := s);
    assert (OS : open_text 0 s0 ts0) by (unfold s0, ts0; done_with O; lia); clearbody s0;
    destruct (for_up_inv (list ascii) (fun i o => open_text 0 o (ts0 ++ flat_map (node_terms names pages) (seq 0 i))) b 0 n s0) as (o1 & Eo1 & O1) end.
  { lia. } { cbn [seq flat_map]. now rewrite app_nil_r. }
  { intros i o Hi Oi. destruct (write_node_ok card m1 names pages size HW1 i o _ ltac:(lia) (CV i ltac:(lia)) (C0 i) Oi) as (o' & E & O').
    exists o'. split; auto. rewrite seq_S, flat_map_app. cbn [Nat.add flat_map]. rewrite app_nil_r, app_assoc. exact O'. }
  rewrite Eo1. cbn [bind]. clear O OS. set (t1 := ts0 ++ flat_map (node_terms names pages) (seq 0 n)) in *.
  match goal with |- context [for_up 0 (len (m_indep m)) ?b o1] =>
    destruct (for_up_inv (list ascii) (fun i o => open_text 0 o (t1 ++ flat_map (fun v => prior_terms names v (prior v)) (firstn i (m_indep m))))
      b 0 (len (m_indep m)) o1) as (o2 & Eo2 & O2) end.
  { lia. } { cbn [firstn flat_map]. now rewrite app_nil_r. }
  { intros i o Hi Oi. rewrite (rd_ok _ (m_indep m) i 0) by lia. cbn [bind]. assert (IN : In (nth i (m_indep m) 0) (m_indep m)) by (apply nth_In; lia).
    rewrite (firstn_snoc _ 0) by lia. rewrite flat_map_app. set (v := nth i (m_indep m) 0) in *.
    destruct (indep_in v IN) as (Vn & _). destruct (prior_range v IN) as (P1 & P2 & P3).
    assert (P1' : v_prior (var m1 v) = Some (prior v)) by (rewrite <- P1; apply S1).
    destruct (write_prior_ok card m1 names pages size HW1 v (prior v) o _ ltac:(lia) (CV v Vn) P1' P2 P3 Oi) as (o' & E & O').
    exists o'. split; auto. cbn [flat_map]. rewrite app_nil_r, app_assoc. exact O'. }
  rewrite Eo2. cbn [bind]. rewrite firstn_all in O2. set (t2 := t1 ++ _) in *.
  match goal with |- context [for_up 0 (len (m_children m)) ?b (m1, o2)] =>
    destruct (for_up_inv (model * list ascii) (fun i '(m', o) => model_ok card m' /\ same_model m m' /\ m_jt m' = m_jt m1 /\
      (forall w, v_lik (var m' w) = v_lik (var m1 w)) /\ (forall w, v_entered (var m' w) = v_entered (var m1 w)) /\
      exists f, (forall v, In v (firstn i (m_children m)) -> table card (family m v) (f v) /\ Forall (fun x => (0 <= x)%Qc /\ (x <= 1)%Qc) (data (f v)) /\
        forall a, valid card a -> den (family m v) (f v) a = distribution card m v a) /\
      open_text 0 o (t2 ++ flat_map (fun v => cpd_terms card m names v (data (f v))) (firstn i (m_children m))))
      b 0 (len (m_children m)) (m1, o2)) as ((m3 & o3) & Eo3 & A1 & A2 & A3 & A4 & A5 & f & A6 & A7) end.
  { lia. }
  { split; auto. split; auto. split; auto. split; auto. split; auto. exists (fun _ => mkPot [] []). split; [intros v []|].
    cbn [firstn flat_map]. now rewrite app_nil_r. }
  { intros i (m' & o) Hi (B1 & B2 & B3 & B4 & B5 & f & B6 & B7). assert (CC' : m_children m' = m_children m) by apply B2.
    rewrite CC'. rewrite (rd_ok _ (m_children m) i 0) by lia. cbn [bind].
    assert (IN : In (nth i (m_children m) 0) (m_children m)) by (apply nth_In; lia).
    assert (NI : ~ In (nth i (m_children m) 0) (firstn i (m_children m))).
    { intros K. assert (ND := children_nodup). rewrite <- (firstn_skipn (S i) (m_children m)) in ND.
      rewrite (firstn_snoc _ 0) in ND by lia. rewrite <- app_assoc in ND. apply NoDup_remove_2 in ND. apply ND. apply in_or_app. auto. }
    rewrite (firstn_snoc _ 0) by lia. set (v := nth i (m_children m) 0) in *.
    destruct (child_in v IN) as (Vn & VP).
    destruct (write_cpd_ok card m names pages size HW HL m' v o _ B1 B2 Vn VP B7) as (m2 & p & o' & E & D1 & D2 & D3 & D4 & D5 & D6 & D7 & D8 & D9).
    exists (m2, o'). split; auto. split; auto. split; auto. split; [congruence|]. split; [congruence|]. split; [congruence|].
    exists (fun w => if Nat.eqb w v then p else f w). split.
    - intros w Hw. apply in_app_iff in Hw. destruct (Nat.eqb_spec w v) as [->|N]; [auto|]. destruct Hw as [Hw|[Hw|[]]]; [auto|congruence].
    - rewrite flat_map_app. cbn [flat_map]. rewrite Nat.eqb_refl, app_nil_r, app_assoc.
      rewrite (flat_map_ext_in _ _ _ (fun w => cpd_terms card m names w (data (f w)))); [exact D9|].
      intros w Hw. destruct (Nat.eqb_spec w v) as [->|]; [contradiction|reflexivity]. }
  rewrite Eo3. cbn [bind]. exists m3, o3, f. split; auto. split; auto. split; auto. split.
  { intros v Hv. rewrite A4, A5. auto. }
  split. { rewrite A3. auto. }
  rewrite firstn_all in *. split; auto. unfold all_terms, t2, t1 in *. rewrite <- !app_assoc in A7. rewrite <- !app_assoc. exact A7.
Qed.

(** ** The document *)
Lemma potentials_app : forall a b ta tb, potentials_in_text a ta -> potentials_in_text b tb -> potentials_in_text (a ++ b) (ta ++ tb).
Proof. intros a b ta tb Ha Hb. induction Ha; cbn [app]; auto. rewrite <- app_assoc. now constructor. Qed.
Lemma potentials_map : forall (d : nat -> pot_decl) (t : nat -> list terminal) l, (forall v, In v l -> potential_in_text (d v) (t v)) ->
  potentials_in_text (map d l) (flat_map t l).
Proof. induction l as [|v l IH]; intros H; cbn; constructor; [apply H; simpl; auto|apply IH; intros; apply H; simpl; auto]. Qed.
Lemma nodes_map : forall (d : nat -> node_decl) (k : nat -> looks) (t : nat -> list terminal) l,
  (forall v, In v l -> node_in_text (d v) (k v) (t v)) -> nodes_in_text (map d l) (map k l) (flat_map t l).
Proof. induction l as [|v l IH]; intros H; cbn; constructor; [apply H; simpl; auto|apply IH; intros; apply H; simpl; auto]. Qed.

Lemma prior_terms_ok : forall v, prior v <> [] -> potential_in_text (prior_decl v) (prior_terms names v (prior v)).
Proof.
  intros v NE. unfold prior_decl, prior_terms.
  assert (D : data_in_text (Some (map round6 (prior v))) ([T_key K_data] ++ marks "=(" ++ number_terms (prior v) ++ marks ");")).
  { constructor; [destruct (prior v); [congruence|discriminate]|]. clear NE. induction (prior v); cbn; constructor; auto. }
  assert (G := potential_of (sym v) None _ _ D).
  match goal with |- potential_in_text _ ?t => match type of G with potential_in_text _ ?t' => replace t with t'; [exact G|] end end.
  cbn [given_text NetSpec.names map]. rewrite <- !app_assoc. reflexivity.
Qed.

Lemma pages_eq : map (fun v => looks_on (pg pages v)) (seq 0 n) = map looks_on pages.
Proof.
  rewrite <- (map_map (pg pages) looks_on). f_equal. destruct (wb_pages _ _ _ _ _ HW) as (L & _). rewrite <- L.
  apply (list_ext_nth _ (mkPage None 0 0 None)).
  - now rewrite map_length, seq_length.
  - intros t Ht. rewrite map_length, seq_length in Ht. rewrite (nth_map _ _ _ _ _ 0) by (rewrite seq_length; auto). now rewrite seq_nth by auto.
Qed.

Lemma nonempty_len : forall A (l : list A), 0 < len l -> l <> [].
Proof. intros A [|x l] H; [cbn in H; lia|discriminate]. Qed.

Lemma document_ok : forall f, (forall v, In v (m_children m) -> table card (family m v) (f v)) ->
  document (net_of f) (map looks_on pages) size (all_terms f).
Proof.
  intros f HF. assert (C0 : forall v, 0 < card v) by apply (shape_card card _ (mo_shape _ _ HM)).
  destruct (wb_size _ _ _ _ _ HW) as (X & Y).
  assert (FT : fields_text (fun x => is_size x || is_other x)%bool [F_size (fst size) (snd size)]
    (([T_key K_node_size] ++ marks "=(" ++ [num (fst size); num (snd size)] ++ marks ");") ++ [])).
  { apply more_fields; [reflexivity| |constructor]. apply text_size; now apply whole_Z. }
  assert (N : nodes_in_text (map (node_of_page names pages) (seq 0 n)) (map looks_on pages) (flat_map (node_terms names pages) (seq 0 n))).
  { rewrite <- pages_eq. apply nodes_map. intros v Hv. apply in_seq in Hv. apply (node_terms_ok card m names pages size HW); auto. lia. }
  assert (P : potentials_in_text (map prior_decl (m_indep m) ++ map (fun v => cpd_decl m names v (data (f v))) (m_children m))
    (flat_map (fun v => prior_terms names v (prior v)) (m_indep m) ++
     flat_map (fun v => cpd_terms card m names v (data (f v))) (m_children m))).
  { apply potentials_app.
    - apply potentials_map. intros v Hv. apply prior_terms_ok. apply nonempty_len. destruct (prior_range v Hv) as (_ & -> & _). auto.
    - apply (potentials_map (fun v => cpd_decl m names v (data (f v))) (fun v => cpd_terms card m names v (data (f v)))).
      intros v Hv. apply cpd_terms_ok. apply nonempty_len. destruct (HF v Hv) as (_ & (W1 & W2 & _) & _). rewrite W2. now apply prod_pos. }
  assert (D := net_document _ _ _ _ _ _ _ FT N P).
  replace (size_of [F_size (fst size) (snd size)]) with size in D by (destruct size; reflexivity).
  match goal with |- document _ _ _ ?t => match type of D with document _ _ _ ?t' => replace t with t'; [exact D|] end end.
  unfold all_terms. rewrite app_nil_r, <- !app_assoc. reflexivity.
Qed.

(** ** What it describes *)
Lemma nth_map_seq : forall A (g : nat -> A) k v d, v < k -> nth v (map g (seq 0 k)) d = g v.
Proof. intros A g k v d Hv. rewrite (nth_map _ _ _ _ _ 0) by (rewrite seq_length; auto). now rewrite seq_nth by auto. Qed.

Section Described.
Variable f : nat -> potential.
Hypothesis HF : forall v, In v (m_children m) -> table card (family m v) (f v) /\ Forall (fun x => (0 <= x)%Qc /\ (x <= 1)%Qc) (data (f v)) /\
  forall a, valid card a -> den (family m v) (f v) a = distribution card m v a.
Local Notation t := (net_of f).

Lemma symbols_t : symbols t = map symbol_of names.
Proof.
  unfold symbols, net_of. cbn [n_nodes]. rewrite map_map. cbn [nd_symbol node_of_page].
  assert (L := names_length card m names pages size HW). rewrite <- L. unfold WriteProofs3.sym.
  rewrite <- (map_map (nm names) symbol_of). f_equal.
  apply (list_ext_nth _ (mkNamed 0 None 0 NamesNull [])).
  - now rewrite map_length, seq_length.
  - intros i Hi. rewrite map_length, seq_length in Hi. now rewrite nth_map_seq by auto.
Qed.
Lemma number_t : forall v, v < n -> ParseSpec.number t (sym v) = v.
Proof.
  intros v Hv. unfold ParseSpec.number. assert (L := names_length card m names pages size HW).
  replace (sym v) with (nth v (symbols t) EmptyString).
  - rewrite position_nth; auto.
    + rewrite symbols_t. apply (wb_symbols _ _ _ _ _ HW).
    + rewrite symbols_t, map_length. lia.
  - unfold symbols, net_of. cbn [n_nodes]. rewrite map_map. now rewrite nth_map_seq by auto.
Qed.
Lemma node_t : forall v, v < n -> node t v = node_of_page names pages v.
Proof. intros v Hv. unfold node, net_of. cbn [n_nodes]. now rewrite nth_map_seq by auto. Qed.
Lemma card_t : forall v, v < n -> card_in t v = card v.
Proof.
  intros v Hv. unfold card_in. rewrite node_t by auto. cbn [states nd_states node_of_page].
  apply (states_length card m names pages size HW v Hv).
Qed.
Lemma parents_lt : forall v u, v < n -> In u (v_parents (var m v)) -> u < n.
Proof. intros v u Hv Hu. apply (LearnProofs5.family_lt card m HL v); auto. right. exact Hu. Qed.
Lemma sym_in : forall v, v < n -> In (sym v) (symbols t).
Proof. intros v Hv. rewrite symbols_t. change (sym v) with (symbol_of (nm names v)). apply in_map. exact (nth_error_In _ _ (nm_ok card m names pages size HW v Hv)). Qed.

Lemma round6_rounded : forall x, (0 <= x)%Qc -> (x <= 1)%Qc -> rounded x (round6 x).
Proof. intros x H0 H1. apply (print_f_ok x H0 H1). Qed.

Lemma den_round : forall vs (p : potential) (q : potential) a, table card vs p -> Forall (fun x => (0 <= x)%Qc /\ (x <= 1)%Qc) (data p) ->
  dims q = dims p -> data q = map round6 (data p) -> valid card a -> rounded (den vs p a) (den vs q a).
Proof.
  intros vs p q a T F D1 D2 Va. unfold den, cell. rewrite D1, D2.
  assert (LT : flat (dims p) (map a vs) < len (data p)).
  { destruct T as (_ & (W1 & W2 & _) & D). rewrite W2. apply flat_lt. rewrite D. now apply valid_ix_map. }
  rewrite (nth_map _ _ _ _ _ 0%Qc) by auto. rewrite Forall_forall in F.
  assert (K := F _ (nth_In _ 0%Qc LT)). now apply round6_rounded.
Qed.


Lemma parents_back : forall v, v < n -> map (ParseSpec.number t) (rev (map sym (rev (v_parents (var m v))))) = v_parents (var m v).
Proof.
  intros v Hv. rewrite (map_rev sym), rev_involutive, map_map. rewrite <- (map_id (v_parents (var m v))) at 2.
  apply map_ext_in. intros u Hu. apply number_t. now apply (parents_lt v).
Qed.

Lemma describes_ok : describes card m names pages t.
Proof.
  assert (C0 : forall v, 0 < card v) by apply (shape_card card _ (mo_shape _ _ HM)).
  assert (LN := names_length card m names pages size HW).
  assert (PD : forall d, In d (n_potentials t) ->
    (exists v, d = prior_decl v /\ In v (m_indep m)) \/ (exists v, d = cpd_decl m names v (data (f v)) /\ In v (m_children m))).
  { intros d Hd. unfold net_of in Hd. cbn [n_potentials] in Hd. apply in_app_iff in Hd.
    destruct Hd as [Hd|Hd]; apply in_map_iff in Hd; destruct Hd as (v & <- & Hv); eauto. }
  constructor.
  - exact symbols_t.
  - intros v nv p E1 E2. assert (Hv : v < n) by (rewrite <- LN; apply nth_error_Some; congruence).
    assert (EN := nm_ok card m names pages size HW v Hv). assert (NV : nv = nm names v) by congruence. subst nv.
    destruct (pg_ok card m names pages size HW v Hv) as (RP & NM & _ & _ & _ & NX).
    assert (PG : p = pg pages v). { unfold rd in RP. rewrite E2 in RP. congruence. } subst p.
    rewrite node_t by auto. cbn [nd_label nd_states node_of_page]. split; [auto|]. split; [auto|].
    unfold next_in. rewrite node_t by auto. cbn [nd_next node_of_page]. destruct (pg_next (pg pages v)) as [w|]; [|reflexivity].
    cbn [option_map]. f_equal. apply number_t. auto.
  - unfold net_of. cbn [n_potentials]. rewrite map_app, !map_map. fold t. f_equal.
    + rewrite <- (map_id (m_indep m)) at 2. apply map_ext_in. intros v Hv. unfold child_of. cbn [prior_decl pd_child]. apply number_t. now apply indep_in.
    + rewrite <- (map_id (m_children m)) at 2. apply map_ext_in. intros v Hv. unfold child_of. cbn [cpd_decl pd_child]. apply number_t. now apply child_in.
  - intros d Hd s Hs. unfold net_of in Hd. cbn [n_nodes] in Hd. apply in_map_iff in Hd. destruct Hd as (v & <- & Hv). apply in_seq in Hv.
    cbn [nd_next node_of_page] in Hs. destruct (pg_next (pg pages v)) as [w|] eqn:E; [|discriminate]. cbn [option_map] in Hs.
    injection Hs as <-. apply sym_in. destruct (pg_ok card m names pages size HW v ltac:(lia)) as (_ & _ & _ & _ & _ & NX). auto.
  - intros d Hd. destruct (PD d Hd) as [(v & -> & Hv)|(v & -> & Hv)].
    + destruct (indep_in v Hv) as (Vn & VP). unfold child_of, parents_of, given_symbols. cbn [prior_decl pd_child pd_parents].
      rewrite number_t by auto. rewrite VP. split; [|split; [reflexivity|tauto]].
      intros x [<-|[]]. now apply sym_in.
    + destruct (child_in v Hv) as (Vn & VP). unfold child_of, parents_of, given_symbols. cbn [cpd_decl pd_child pd_parents].
      rewrite number_t by auto. rewrite parents_back by auto. split; [|split; [reflexivity|]].
      * intros x [<-|Hx]; [now apply sym_in|]. apply in_map_iff in Hx. destruct Hx as (u & <- & Hu). apply in_rev in Hu.
        apply sym_in. now apply (parents_lt v).
      * split; [discriminate|congruence].
  - intros d Hd. destruct (PD d Hd) as [(v & -> & Hv)|(v & -> & Hv)].
    + destruct (indep_in v Hv) as (Vn & VP). destruct (prior_range v Hv) as (P1 & P2 & P3).
      assert (FM : family_of t (prior_decl v) = [v]).
      { unfold family_of, child_of, parents_of, given_symbols. cbn [prior_decl pd_child pd_parents]. now rewrite number_t. }
      assert (CL : cells_of t (prior_decl v) = card v).
      { unfold cells_of. rewrite FM. cbn [map prod]. rewrite card_t by auto. cbn. lia. }
      split.
      * eexists. split; [reflexivity|]. now rewrite CL, map_length.
      * intros a Va. unfold child_of. cbn [prior_decl pd_child]. rewrite number_t by auto. unfold distribution.
        assert (HP : has_parents m v = false) by (unfold has_parents; now rewrite VP).
        rewrite HP. unfold table_of. rewrite FM, CL. cbn [pd_data prior_decl map]. rewrite card_t by auto.
        rewrite firstn_all2 by (rewrite map_length; lia).
        unfold den, cell. cbn [dims data map]. replace (flat [card v] [a v]) with (a v) by (cbn; lia).
        unfold at_state. rewrite (nth_map _ _ _ _ _ 0%Qc) by (rewrite P2; apply Va). apply round6_rounded.
        { rewrite Forall_forall in P3. apply P3, nth_In. rewrite P2. apply Va. }
        { rewrite Forall_forall in P3. apply P3, nth_In. rewrite P2. apply Va. }
    + destruct (child_in v Hv) as (Vn & VP). destruct (HF v Hv) as (T & F & DD).
      assert (FM : family_of t (cpd_decl m names v (data (f v))) = family m v).
      { unfold family_of, child_of, parents_of, given_symbols. cbn [cpd_decl pd_child pd_parents]. rewrite number_t by auto.
        now rewrite parents_back by auto. }
      assert (CM : map (card_in t) (family m v) = map card (family m v)).
      { apply map_ext_in. intros u Hu. apply card_t. now apply (LearnProofs5.family_lt card m HL v). }
      assert (CL : cells_of t (cpd_decl m names v (data (f v))) = len (data (f v))).
      { unfold cells_of. rewrite FM, CM. destruct T as (_ & (_ & W2 & _) & D). now rewrite W2, D. }
      split.
      * eexists. split; [reflexivity|]. now rewrite CL, map_length.
      * intros a Va. unfold child_of. cbn [cpd_decl pd_child]. rewrite number_t by auto. rewrite FM, <- DD by auto.
        apply den_round; auto; unfold table_of; cbn [dims data pd_data cpd_decl].
        { rewrite FM, CM. symmetry. apply T. }
        { rewrite CL. now rewrite firstn_all2 by (rewrite map_length; lia). }
Qed.
End Described.
End File.

Lemma write_model_ok : forall card m names pages size, writable card m names pages size -> learnable card m ->
  exists m' text toks ts t, write_model true true names pages size m = Ok (m', Some text, NO_ERROR) /\
    model_ok card m' /\ same_model m m' /\
    (forall v, v < len (m_vars m) -> v_lik (var m' v) = repeat 1%Qc (card v) /\ v_entered (var m' v) = false) /\
    (forall a, valid card a -> joint (m_jt m') a = original m a) /\
    text_tokens text toks /\ Forall2 reads_as toks ts /\
    document t (map looks_on pages) size ts /\ describes card m names pages t.
Proof.
  intros card m names pages size HW HL.
  destruct (write_model_text card m names pages size HW HL) as (m' & text & f & E & M & S & R & J & O & HF).
  destruct (open_done _ _ O) as (toks & T1 & T2).
  exists m', text, toks, (all_terms card m names pages size f), (net_of m names pages f).
  do 7 (split; [auto; fail|]). split.
  - apply document_ok; auto. intros v Hv. now apply HF.
  - now apply (describes_ok card m names pages size).
Qed.
