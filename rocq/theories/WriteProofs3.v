(** * Proofs: the declarations of nodes and priors *)
From Coq Require Import String Ascii QArith.QArith QArith.Qcanon QArith.Qabs.
From Verif Require Import Base BaseProofs StringSpec PotentialModel PotentialSpec VariableModel JoinTreeModel AssignSpec NipModel NipSpec
  SliceModel SliceSpec LearnSpec ParseModel ParseSpec
  StringModel SeriesFileModel NetLexModel NetGrammarModel NetSpec WriteModel WriteSpec WriteProofs WriteProofs2.
Import ListNotations.
Open Scope nat_scope.
Local Notation chars := list_ascii_of_string.
Local Notation len := List.length.

Lemma firstn_snoc : forall A (d : A) j l, j < len l -> firstn (S j) l = firstn j l ++ [nth j l d].
Proof.
  intros A d. induction j as [|j IH]; intros l Hl; destruct l as [|x l]; try (cbn in Hl; lia); [reflexivity|].
  cbn [firstn nth app]. f_equal. apply IH. cbn in Hl. lia.
Qed.
Lemma chars_length : forall s, len (chars s) = String.length s.
Proof. induction s; cbn; auto. Qed.

Definition cleanb (p : list ascii) : bool := forallb (fun c => negb (Ascii.eqb c end_of_line) && negb (Ascii.eqb c zero))%bool p.
Lemma cleanb_ok : forall p, cleanb p = true -> clean p.
Proof.
  intros p H. unfold cleanb in H. rewrite forallb_forall in H. split; intros K; apply H in K; rewrite Ascii.eqb_refl in K; [discriminate|].
  destruct (negb (Ascii.eqb zero end_of_line)); discriminate.
Qed.
Ltac clean_tac :=
  repeat first [ apply clean_app | assumption | apply cleanb_ok; reflexivity ].
Ltac len_tac := rewrite ?app_length; cbn [List.length str list_ascii_of_string app DQUOTE NL]; lia.

Lemma line_eq : forall n s ts p tp s' ts', open_text n s ts -> ending p tp -> clean p -> n + len p < Z.to_nat 9999 ->
  s' = s ++ p ++ NL -> ts' = ts ++ tp -> open_text 0 s' ts'.
Proof. intros. subst. now apply open_line with n. Qed.
Lemma piece_eq : forall n s ts p tp n' s' ts', open_text n s ts -> piece p tp -> clean p -> n + len p <= n' ->
  s' = s ++ p -> ts' = ts ++ tp -> open_text n' s' ts'.
Proof. intros. subst. eapply open_le; [eassumption|]. now apply open_piece. Qed.
Lemma below : forall n, (Z.of_nat n < 9999)%Z -> n < Z.to_nat 9999.
Proof. intros. lia. Qed.

Lemma ending_split : forall p q tp tq t, piece p tp -> ending q tq -> t = tp ++ tq -> ending (p ++ q) t.
Proof. intros. subst. now apply piece_ending. Qed.
Lemma piece_split : forall p q tp tq t, piece p tp -> piece q tq -> t = tp ++ tq -> piece (p ++ q) t.
Proof. intros. subst. now apply piece_app. Qed.
Lemma ending_word' : forall w p t tp t', reads_as w t -> plain_word w -> not_word p -> ending p tp -> t' = t :: tp -> ending (w ++ p) t'.
Proof. intros. subst. apply ending_word; auto. Qed.
Lemma piece_word' : forall w p t tp t', reads_as w t -> plain_word w -> not_word p -> piece p tp -> t' = t :: tp -> piece (w ++ p) t'.
Proof. intros. subst. apply piece_word; auto. Qed.
Lemma ending_last : forall w t, reads_as w t -> plain_word w -> ending w [t].
Proof. intros w t R W. rewrite <- (app_nil_r w). apply ending_word; auto using ending_nil. Qed.

Ltac not_word_tac := cbn [str list_ascii_of_string app not_word]; apply delim_not_word; first [left; reflexivity|right; reflexivity].
Ltac one_piece := first [eapply fixed_piece_ok; vm_compute; reflexivity | apply piece_quoted; assumption | eassumption].
Ltac piece_tac :=
  lazymatch goal with
  | |- piece (?p ++ ?q) _ =>
      first [ eapply piece_word'; [eassumption|eassumption|not_word_tac|piece_tac|reflexivity]
            | one_piece
            | eapply piece_split; [one_piece|piece_tac|reflexivity] ]
  | _ => one_piece
  end.
Ltac ending_tac :=
  lazymatch goal with
  | |- ending (?p ++ ?q) _ =>
      first [ eapply ending_word'; [eassumption|eassumption|not_word_tac|ending_tac|reflexivity]
            | eapply ending_split; [one_piece|ending_tac|reflexivity] ]
  | _ => first [eapply fixed_ending_ok; vm_compute; reflexivity | eapply ending_last; eassumption | eassumption]
  end.
Ltac add_line O P T :=
  match type of O with
  | open_text ?k ?s ?ts =>
      let O' := fresh "O" in
      assert (O' : open_text 0 (s ++ P ++ NL) (ts ++ T));
      [apply open_line with k; [exact O|ending_tac|clean_tac|apply below; len_tac]|clear O; rename O' into O]
  end.
Ltac add_piece O P T :=
  match type of O with
  | open_text ?k ?s ?ts =>
      let O' := fresh "O" in
      assert (O' : open_text (k + len P) (s ++ P) (ts ++ T));
      [apply open_piece; [exact O|piece_tac|clean_tac]|clear O; rename O' into O]
  end.
Ltac done_with O := match goal with |- open_text ?k ?s ?t => match type of O with open_text ?k' ?s' ?t' =>
  replace s with s' by (rewrite <- ?app_assoc; reflexivity); replace t with t' by (rewrite <- ?app_assoc; reflexivity);
  eapply open_le; [|exact O] end end.

Lemma quotable_ok : forall s, quotable s -> Forall (fun c => c <> quote /\ member c net_separators = false) (chars s) /\
  clean (chars s) /\ len (chars s) <= 40.
Proof.
  intros s (L & H). split; [|split; [|now rewrite chars_length]].
  - revert H. apply Forall_impl. tauto.
  - rewrite Forall_forall in H. split; intros K; destruct (H _ K) as (_ & _ & A & B); congruence.
Qed.
Lemma writable_ok : forall s, symbol_writable s -> plain_word (chars s) /\ reads_as (chars s) (T_unquoted (chars s)) /\
  clean (chars s) /\ len (chars s) <= 40 /\ Forall (fun c => c <> quote /\ member c net_separators = false) (chars s).
Proof.
  intros s (L & S & Z & P). assert (W : plain_word (chars s)) by (split; [auto|split; [apply S|auto]]).
  split; auto. split; [now constructor|]. split; [now apply word_clean|]. split; [now rewrite chars_length|].
  destruct S as (_ & S & _). revert S. apply Forall_impl. intros c (D & Q). split; auto.
  unfold delimits in D. now destruct (member c net_separators).
Qed.

Lemma whole_Z : forall z, (0 <= z <= INT_MAX)%Z -> whole (Finite (Q2Qc (inject_Z z))) z.
Proof.
  intros z Hz. exists (Q2Qc (inject_Z z)). split; auto. split; auto. cbn [this Q2Qc].
  rewrite Qred_correct. unfold Qabs, inject_Z. rewrite Z.abs_eq by lia. unfold Qle, Qlt. cbn. lia.
Qed.

Section Write.
Variable card : nat -> nat.
Variable m : model.
Variable names : list named_variable.
Variable pages : list page.
Variable size : Z * Z.
Hypothesis HW : writable card m names pages size.
Local Notation n := (len (m_vars m)).

Definition nm (v : nat) : named_variable := nth v names (mkNamed 0 None 0 NamesNull []).
Definition sym (v : nat) : string := symbol_of (nm v).
Definition pg (v : nat) : page := nth v pages (mkPage None 0 0 None).
Definition name (v : nat) : string := match pg_name (pg v) with Some s => s | None => EmptyString end.

Lemma names_length : len names = n.
Proof. apply (wb_names _ _ _ _ _ HW). Qed.
Lemma nm_ok : forall v, v < n -> nth_error names v = Some (nm v).
Proof. intros v Hv. apply nth_error_nth'. now rewrite names_length. Qed.
Lemma symbol_text_ok : forall v, v < n -> symbol_text names v = Ok (chars (sym v)).
Proof.
  intros v Hv. unfold symbol_text, rd. rewrite nm_ok by auto. cbn [bind].
  destruct (wb_names _ _ _ _ _ HW) as (_ & H). destruct (H v _ (nm_ok v Hv)) as (A & _).
  unfold sym, symbol_of. destruct (nv_symbol (nm v)); [reflexivity|congruence].
Qed.
Lemma states_length : forall v, v < n -> len (states_of (nm v)) = card v /\ exists l, nv_states (nm v) = Names l.
Proof.
  intros v Hv. destruct (wb_names _ _ _ _ _ HW) as (_ & H). destruct (H v _ (nm_ok v Hv)) as (_ & _ & l & A & B).
  unfold states_of. rewrite A. eauto.
Qed.
Definition st (v j : nat) : string := nth j (states_of (nm v)) EmptyString.
Lemma state_text_ok : forall v j, v < n -> j < card v -> state_text names v j = Ok (chars (st v j)).
Proof.
  intros v j Hv Hj. unfold state_text, rd. rewrite nm_ok by auto. cbn [bind].
  destruct (states_length v Hv) as (L & l & E). unfold st, states_of in *. rewrite E in *.
  rewrite (nth_error_nth' l EmptyString) by lia. reflexivity.
Qed.
Lemma st_ok : forall v j, v < n -> j < card v -> quotable (st v j).
Proof.
  intros v j Hv Hj. assert (H := wb_states _ _ _ _ _ HW (nm v) (nth_error_In _ _ (nm_ok v Hv))).
  rewrite Forall_forall in H. apply H. apply nth_In. destruct (states_length v Hv). lia.
Qed.
Lemma sym_ok : forall v, v < n -> symbol_writable (sym v).
Proof.
  intros v Hv. destruct (wb_symbols _ _ _ _ _ HW) as (_ & H). rewrite Forall_forall in H. apply H. unfold sym.
  apply in_map. exact (nth_error_In _ _ (nm_ok v Hv)).
Qed.
Lemma pg_ok : forall v, v < n -> rd pages v = Ok (pg v) /\ pg_name (pg v) = Some (name v) /\ quotable (name v) /\
  (0 <= pg_x (pg v) <= INT_MAX)%Z /\ (0 <= pg_y (pg v) <= INT_MAX)%Z /\ (forall w, pg_next (pg v) = Some w -> w < n).
Proof.
  intros v Hv. destruct (wb_pages _ _ _ _ _ HW) as (L & H). assert (E : nth_error pages v = Some (pg v)) by (apply nth_error_nth'; lia).
  destruct (H _ (nth_error_In _ _ E)) as ((s & A & B) & C & D & F). unfold rd. rewrite E. split; auto. unfold name. rewrite A. auto 10.
Qed.

(** ** Nodes *)
Definition node_fields (v : nat) : list field :=
  [F_label (name v); F_position (pg_x (pg v)) (pg_y (pg v)); F_states (states_of (nm v))] ++
  match pg_next (pg v) with Some w => [F_next (sym w)] | None => [] end.
Definition num (z : Z) : terminal := T_number (Finite (Q2Qc (inject_Z z))).
Definition next_terms (v : nat) : list terminal :=
  match pg_next (pg v) with
  | Some w => [T_key K_persistence] ++ marks "=" ++ [T_quoted (chars (sym w))] ++ marks ";"
  | None => []
  end.
Definition node_terms (v : nat) : list terminal :=
  [T_key K_node; T_unquoted (chars (sym v))] ++ marks "{" ++
  [T_key K_label] ++ marks "=" ++ [T_quoted (chars (name v))] ++ marks ";" ++
  [T_key K_position] ++ marks "=(" ++ [num (pg_x (pg v)); num (pg_y (pg v))] ++ marks ");" ++
  [T_key K_states] ++ marks "=(" ++ texts (states_of (nm v)) ++ marks ");" ++
  next_terms v ++ marks "}".

Lemma print_d_piece : forall z, (0 <= z <= INT_MAX)%Z -> reads_as (print_d z) (num z) /\ plain_word (print_d z) /\
  clean (print_d z) /\ len (print_d z) <= 31.
Proof.
  intros z Hz. destruct (print_d_ok z Hz) as (A & B & C & D). assert (W : plain_word (print_d z)) by now apply plain_word_of.
  split; [now constructor|]. split; auto. split; [now apply word_clean|auto].
Qed.

Definition node_of_page (v : nat) : node_decl :=
  mkNode (sym v) (Some (name v)) (Some (states_of (nm v))) (option_map sym (pg_next (pg v))).
Lemma node_terms_ok : forall v, v < n -> 0 < card v -> node_in_text (node_of_page v) (looks_on (pg v)) (node_terms v).
Proof.
  intros v Hv HC. destruct (pg_ok v Hv) as (_ & A & _ & X & Y & _).
  assert (NE : states_of (nm v) <> []) by (destruct (states_length v Hv) as (L & _); destruct (states_of (nm v)); [cbn in L; lia|discriminate]).
  assert (F : fields_text (fun x => negb (is_size x)) (node_fields v)
    (([T_key K_label] ++ marks "=" ++ texts [name v] ++ marks ";") ++
     ([T_key K_position] ++ marks "=(" ++ [num (pg_x (pg v)); num (pg_y (pg v))] ++ marks ");") ++
     ([T_key K_states] ++ marks "=(" ++ texts (states_of (nm v)) ++ marks ");") ++ next_terms v)).
  { change (node_fields v) with (F_label (name v) :: F_position (pg_x (pg v)) (pg_y (pg v)) :: F_states (states_of (nm v)) ::
      match pg_next (pg v) with Some w => [F_next (sym w)] | None => [] end). apply more_fields; [reflexivity|constructor|].
    apply more_fields; [reflexivity|apply text_position; now apply whole_Z|].
    apply more_fields; [reflexivity|now constructor|]. unfold next_terms. destruct (pg_next (pg v)); [|constructor].
    rewrite <- (app_nil_r (_ ++ _)). apply more_fields; [reflexivity|constructor|constructor]. }
  assert (D : node_of_page v = mkNode (sym v) (hd_error (labels (node_fields v))) (last_of (state_lists (node_fields v)))
    (hd_error (nexts (node_fields v)))).
  { unfold node_of_page, node_fields. destruct (pg_next (pg v)); reflexivity. }
  assert (P : place (node_fields v) = (pg_x (pg v), pg_y (pg v))).
  { unfold node_fields. destruct (pg_next (pg v)); reflexivity. }
  assert (K : looks_on (pg v) = mkLooks (hd_error (labels (node_fields v))) (fst (place (node_fields v))) (snd (place (node_fields v)))).
  { rewrite P. unfold looks_on, node_fields. rewrite A. reflexivity. }
  rewrite D, K. replace (node_terms v) with (node_start false ++ NetSpec.names [sym v] ++ marks "{" ++
    (([T_key K_label] ++ marks "=" ++ texts [name v] ++ marks ";") ++
     ([T_key K_position] ++ marks "=(" ++ [num (pg_x (pg v)); num (pg_y (pg v))] ++ marks ");") ++
     ([T_key K_states] ++ marks "=(" ++ texts (states_of (nm v)) ++ marks ");") ++ next_terms v) ++ marks "}").
  - now constructor.
  - unfold node_terms, NetSpec.names, texts. cbn [map node_start]. rewrite <- !app_assoc. reflexivity.
Qed.

Lemma write_node_ok : forall v out ts, v < n -> v_card (var m v) = card v -> 0 < card v -> open_text 0 out ts ->
  exists out', write_node names pages m v out = Ok out' /\ open_text 0 out' (ts ++ node_terms v).
Proof.
  intros v out ts Hv EC HC O. destruct (pg_ok v Hv) as (RP & NM & QN & X & Y & NX).
  destruct (writable_ok _ (sym_ok v Hv)) as (W1 & W2 & W3 & W4 & _).
  destruct (quotable_ok _ QN) as (Q1 & Q2 & Q3).
  destruct (print_d_piece _ X) as (X1 & X2 & X3 & X4). destruct (print_d_piece _ Y) as (Y1 & Y2 & Y3 & Y4).
  unfold write_node. assert (RV : rd (m_vars m) v = Ok (var m v)).
  { unfold rd, var. erewrite (nth_error_nth' (m_vars m)) by lia. reflexivity. }
  rewrite RV, RP. cbn [bind]. rewrite symbol_text_ok by auto. cbn [bind]. rewrite NM, EC.
  destruct (card v) as [|k] eqn:EK; [lia|]. clear HC.

  change str with chars. set (S := chars (sym v)) in *. set (L := chars (name v)) in *.
  set (DX := print_d (pg_x (pg v))) in *. set (DY := print_d (pg_y (pg v))) in *.
  add_line O (@nil ascii) (@nil terminal).
  add_line O (chars "node " ++ S) [T_key K_node; T_unquoted S].
  add_line O (chars "{") (marks "{").
  assert (PL : piece (DQUOTE ++ L ++ DQUOTE) [T_quoted L]) by now apply piece_quoted.
  add_line O (chars "    label = " ++ (DQUOTE ++ L ++ DQUOTE) ++ chars ";")
    ([T_key K_label] ++ marks "=" ++ [T_quoted L] ++ marks ";").
  add_line O (chars "    position = (" ++ DX ++ chars " " ++ DY ++ chars ");")
    ([T_key K_position] ++ marks "=(" ++ [num (pg_x (pg v)); num (pg_y (pg v))] ++ marks ");").
  add_piece O (chars "    states = (") ([T_key K_states] ++ marks "=(").
  match type of O with open_text ?a ?b ?c => set (ts0 := c) in O; assert (OP : open_text 40 b c) by (eapply open_le; [|exact O]; len_tac) end.
  clear O. match goal with |- context [for_up 0 k ?body ?s0] =>
    destruct (for_up_inv (list ascii) (fun j o => open_text 40 o (ts0 ++ texts (firstn j (states_of (nm v))))) body 0 k s0) as (o1 & E1 & O) end.
  { lia. }
  { cbn [firstn texts map]. rewrite app_nil_r. match goal with |- open_text _ ?s _ => match type of OP with open_text _ ?s' _ =>
      replace s with s' by (rewrite <- ?app_assoc; reflexivity) end end. exact OP. }
  { intros j o Hj O. rewrite state_text_ok by lia. cbn [bind]. eexists. split; [reflexivity|].
    assert (QS : quotable (st v j)) by (apply st_ok; lia). destruct (quotable_ok _ QS) as (S1 & S2 & S3).
    set (T := chars (st v j)) in *. assert (PT : piece (DQUOTE ++ T ++ DQUOTE) [T_quoted T]) by now apply piece_quoted.
    add_line O (chars " " ++ (DQUOTE ++ T ++ DQUOTE) ++ chars " ") [T_quoted T].
    add_piece O (chars "              ") (@nil terminal).
    rewrite (firstn_snoc _ EmptyString) by (destruct (states_length v Hv); lia). unfold texts. rewrite map_app, app_assoc.
    done_with O. len_tac. }
  rewrite E1. cbn [bind]. rewrite state_text_ok by lia. cbn [bind].
  assert (QS : quotable (st v k)) by (apply st_ok; lia). destruct (quotable_ok _ QS) as (S1 & S2 & S3).
  set (T := chars (st v k)) in *. assert (PT : piece (DQUOTE ++ T ++ DQUOTE) [T_quoted T]) by now apply piece_quoted.
  add_line O (chars " " ++ (DQUOTE ++ T ++ DQUOTE) ++ chars " );") ([T_quoted T] ++ marks ");").
  assert (ST : texts (states_of (nm v)) = texts (firstn k (states_of (nm v))) ++ [T_quoted T]).
  { unfold T, st. destruct (states_length v Hv) as (LS & _).
    change [T_quoted (chars (nth k (states_of (nm v)) EmptyString))] with (texts [nth k (states_of (nm v)) EmptyString]).
    unfold texts. rewrite <- map_app, <- (firstn_snoc _ EmptyString) by lia. rewrite firstn_all2 by lia. reflexivity. }
  unfold node_terms, next_terms. rewrite ST. fold S L.
  destruct (pg_next (pg v)) as [w|] eqn:EN.
  - assert (Hw : w < n) by auto. rewrite symbol_text_ok by auto. cbn [bind]. eexists. split; [reflexivity|].
    destruct (writable_ok _ (sym_ok w Hw)) as (V1 & V2 & V3 & V4 & V5).
    set (N := chars (sym w)) in *. assert (PN : piece (DQUOTE ++ N ++ DQUOTE) [T_quoted N]) by now apply piece_quoted.
    add_line O (chars "    NIP_next = " ++ (DQUOTE ++ N ++ DQUOTE) ++ chars ";")
      ([T_key K_persistence] ++ marks "=" ++ [T_quoted N] ++ marks ";").
    add_line O (chars "}") (marks "}"). unfold ts0 in O. done_with O. lia.
  - cbn [bind]. eexists. split; [reflexivity|]. add_line O (chars "}") (marks "}"). unfold ts0 in O. done_with O. lia.
Qed.

(** ** Priors *)
Definition number_terms (l : list Qc) : list terminal := map (fun q => T_number (Finite (round6 q))) l.
Definition prior_terms (v : nat) (l : list Qc) : list terminal :=
  [T_key K_potential] ++ marks "(" ++ [T_unquoted (chars (sym v))] ++ marks "){" ++
  [T_key K_data] ++ marks "=(" ++ number_terms l ++ marks ");" ++ marks "}".

Lemma print_f_piece : forall q, (0 <= q)%Qc -> (q <= 1)%Qc -> reads_as (print_f q) (T_number (Finite (round6 q))) /\
  plain_word (print_f q) /\ clean (print_f q) /\ len (print_f q) <= 8.
Proof.
  intros q H0 H1. destruct (print_f_ok q H0 H1) as (A & _ & B & C & D). assert (W : plain_word (print_f q)) by now apply plain_word_of.
  split; [now constructor|]. split; auto. split; [now apply word_clean|auto].
Qed.

Definition on_line (k j : nat) : nat := match j with O => 0 | S i => i mod k + 1 end.
Lemma on_line_same : forall k j, k <> 0 -> (0 < j -> j mod k <> 0) -> on_line k j = j mod k.
Proof.
  intros k j Hk H. destruct j as [|i]; cbn [on_line]; [now rewrite Nat.mod_0_l|]. specialize (H ltac:(lia)).
  assert (E := Nat.div_mod i k Hk). assert (B := Nat.mod_upper_bound i k Hk).
  destruct (Nat.eq_dec (i mod k + 1) k) as [K|K].
  - exfalso. apply H. replace (S i) with (0 + (i / k + 1) * k) by lia. rewrite Nat.mod_add by lia. now rewrite Nat.mod_0_l.
  - apply (Nat.mod_unique _ _ (i / k)); lia.
Qed.
Lemma on_line_next : forall k j, on_line k (S j) = j mod k + 1.
Proof. reflexivity. Qed.
Lemma on_line_le : forall k j, k <> 0 -> on_line k j <= k.
Proof. intros k [|j] Hk; cbn [on_line]; [lia|]. assert (B := Nat.mod_upper_bound j k Hk). lia. Qed.

Lemma write_prior_ok : forall v l out ts, v < n -> v_card (var m v) = card v -> v_prior (var m v) = Some l -> len l = card v ->
  Forall (fun x => (0 <= x)%Qc /\ (x <= 1)%Qc) l -> open_text 0 out ts ->
  exists out', write_prior names m v out = Ok out' /\ open_text 0 out' (ts ++ prior_terms v l).
Proof.
  intros v l out ts Hv EC EP LL F O. unfold write_prior.
  assert (RV : rd (m_vars m) v = Ok (var m v)).
  { unfold rd, var. erewrite (nth_error_nth' (m_vars m)) by lia. reflexivity. }
  rewrite RV. cbn [bind]. rewrite symbol_text_ok by auto. cbn [bind]. rewrite EP, EC.
  destruct (writable_ok _ (sym_ok v Hv)) as (W1 & W2 & W3 & W4 & _).
  change str with chars. unfold prior_terms. set (S := chars (sym v)) in *.
  add_line O (@nil ascii) (@nil terminal).
  add_line O (chars "potential (" ++ S ++ chars ")") ([T_key K_potential] ++ marks "(" ++ [T_unquoted S] ++ marks ")").
  add_line O (chars "{") (marks "{").
  add_piece O (chars "    data = ( ") ([T_key K_data] ++ marks "=(").
  match type of O with open_text ?a ?b ?c => set (ts0 := c) in O; assert (OP : open_text 13 b c) by (eapply open_le; [|exact O]; len_tac) end.
  clear O. match goal with |- context [for_up 0 ?k ?body ?s0] =>
    destruct (for_up_inv (list ascii) (fun j o => open_text (13 + 10 * on_line PER_LINE j) o (ts0 ++ number_terms (firstn j l))) body 0 k s0) as (o1 & E1 & O) end.
  { lia. }
  { cbn [firstn number_terms map on_line]. rewrite app_nil_r. match goal with |- open_text _ ?s _ => match type of OP with open_text _ ?s' _ =>
      replace s with s' by (rewrite <- ?app_assoc; reflexivity) end end. exact OP. }
  { intros j o Hj O. rewrite (rd_ok _ l j 0%Qc) by lia. cbn [bind]. eexists. split; [reflexivity|].
    assert (FJ : (0 <= nth j l 0%Qc)%Qc /\ (nth j l 0%Qc <= 1)%Qc) by (rewrite Forall_forall in F; apply F, nth_In; lia).
    destruct (print_f_piece _ (proj1 FJ) (proj2 FJ)) as (P1 & P2 & P3 & P4).
    rewrite (firstn_snoc _ 0%Qc) by lia. unfold number_terms. rewrite map_app, app_assoc. cbn [map]. fold (number_terms (firstn j l)).
    set (P := print_f (nth j l 0%Qc)) in *. clearbody P. rewrite on_line_next.
    assert (PB := on_line_le PER_LINE j ltac:(discriminate)). unfold PER_LINE in PB at 2.
    destruct (Nat.ltb 0 j && Nat.eqb (j mod PER_LINE) 0)%bool eqn:EB.
    - apply andb_true_iff in EB. destruct EB as (_ & EB). apply Nat.eqb_eq in EB. rewrite EB.
      add_line O (@nil ascii) (@nil terminal).
      add_piece O (chars "             ") (@nil terminal).
      add_piece O (P ++ chars "  ") [T_number (Finite (round6 (nth j l 0%Qc)))].
      rewrite !app_nil_r in O. done_with O. len_tac.
    - assert (EL : on_line PER_LINE j = j mod PER_LINE).
      { apply on_line_same; [discriminate|]. intros J0 K. rewrite K in EB. apply Nat.ltb_lt in J0. rewrite J0 in EB. discriminate. }
      rewrite EL in O. add_piece O (P ++ chars "  ") [T_number (Finite (round6 (nth j l 0%Qc)))]. done_with O. len_tac. }
  rewrite E1. cbn [bind]. rewrite firstn_all2 in O by lia. eexists. split; [reflexivity|].
  assert (PB := on_line_le PER_LINE (card v) ltac:(discriminate)). unfold PER_LINE in PB at 2.
  add_line O (chars ");") (marks ");"). add_line O (chars "}") (marks "}"). unfold ts0 in O. done_with O. lia.
Qed.
End Write.
