(** * Proofs: the text of a conditional distribution *)
From Coq Require Import String Ascii QArith.QArith QArith.Qcanon.
From Verif Require Import Base BaseProofs StringSpec PotentialModel PotentialSpec PotentialProofs VariableModel JoinTreeModel
  AssignSpec JoinTreeSpec NipModel NipSpec NipProofs SliceModel SliceSpec LearnSpec ParseModel ParseSpec
  StringModel SeriesFileModel NetLexModel NetGrammarModel NetSpec WriteModel WriteSpec WriteProofs WriteProofs2
  WriteProofs3 WriteProofs4.
From Verif Require LearnProofs5.
Import ListNotations.
Open Scope nat_scope.
Local Notation chars := list_ascii_of_string.
Local Notation len := List.length.

Lemma rev_skipn_S : forall A (d : A) P j, j < len P -> rev (skipn j P) = rev (skipn (S j) P) ++ [nth j P d].
Proof.
  induction P as [|x P IH]; intros j Hj; [cbn in Hj; lia|]. destruct j; [reflexivity|].
  cbn [skipn nth]. apply IH. cbn in Hj. lia.
Qed.

(** ** The values *)
Definition row_end (multi : bool) (k j : nat) : list terminal :=
  if (multi && (Nat.ltb 0 j && Nat.eqb (j mod k) 0))%bool then marks ")(" else [].
Definition value_terms (multi : bool) (k : nat) (l : list Qc) (is : list nat) : list terminal :=
  flat_map (fun i => row_end multi k i ++ [T_number (Finite (round6 (nth i l 0%Qc)))]) is.

Lemma value_terms_false : forall k l is, nested (map (fun i => Finite (round6 (nth i l 0%Qc))) is) (value_terms false k l is).
Proof.
  intros k l. induction is as [|i is IH]; cbn; constructor. exact IH.
Qed.
Lemma value_terms_split : forall k l is, exists l1 l2 t1 t2, nested l1 t1 /\ nested l2 t2 /\
  map (fun i => Finite (round6 (nth i l 0%Qc))) is = l1 ++ l2 /\
  value_terms true k l is ++ marks ")" = t1 ++ marks ")" ++ t2.
Proof.
  intros k l. induction is as [|i is (l1 & l2 & t1 & t2 & N1 & N2 & E1 & E2)].
  - exists [], [], [], []. repeat split; constructor.
  - cbn [map]. set (x := Finite (round6 (nth i l 0%Qc))) in *.
    assert (U : value_terms true k l (i :: is) = row_end true k i ++ [T_number x] ++ value_terms true k l is).
    { unfold value_terms. cbn [flat_map]. now rewrite <- app_assoc. }
    rewrite U, E1. unfold row_end. cbn [andb]. destruct (Nat.ltb 0 i && Nat.eqb (i mod k) 0)%bool.
    + exists [], ((x :: l1) ++ l2), [], (marks "(" ++ (T_number x :: t1) ++ marks ")" ++ t2).
      split; [constructor|]. split; [apply nested_group; auto; now constructor|]. split; [reflexivity|].
      change (marks ")(") with (marks ")" ++ marks "("). rewrite <- !app_assoc, E2. reflexivity.
    + exists (x :: l1), l2, (T_number x :: t1), t2. split; [now constructor|]. split; auto. split; [reflexivity|].
      cbn [app]. now rewrite <- E2.
Qed.
Lemma value_terms_true : forall k l is, nested (map (fun i => Finite (round6 (nth i l 0%Qc))) is)
  (marks "(" ++ value_terms true k l is ++ marks ")").
Proof.
  intros k l is. destruct (value_terms_split k l is) as (l1 & l2 & t1 & t2 & N1 & N2 & -> & ->).
  apply nested_group; auto.
Qed.

Section Cpd.
Variable card : nat -> nat.
Variable m : model.
Variable names : list named_variable.
Variable pages : list page.
Variable size : Z * Z.
Hypothesis HW : writable card m names pages size.
Hypothesis HL : learnable card m.
Local Notation n := (len (m_vars m)).
Local Notation sy v := (chars (sym names v)).

Lemma write_comment_ok : forall v p j out, v < n -> table card (family m v) p -> 0 < j <= size_of_data p ->
  exists cm, write_comment names (v_parents (var m v)) p j out = Ok (out ++ chars " % " ++ cm) /\
    clean cm /\ len cm <= 82 * len (v_parents (var m v)).
Proof.
  intros v p j out Hv T Hj. unfold write_comment. set (P := v_parents (var m v)).
  assert (D : dims p = card v :: map card P) by (apply (proj2 (proj2 T))).
  rewrite inverse_mapping_ok.
  2:{ apply T. } 2:{ lia. }
  2:{ unfold dimensionality. rewrite repeat_length, D. cbn [List.length]. rewrite map_length. lia. }
  cbn [bind]. change str with chars.
  assert (VI := unflat_valid (dims p) (j - 1) (proj1 (proj1 (proj2 T)))). set (tmp := unflat (dims p) (j - 1)) in *.
  assert (LT : forall x, x < len P -> x + 1 < len tmp /\ nth (x + 1) tmp 0 < card (nth x P 0)).
  { intros x Hx. assert (VL := valid_ix_length _ _ VI). assert (VN := fun i => valid_ix_nth _ _ i VI). rewrite D in VL, VN. cbn [List.length] in VL. rewrite map_length in VL.
    split; [lia|]. specialize (VN (x + 1)). rewrite Nat.add_1_r in *. cbn [nth] in VN.
    rewrite (nth_map _ _ _ _ _ 0 0) in VN by lia. apply VN. cbn [List.length]. rewrite map_length. lia. }
  match goal with |- context [for_down ?h 0 ?b ?s] =>
    destruct (for_down_inv (list ascii) (fun i o => exists cm, o = out ++ chars " % " ++ cm /\ clean cm /\
      len cm <= 82 * (len P - i)) b h 0 s) as (o & E & cm & -> & C1 & C2) end.
  { lia. }
  { exists []. split; [now rewrite app_nil_r|]. split; [exact clean_nil|cbn; lia]. }
  { intros i o Hi (cm & -> & C1 & C2). destruct (LT i) as (L1 & L2); [lia|].
    assert (W : nth i P 0 < n).
    { apply (LearnProofs5.family_lt card m HL v); auto. right. fold P. apply nth_In. lia. }
    rewrite (rd_ok _ P i 0) by lia. cbn [bind]. rewrite (symbol_text_ok card m names pages size HW) by auto. cbn [bind].
    rewrite (rd_ok _ tmp (i + 1) 0) by lia. cbn [bind]. rewrite (state_text_ok card m names pages size HW) by auto. cbn [bind].
    eexists. split; [reflexivity|].
    destruct (writable_ok _ (sym_ok card m names pages size HW _ W)) as (_ & _ & S3 & S4 & _).
    destruct (quotable_ok _ (st_ok card m names pages size HW _ _ W L2)) as (_ & Q2 & Q3).
    eexists. split; [rewrite <- !app_assoc; do 2 f_equal|]. split.
    - clean_tac.
    - rewrite !app_length. cbn [List.length list_ascii_of_string]. lia. }
  rewrite E. exists cm. split; auto. split; auto. lia.
Qed.

Lemma write_values_ok : forall v p out ts, v < n -> v_parents (var m v) <> [] -> table card (family m v) p ->
  Forall (fun x => (0 <= x)%Qc /\ (x <= 1)%Qc) (data p) -> open_text 13 out ts ->
  let multi := Nat.ltb 1 (len (v_parents (var m v))) in
  exists out' y, write_values names (v_parents (var m v)) (card v) p out = Ok (out', y) /\ y <= 7 /\
    open_text (13 + 10 * y) out' (ts ++ value_terms multi (card v) (data p) (seq 0 (len (data p)))).
Proof.
  intros v p out ts Hv NP T F O multi. unfold write_values. fold multi.
  assert (HP := wb_parents _ _ _ _ _ HW v Hv). set (P := v_parents (var m v)) in *.
  assert (C0 : 0 < card v).
  { destruct (proj1 (proj2 T)) as (K & _). rewrite (proj2 (proj2 T)) in K. inversion K; auto. }
  set (k := card v) in *. assert (KN : k <> 0) by lia.
  match goal with |- context [for_up 0 ?h ?b ?s] =>
    destruct (for_up_inv (list ascii * nat) (fun j '(o, y) => y <= 7 /\ (k <= 7 -> y = on_line k j) /\ (j = 0 -> y = 0) /\
      open_text (13 + 10 * y) o (ts ++ value_terms multi k (data p) (seq 0 j))) b 0 h s) as ((o & y) & E & A1 & A2 & _ & A3) end.
  { lia. }
  { split; [lia|]. split; [reflexivity|]. split; [auto|]. cbn [seq value_terms flat_map]. rewrite app_nil_r. eapply open_le; [|exact O]. lia. }
  { intros j (o & y) Hj (B1 & B2 & B0 & B3). unfold imod. destruct (Nat.eqb_spec k 0) as [|_]; [lia|]. cbn [bind].
    unfold size_of_data in *.
    assert (FJ : (0 <= nth j (data p) 0%Qc)%Qc /\ (nth j (data p) 0%Qc <= 1)%Qc) by (rewrite Forall_forall in F; apply F, nth_In; lia).
    destruct (print_f_piece _ (proj1 FJ) (proj2 FJ)) as (P1 & P2 & P3 & P4).
    assert (VT : value_terms multi k (data p) (seq 0 (S j)) = value_terms multi k (data p) (seq 0 j) ++ row_end multi k j ++
      [T_number (Finite (round6 (nth j (data p) 0%Qc)))]).
    { rewrite seq_S. unfold value_terms. rewrite flat_map_app. cbn [Nat.add flat_map]. now rewrite app_nil_r. }
    rewrite VT. clear VT. rewrite (rd_ok _ (data p) j 0%Qc) by lia.
    remember (print_f (nth j (data p) 0%Qc)) as X eqn:EX. set (V := T_number (Finite (round6 (nth j (data p) 0%Qc)))) in *.
    change str with chars.
    destruct (Nat.ltb 0 j && (Nat.eqb (j mod k) 0 || (Nat.ltb PER_LINE k && Nat.eqb (y mod PER_LINE) 0)))%bool eqn:EB.
    - apply andb_true_iff in EB. destruct EB as (J0 & EB).
      assert (XX : exists o', (if Nat.eqb (j mod k) 0 then write_comment names P p j (if multi then o ++ chars ")(" else o) else Ok o) = Ok o' /\
        open_text 0 (o' ++ NL) (ts ++ value_terms multi k (data p) (seq 0 j) ++ row_end multi k j)).
      { unfold row_end. rewrite J0. cbn [andb]. destruct (Nat.eqb (j mod k) 0) eqn:EJ.
        - destruct (write_comment_ok v p j (if multi then o ++ chars ")(" else o) Hv T) as (cm & E & C1 & C2).
          { apply Nat.ltb_lt in J0. unfold size_of_data. lia. }
          fold P in E, C2. rewrite E. eexists. split; [reflexivity|]. destruct multi; cbn [andb].
          + assert (EN : ending (chars ")(" ++ chars " " ++ percent :: chars " " ++ cm) (marks ")(")).
            { eapply ending_split; [one_piece| |rewrite app_nil_r; reflexivity].
              eapply ending_split; [one_piece|apply ending_comment|reflexivity]. }
            eapply line_eq; [exact B3|exact EN| | | |rewrite <- app_assoc; reflexivity].
            * apply clean_app; [clean_tac|]. apply clean_app; [clean_tac|].
              change (percent :: chars " " ++ cm) with (chars "% " ++ cm). clean_tac.
            * apply below. rewrite !app_length. cbn [List.length list_ascii_of_string app]. rewrite ?app_length. cbn [List.length]. lia.
            * rewrite <- !app_assoc. reflexivity.
          + assert (EN : ending (chars " " ++ percent :: chars " " ++ cm) []).
            { eapply ending_split; [one_piece|apply ending_comment|reflexivity]. }
            eapply line_eq; [exact B3|exact EN| | | |rewrite <- app_assoc; reflexivity].
            * apply clean_app; [clean_tac|].
              change (percent :: chars " " ++ cm) with (chars "% " ++ cm). clean_tac.
            * apply below. rewrite !app_length. cbn [List.length list_ascii_of_string app]. rewrite ?app_length. cbn [List.length]. lia.
            * rewrite <- !app_assoc. reflexivity.
        - exists o. split; auto. destruct multi; cbn [andb];
            (eapply line_eq; [exact B3|exact ending_nil|exact clean_nil|apply below; cbn; lia|reflexivity|rewrite <- app_assoc; reflexivity]). }
      destruct XX as (o' & E & O'). rewrite E. cbn [bind]. eexists. split; [reflexivity|]. cbv beta iota.
      split; [lia|]. split.
      { intros K7. rewrite on_line_next. destruct (Nat.ltb_spec PER_LINE k) as [K|K]; [unfold PER_LINE in K; lia|].
        cbn [andb] in EB. rewrite orb_false_r in EB. apply Nat.eqb_eq in EB. rewrite EB. reflexivity. }
      split; [lia|].
      add_piece O' (chars "            ") (@nil terminal).
      add_piece O' (chars " " ++ X ++ chars " ") [V].
      rewrite app_nil_r in O'. rewrite <- EX. done_with O'. len_tac.
    - cbn [bind]. eexists. split; [reflexivity|]. cbv beta iota.
      assert (RE : row_end multi k j = []).
      { unfold row_end. destruct (Nat.ltb 0 j); [|now rewrite andb_false_r]. cbn [andb] in *. apply orb_false_iff in EB.
        destruct EB as (-> & _). now rewrite andb_false_r. }
      rewrite RE. cbn [app].
      assert (EJ : 0 < j -> j mod k <> 0 /\ (7 < k -> y mod 7 <> 0)).
      { intros J0. apply Nat.ltb_lt in J0. rewrite J0 in EB. cbn [andb] in EB. apply orb_false_iff in EB. destruct EB as (E1 & E2).
        split; [now apply Nat.eqb_neq|]. intros K. unfold PER_LINE in E2. apply Nat.ltb_lt in K. rewrite K in E2. now apply Nat.eqb_neq. }
      split; [|split; [|split; [lia|]]].
      + destruct (le_lt_dec k 7) as [K|K].
        * rewrite B2 by auto. rewrite on_line_same; [|auto|intros; now apply EJ]. assert (U := Nat.mod_upper_bound j k KN). lia.
        * destruct (Nat.eq_dec y 7) as [->|]; [|lia]. destruct (Nat.eq_dec j 0) as [->|]; [|exfalso; apply EJ; auto; lia].
          specialize (B0 eq_refl). discriminate.
      + intros K. rewrite on_line_next, B2 by auto. rewrite on_line_same; [auto|auto|intros; now apply EJ].
      + add_piece B3 (chars " " ++ X ++ chars " ") [V]. rewrite <- EX. done_with B3. len_tac. }
  rewrite E. exists o, y. split; auto.
Qed.

(** ** The declaration *)
Definition cpd_terms (v : nat) (l : list Qc) : list terminal :=
  let multi := Nat.ltb 1 (len (v_parents (var m v))) in
  [T_key K_potential] ++ marks "(" ++ [T_unquoted (sy v)] ++ marks "|" ++
  NetSpec.names (map (sym names) (rev (v_parents (var m v)))) ++ marks "){" ++
  [T_key K_data] ++ marks "=(" ++
  ((if multi then marks "(" else []) ++ value_terms multi (card v) l (seq 0 (len l)) ++ (if multi then marks ")" else [])) ++
  marks ");" ++ marks "}".
Definition cpd_decl (v : nat) (l : list Qc) : pot_decl :=
  mkDecl (sym names v) (Some (map (sym names) (rev (v_parents (var m v))))) (Some (map round6 l)).

Lemma map_seq_nth : forall (f : Qc -> Qc) (l : list Qc), map (fun i => Finite (f (nth i l 0%Qc))) (seq 0 (len l)) = map Finite (map f l).
Proof.
  intros f l. rewrite map_map. rewrite <- (map_map (fun i => nth i l 0%Qc) (fun x => Finite (f x))). f_equal.
  apply (list_ext_nth _ 0%Qc).
  - now rewrite map_length, seq_length.
  - intros t Ht. rewrite map_length, seq_length in Ht. rewrite (nth_map _ _ _ _ _ 0) by (rewrite seq_length; auto). now rewrite seq_nth by auto.
Qed.

Lemma cpd_terms_ok : forall v l, l <> [] -> potential_in_text (cpd_decl v l) (cpd_terms v l).
Proof.
  intros v l NE. unfold cpd_decl, cpd_terms. cbv zeta. set (multi := Nat.ltb 1 _).
  set (vs := _ ++ value_terms _ _ _ _ ++ _).
  assert (D : data_in_text (Some (map round6 l)) ([T_key K_data] ++ marks "=(" ++ vs ++ marks ");")).
  { constructor; [destruct l; [congruence|discriminate]|]. rewrite <- map_seq_nth. unfold vs. destruct multi.
    - apply value_terms_true.
    - cbn [app]. rewrite app_nil_r. apply value_terms_false. }
  assert (G := potential_of (sym names v) (Some (map (sym names) (rev (v_parents (var m v))))) _ _ D).
  match goal with |- potential_in_text _ ?t => match type of G with potential_in_text _ ?t' => replace t with t'; [exact G|] end end.
  cbn [given_text NetSpec.names map]. rewrite <- !app_assoc. reflexivity.
Qed.

Lemma write_cpd_ok : forall m1 v out ts, model_ok card m1 -> same_model m m1 -> v < n -> v_parents (var m v) <> [] ->
  open_text 0 out ts ->
  exists m2 p out', write_cpd names m1 v out = Ok (m2, out') /\ model_ok card m2 /\ same_model m m2 /\
    m_jt m2 = m_jt m1 /\ (forall w, v_lik (var m2 w) = v_lik (var m1 w)) /\
    (forall w, v_entered (var m2 w) = v_entered (var m1 w)) /\
    table card (family m v) p /\
    Forall (fun x => (0 <= x)%Qc /\ (x <= 1)%Qc) (data p) /\
    (forall a, valid card a -> den (family m v) p a = distribution card m v a) /\
    open_text 0 out' (ts ++ cpd_terms v (data p)).
Proof.
  intros m1 v out ts M1 S1 Hv NP O.
  destruct (family_cpd_ok card m HL m1 v M1 S1 Hv NP) as (m2 & p & EF & M2 & S2 & J2 & L2 & N2 & T & F & DD).
  unfold write_cpd. assert (Ln : len (m_vars m1) = n) by apply S1.
  rewrite rd_var by lia. cbn [bind]. assert (Pv : v_parents (var m1 v) = v_parents (var m v)) by apply S1. rewrite Pv.
  assert (Cv : v_card (var m1 v) = card v) by (apply (mo_var _ _ M1); lia).
  rewrite Cv. assert (LP := wb_parents _ _ _ _ _ HW v Hv). unfold cpd_terms. cbv zeta.
  set (multi := Nat.ltb 1 (len (v_parents (var m v)))).
  assert (MU : multi = Nat.ltb 1 (len (v_parents (var m v)))) by reflexivity. clearbody multi.
  set (P := v_parents (var m v)) in *.
  assert (PW : forall i, i < len P -> nth i P 0 < n).
  { intros i Hi. apply (LearnProofs5.family_lt card m HL v); auto. right. fold P. now apply nth_In. }
  rewrite (symbol_text_ok card m names pages size HW) by auto. cbn [bind].
  destruct (writable_ok _ (sym_ok card m names pages size HW v Hv)) as (W1 & W2 & W3 & W4 & _).
  change str with chars. set (S := sy v) in *.
  add_line O (@nil ascii) (@nil terminal).
  add_piece O (chars "potential (" ++ S ++ chars " | ") ([T_key K_potential] ++ marks "(" ++ [T_unquoted S] ++ marks "|").
  match type of O with open_text ?a ?b ?c => set (ts0 := c) in O; assert (OP : open_text 60 b c) by (eapply open_le; [|exact O]; len_tac) end.
  clear O. assert (PN : 0 < len P) by (destruct P; [congruence|cbn; lia]).
  match goal with |- context [for_down ?h 1 ?b ?s] =>
    destruct (for_down_inv (list ascii) (fun j o => open_text (60 + 41 * (len P - j)) o
      (ts0 ++ NetSpec.names (map (sym names) (rev (skipn j P))))) b h 1 s) as (o1 & E1 & O) end.
  { lia. }
  { rewrite skipn_all. cbn [rev map NetSpec.names]. rewrite app_nil_r.
    match goal with |- open_text _ ?s _ => match type of OP with open_text _ ?s' _ =>
      replace s with s' by (rewrite <- ?app_assoc; reflexivity) end end. eapply open_le; [|exact OP]. lia. }
  { intros i o Hi O. rewrite (rd_ok _ P i 0) by lia. cbn [bind]. assert (W := PW i ltac:(lia)).
    rewrite (symbol_text_ok card m names pages size HW) by auto. cbn [bind]. eexists. split; [reflexivity|].
    destruct (writable_ok _ (sym_ok card m names pages size HW _ W)) as (U1 & U2 & U3 & U4 & _).
    rewrite (rev_skipn_S _ 0) by lia. rewrite map_app. unfold NetSpec.names. rewrite map_app.
    change (map _ (map (sym names) [nth i P 0])) with [T_unquoted (sy (nth i P 0))].
    set (N := sy (nth i P 0)) in *. clearbody N.
    add_piece O (N ++ chars " ") [T_unquoted N].
    match goal with |- open_text ?k ?s ?t => match type of O with open_text ?k' ?s' ?t' =>
      replace s with s' by (rewrite <- ?app_assoc; reflexivity); replace t with t' by (rewrite <- ?app_assoc; reflexivity); eapply open_le; [|exact O] end end.
    rewrite app_length. cbn [List.length list_ascii_of_string]. lia. }
  rewrite E1. cbn [bind]. clear OP. rewrite (rd_ok _ P 0 0) by lia. cbn [bind]. assert (W := PW 0 PN).
  rewrite (symbol_text_ok card m names pages size HW) by auto. cbn [bind].
  destruct (writable_ok _ (sym_ok card m names pages size HW _ W)) as (U1 & U2 & U3 & U4 & _).
  assert (RN : NetSpec.names (map (sym names) (rev P)) = NetSpec.names (map (sym names) (rev (skipn 1 P))) ++ [T_unquoted (sy (nth 0 P 0))]).
  { change (rev P) with (rev (skipn 0 P)). rewrite (rev_skipn_S _ 0) by lia. rewrite map_app. unfold NetSpec.names. now rewrite map_app. }
  rewrite RN. set (N := sy (nth 0 P 0)) in *. clearbody N. set (LN := NetSpec.names (map (sym names) (rev (skipn 1 P)))) in *. clearbody LN.
  add_line O (N ++ chars ")") ([T_unquoted N] ++ marks ")").
  add_line O (chars "{ ") (marks "{").
  add_piece O (chars "    data = (") ([T_key K_data] ++ marks "=(").
  rewrite EF. cbn [bind].
  match goal with |- context [write_values names P (card v) p ?s] => set (o2 := s) end.
  assert (O2 : open_text 13 o2 ((ts0 ++ LN) ++ [T_unquoted N] ++ marks ")" ++ marks "{" ++ [T_key K_data] ++ marks "=(" ++ (if multi then marks "(" else []))).
  { unfold o2. destruct multi.
    - add_piece O (chars "(") (marks "("). done_with O. len_tac.
    - done_with O. len_tac. }
  clearbody o2. clear O. destruct (write_values_ok v p o2 _ Hv NP T F O2) as (o3 & y & E3 & Y7 & O3).
  cbv zeta in O3. fold P in O3, E3. rewrite <- MU in O3. rewrite E3. cbn [bind].
  remember (value_terms multi (card v) (data p) (seq 0 (len (data p)))) as VT eqn:EVT.
  assert (O4 : open_text 84 (if multi then o3 ++ chars ")" else o3) ((((ts0 ++ LN) ++ [T_unquoted N] ++ marks ")" ++ marks "{" ++ [T_key K_data] ++ marks "=(" ++ (if multi then marks "(" else [])) ++ VT) ++
    (if multi then marks ")" else []))).
  { destruct multi.
    - add_piece O3 (chars ")") (marks ")"). done_with O3. len_tac.
    - rewrite (app_nil_r (_ ++ VT)). done_with O3. lia. }
  clear O3. set (o4 := if multi then o3 ++ chars ")" else o3) in *. clearbody o4.
  add_line O4 (chars ");") (marks ");"). add_line O4 (chars "}") (marks "}").
  exists m2, p. eexists. split; [reflexivity|]. do 8 (split; [auto|]). unfold ts0 in O4. rewrite <- EVT. done_with O4. lia.
Qed.
End Cpd.
