(** * Memory of nipjoint (C100) *)
From Coq Require Import Permutation String Ascii.
From Verif Require Import Base BaseProofs HeapProofs VariableModel JoinTreeModel NipModel NipSpec SliceSpec NipProofs3 SeriesFileModel ParseModel ParseSpec PropertiesParse MemoryModel MemorySpec MemoryProofs MemoryProofs2 MemoryProofs3 MemoryProofs4 MemoryProofs5 MemoryProofs6 MemoryProofs10 MemoryModel2 MemoryModel3 MemorySpec3 MemoryModel4 MemorySpec4 MemoryModel5 MemoryProofs25 MemoryProofs30 MemoryProofs32 MemoryProofs33 MemoryModel6 MemorySpec6 MemoryProofs36 MemoryProofs37 MemoryProofs38 MemorySpec8 MemoryModel8 MemoryProofs40.
Import ListNotations.
Open Scope nat_scope.
Local Open Scope res_scope.
Local Open Scope list_scope.
Local Notation len := List.length.

(** ** Freed twice *)
Lemma free_ub : forall m f h, heap_is m f -> ~ In h (map fst f) -> free m (Some h) = UB.
Proof.
  intros m f h (_ & HI) N. unfold free. destruct (nth_error m h) as [[b|]|] eqn:E; [|reflexivity|reflexivity].
  exfalso. apply N. apply HI in E. apply in_map_iff. exists (h, b). auto.
Qed.
Lemma free_away : forall m h b f, heap_is m ((h, b) :: f) -> exists m', free m (Some h) = Ok m' /\ heap_is m' f /\ ~ In h (map fst f).
Proof.
  intros m h b f H. destruct (free_ok m f h b H) as (m' & E & H' & _). exists m'. split; [exact E|]. split; [exact H'|].
  destruct H as (ND & _). cbn [map fst] in ND. inversion ND; assumption.
Qed.
Lemma data_freed : forall m y n hid obs dat gd f,
  match dat with
  | None => gd = []
  | Some d => exists rs gr, gd = (d, ptrs rs) :: gr /\ length rs = n /\ addresses gr rs
  end -> heap_is m ((y, [N n; P hid; P obs; P dat]) :: gd ++ f) ->
  exists m', match dat with
             | Some _ => let* k := num m (Some y) Y_length in
                         let* m := for_up 0 k (fun t m => let* r := ptr m dat t in free m r) m in
                         free m dat
             | None => Ok m
             end = Ok m' /\ heap_is m' ((y, [N n; P hid; P obs; P dat]) :: f).
Proof.
  intros m y n hid obs dat gd f AD H. destruct dat as [d|].
  - destruct AD as (rs & gr & -> & L & AR). gn H. rewrite <- L.
    match type of H with heap_is ?M ?F =>
      eapply (heap_perm M F ((d, _) :: ((y, _) :: f) ++ gr)) in H; [|cbn [app]; perm] end.
    rewrite <- (app_nil_r rs) in AR.
    destruct (free_strings d _ rs _ gr [] AR H) as (z1 & b1 & E & A1 & H1). rewrite E. cbn [bind]. rewrite (addresses_nil _ A1) in H1.
    clear H E. rename H1 into H. rewrite app_nil_r in H.
    destruct (free_ok _ _ d _ H) as (m' & E & H' & _). exists m'. split; [exact E|rewrite ?L; exact H'].
  - subst gd. exists m. split; [reflexivity|exact H].
Qed.
Lemma one_block : forall g h, addresses g [h] -> exists b, g = [(h, b)].
Proof.
  intros [|(a, b) [|z g]] h A; unfold addresses in A; cbn [map fst] in A.
  - apply Permutation_nil in A. discriminate.
  - apply Permutation_length_1 in A. exists b. congruence.
  - apply Permutation_length in A. discriminate.
Qed.

(** A series that has lost its array of hidden or of observed variables cannot be
    freed. *)
Definition robbed (y : nat) (g : fp) (h : nat) : Prop := forall m f, heap_is m (g ++ f) -> ~ In h (map fst (g ++ f)) -> free_timeseries m (Some y) = UB.
Lemma rob : forall y g (hidden : bool), ser y g -> exists o,
  (forall m f, heap_is m (g ++ f) -> unnamed_variables m (Some y) hidden = Ok o) /\
  forall h, o = Some h -> exists b g', Permutation g ((h, b) :: g') /\ robbed y g' h.
Proof.
  intros y g hidden (n & hid & obs & dat & gh & go & gd & E & AH & AO & AD). exists (if hidden then hid else obs). split.
  - intros m f H. unfold unnamed_variables. subst g. cbn [app] in H. destruct hidden; eapply ptr_ok; first [exact H|left; reflexivity|reflexivity].
  - intros h EH. destruct hidden; subst.
    + destruct (one_block gh h AH) as (b & ->). exists b. eexists ((y, _) :: gd ++ go). split; [perm|]. intros m f H NI. cbn [app] in H.
      unfold free_timeseries. gp H.
      match goal with |- context [bind ?X _] => assert (Y : exists m', X = Ok m' /\ heap_is m' ((y, [N n; P (Some h); P obs; P dat]) :: go ++ f)) end.
      { apply (data_freed m y n (Some h) obs dat gd (go ++ f) AD). eapply heap_perm; [|exact H]. perm. }
      destruct Y as (m' & -> & H'). cbn [bind]. clear H. rename H' into H. gp H. rewrite (free_ub m' _ h H); [reflexivity|].
      intros K. apply NI. cbn [app map fst In] in *. rewrite !map_app, !in_app_iff in *. tauto.
    + destruct (one_block go h AO) as (b & ->). exists b. eexists ((y, _) :: gd ++ gh). split; [perm|]. intros m f H NI. cbn [app] in H.
      unfold free_timeseries. gp H.
      match goal with |- context [bind ?X _] => assert (Y : exists m', X = Ok m' /\ heap_is m' ((y, [N n; P hid; P (Some h); P dat]) :: gh ++ f)) end.
      { apply (data_freed m y n hid (Some h) dat gd (gh ++ f) AD). eapply heap_perm; [|exact H]. perm. }
      destruct Y as (m' & -> & H'). cbn [bind]. clear H. rename H' into H. gp H.
      rewrite <- (app_nil_r (opt hid)) in AH. fo H AH hid. rewrite (addresses_nil _ AH), app_nil_r in H. gp H.
      match goal with |- bind (free ?M _) _ = UB => rewrite (free_ub M _ h H); [reflexivity|] end.
      intros K. apply NI. cbn [app map fst In] in *. rewrite !map_app, !in_app_iff in *. tauto.
Qed.

Section Joint.
Variables (x : nat) (vs : list nat) (rest : fp) (names : list named_variable) (M : NipModel.model).
Hypothesis US : usable names M (len vs).

Definition known (s : string) : Prop := exists i, model_variable names s = Ok (Some i).

Lemma named_ok : forall symbols F tmp m a, holds x vs rest F -> heap_is m ((a, repeat (P None) (len symbols)) :: tmp ++ F) ->
  exists m' ok b, named_variables m (Some x) names (Some a) symbols = Ok (m', ok) /\ heap_is m' ((a, b) :: tmp ++ F) /\
    (ok = true <-> Forall known symbols).
Proof.
  intros symbols F tmp m a HO H. unfold named_variables.
  match goal with |- context [for_up 0 _ ?body _] =>
    destruct (for_up_inv (memory * bool) (fun i st => exists b, len b = len symbols /\ heap_is (fst st) ((a, b) :: tmp ++ F) /\
      (snd st = true <-> Forall known (firstn i symbols))) body 0 (len symbols) (m, true)) as ((m', ok) & E & b & LB & H' & K) end.
  - lia.
  - eexists. split; [|split; [exact H|]]; [apply repeat_length|]. cbn [firstn snd]. split; [constructor|reflexivity].
  - intros i (mi, ok) Ki (b & LB & HM & K). cbn [fst snd] in *.
    assert (FS : forall s, nth_error symbols i = Some s -> firstn (S i) symbols = firstn i symbols ++ [s]).
    { intros s ES. clear - ES. revert i ES. induction symbols as [|z l IH]; intros [|i] ES; try discriminate; cbn in *; [congruence|]. rewrite <- IH by exact ES. reflexivity. }
    destruct (nth_error symbols i) as [s|] eqn:ES; [|apply nth_error_None in ES; lia]. specialize (FS s eq_refl).
    destruct ok; cbn [negb].
    2:{ eexists. split; [reflexivity|]. exists b. split; [exact LB|]. split; [exact HM|]. cbn [snd]. rewrite FS, Forall_app. split; [discriminate|]. intros (Q & _). apply K in Q. discriminate. }
    unfold rd. rewrite ES. cbn [bind]. destruct (us_find _ _ _ US s) as (o & EV & KO).
    rewrite (find_ok x vs rest F ((a, b) :: tmp) mi HO HM names s o EV KO). cbn [bind]. destruct o as [v|]; cbn [option_map].
    + destruct (store_ok mi (tmp ++ F) a b i (P (Some (nth v vs 0))) HM ltac:(lia)) as (z2 & E2 & H2 & _). rewrite E2. cbn [bind]. eexists. split; [reflexivity|].
      exists (set_nth b i (P (Some (nth v vs 0)))). split; [rewrite set_nth_length; exact LB|]. split; [exact H2|]. cbn [snd]. rewrite FS, Forall_app.
      split; [|reflexivity]. intros _. split; [apply K; reflexivity|]. constructor; [exists v; exact EV|constructor].
    + eexists. split; [reflexivity|]. exists b. split; [exact LB|]. split; [exact HM|]. cbn [snd]. rewrite FS, Forall_app. split; [discriminate|].
      intros (_ & Q). inversion Q as [|? ? (j & EJ) _]; subst. congruence.
  - rewrite E. exists m', ok, b. split; [reflexivity|]. cbn [fst snd] in *. rewrite firstn_all in K. auto.
Qed.

Lemma rest_ok : forall F m a b ss ys GS v, holds x vs rest F -> Forall2 ser ys GS ->
  heap_is m ((a, b) :: (ss, ptrs ys) :: concat GS ++ F) ->
  if answers v then exists m' e, joint_rest m (Some x) (Some ss) (len ys) (Some a) v = Ok m' /\ len e = lost v /\ heap_is m' (e ++ rest)
  else joint_rest m (Some x) (Some ss) (len ys) (Some a) v = UB.
Proof.
  intros F m a b ss ys GS v HO FY H. unfold joint_rest. destruct (gather_ok v m _ H) as (z1 & r & L & E & LL & R). rewrite E. cbn [bind].
  destruct r as [p|].
  - destruct R as (-> & d & g & Q & H1). rewrite (touch_pot _ _ _ _ _ Q H1). cbn [bind]. clear H. rename H1 into H.
    reorder H ((a, b) :: g ++ (ss, ptrs ys) :: concat GS ++ L ++ F). fr H.
    destruct (free_potential_ok _ _ _ _ _ Q H) as (z3 & E3 & H3). rewrite E3. cbn [bind]. clear H. rename H3 into H.
    destruct (free_series_ok _ _ ss ys GS FY H) as (z4 & E4 & H4). rewrite E4. cbn [bind].
    destruct (holds_free z4 x vs rest F L HO H4) as (z5 & E5 & H5). exists z5, L. auto.
  - destruct R as (-> & _). reflexivity.
Qed.

(** The variables are named. *)
Lemma joint_named : forall F m data name series symbols v w, holds x vs rest F -> heap_is m F -> data_with names data series ->
  series <> [] -> symbols <> [] ->
  (Forall known symbols -> if answers v then exists m' e, nipjoint_memory m (Some x) names data name series symbols v w = Ok m' /\ len e = lost v /\ heap_is m' (e ++ rest)
     else nipjoint_memory m (Some x) names data name series symbols v w = UB) /\
  (~ Forall known symbols -> exists m' a b ss ys GS, nipjoint_memory m (Some x) names data name series symbols v w = Ok m' /\
     len series = len ys /\ Forall2 ser ys GS /\ heap_is m' ((a, b) :: (ss, ptrs ys) :: concat GS ++ F)).
Proof.
  intros F m data name series symbols v w HO H D NE NS. unfold nipjoint_memory. wk H.
  destruct (read_any _ F names name data series H D) as (z1 & set & E & [(ES & _)|(_ & ss & ys & GS & -> & LS & FY & H1)]); [congruence|].
  rewrite E. cbn [bind]. clear H E. rename H1 into H.
  destruct (Nat.eqb_spec (len series) 0) as [K|KN]; [destruct series; [congruence|cbn in K; lia]|]. rewrite LS.
  destruct (nth_pair _ _ _ 0 FY ltac:(lia)) as (y & g & EY & _). rewrite (ptr_ok z1 _ ss _ 0 (Some y) H (or_introl eq_refl) EY). cbn [bind]. wk H.
  destruct symbols as [|s0 sl]; [congruence|]. remember (s0 :: sl) as symbols eqn:ESY.
  al H. destruct (named_ok symbols F ((ss, ptrs ys) :: concat GS) _ a HO H) as (z3 & ok & b & E3 & H3 & KK). rewrite E3. cbn [bind]. clear H. rename H3 into H.
  split; intros KS.
  - rewrite (proj2 KK KS). cbn [negb]. exact (rest_ok F z3 a b ss ys GS v HO FY H).
  - destruct ok; [exfalso; apply KS; apply KK; reflexivity|]. cbn [negb]. exists z3, a, b, ss, ys, GS. auto.
Qed.

(** There are no series. *)
Lemma joint_empty : forall F m data name series symbols v w, heap_is m F -> data_with names data series -> series = [] ->
  exists m' e, nipjoint_memory m (Some x) names data name series symbols v w = Ok m' /\ len e = empty_array data series /\ heap_is m' (e ++ F).
Proof.
  intros F m data name series symbols v w H D ES. unfold nipjoint_memory. wk H.
  destruct (read_any _ F names name data series H D) as (z1 & set & E & [(_ & e & LE & H1)|(NE & _)]); [|congruence].
  rewrite E. cbn [bind]. subst series. cbn [List.length Nat.eqb]. exists z1, e. auto.
Qed.

(** The variables are not named. *)
Lemma for_first_ub : forall S n (body : nat -> S -> res S) s, 0 < n -> body 0 s = UB -> for_up 0 n body s = UB.
Proof. intros S [|n] body s K E; [lia|]. unfold for_up. cbn. rewrite E. reflexivity. Qed.
Lemma joint_unnamed : forall F m data name series v w, holds x vs rest F -> heap_is m F -> data_with names data series -> series <> [] ->
  nipjoint_memory m (Some x) names data name series [] v w = UB.
Proof.
  intros F m data name series v w HO H D NE. unfold nipjoint_memory. wk H.
  destruct (read_any _ F names name data series H D) as (z1 & set & E & [(ES & _)|(_ & ss & ys & GS & -> & LS & FY & H1)]); [congruence|].
  rewrite E. cbn [bind]. clear H E. rename H1 into H.
  destruct (Nat.eqb_spec (len series) 0) as [K|KN]; [destruct series; [congruence|cbn in K; lia]|]. rewrite LS.
  destruct ys as [|y ys]; [cbn in LS; lia|]. inversion FY as [|? g ? GS' Q FY']; subst. cbn [concat] in H.
  rewrite (ptr_ok z1 _ ss _ 0 (Some y) H (or_introl eq_refl)) by reflexivity. cbn [bind]. wk H.
  destruct (rd_in_list _ series 0 ltac:(lia)) as (ts & ER & _). rewrite ER. cbn [bind].
  destruct (rob y g (Nat.ltb 0 (len (s_hidden ts))) Q) as (o & EU & RB).
  reorder H (g ++ (ss, ptrs (y :: ys)) :: concat GS' ++ F).
  rewrite (EU _ _ H). cbn [bind]. destruct o as [h|]; [|reflexivity]. destruct (RB h eq_refl) as (b & g' & PG & RO). clear EU RB.
  unfold joint_rest. destruct (gather_ok v _ _ H) as (z3 & r & L & E3 & _ & R). rewrite E3. cbn [bind]. clear H. destruct r as [p|]; [|reflexivity].
  destruct R as (_ & d & gp0 & QP & H). rewrite (touch_pot _ _ _ _ _ QP H). cbn [bind].
  assert (H2 : heap_is z3 ((h, b) :: gp0 ++ g' ++ (ss, ptrs (y :: ys)) :: L ++ concat GS' ++ F)).
  { eapply heap_perm; [|exact H]. apply (@perm_trans _ _ (g ++ gp0 ++ (ss, ptrs (y :: ys)) :: L ++ concat GS' ++ F)); [perm|].
    apply (@perm_trans _ _ (((h, b) :: g') ++ gp0 ++ (ss, ptrs (y :: ys)) :: L ++ concat GS' ++ F)); [apply Permutation_app_tail; exact PG|cbn [app]; perm]. }
  clear H. destruct (free_away _ _ _ _ H2) as (z4 & E4 & H4 & NI). rewrite E4. cbn [bind].
  destruct (free_potential_ok _ _ _ _ _ QP H4) as (z5 & E5 & H5). rewrite E5. cbn [bind].
  unfold free_series. rewrite for_first_ub; [reflexivity|cbn; lia|].
  rewrite (ptr_ok z5 _ ss (ptrs (y :: ys)) 0 (Some y) H5); [|apply in_or_app; right; left; reflexivity|reflexivity]. cbn [bind].
  apply (RO z5 _ H5). intros K. apply NI. rewrite map_app, in_app_iff. right. exact K.
Qed.
End Joint.

Lemma series_blocks : forall ys GS, Forall2 ser ys GS -> len ys <= len (concat GS).
Proof.
  intros ys GS FF. induction FF as [|y h ys GS Q FF IH]; [apply Nat.le_refl|]. cbn [concat List.length]. rewrite app_length.
  destruct Q as (n & hid & obs & d & gh & go & gd & -> & _). cbn [List.length]. lia.
Qed.

Section Whole.
Variables (k1 k2 : list pvar -> list nat -> Z) (s : source) (c : Z) (names : list named_variable) (M : NipModel.model) (g : globals).
Hypothesis OK : source_ok s.
Hypothesis HC : (c + Z.of_nat (len (s_nodes s)) <= LONG_MAX)%Z.
Hypothesis E : parse_model k1 k2 (fresh_globals c) (net_of s) = Ok (Some (names, M, g)).

Lemma known_symbol : forall sy, In sy (map symbol_of names) <-> known names sy.
Proof.
  assert (SZ : size (net_of s) = len (s_nodes s)) by (unfold size; cbn; apply map_length).
  destruct (C61_parsed_model (net_of s) c k1 k2 _ (proj1 OK) ltac:(rewrite SZ; exact HC) E) as (names' & M' & g' & Q & P). injection Q as <- <- <-.
  intros sy. unfold known. rewrite (model_variable_ok _ _ _ sy (pa_names _ _ _ P)). assert (Q := position_spec sy (map symbol_of names)).
  destruct (position sy (map symbol_of names)) as [i|].
  - split; [intros _; exists i; reflexivity|]. intros _. destruct Q as (L & <- & _). apply nth_In. exact L.
  - split; [intros K; contradiction|]. intros (i & K). discriminate.
Qed.
Lemma known_symbols : forall symbols, (forall sy, In sy symbols -> In sy (map symbol_of names)) <-> Forall (known names) symbols.
Proof. intros symbols. rewrite Forall_forall. split; intros K sy I; apply known_symbol; exact (K sy I). Qed.

Notation run data name series symbols v w := (with_model k1 k2 (fresh_globals c) s (fun m x names M => nipjoint_memory m x names data name series symbols v w)).

Lemma C100_joint_lemma : forall data name series symbols v w, data_with names data series -> series <> [] -> symbols <> [] ->
  (forall sy, In sy symbols -> In sy (map symbol_of names)) -> answers v = true ->
  exists m, run data name series symbols v w = Ok (Some m) /\ left_of s M (messages v + failures v) m.
Proof.
  intros data name series symbols v w D NE NS KS AN. apply (program_left k1 k2 s c names M g OK HC E). intros m x vs rest F LV US HO H.
  destruct (joint_named x vs rest names M US F m data name series symbols v w HO H D NE NS) as (Q & _). specialize (Q (proj1 (known_symbols symbols) KS)).
  rewrite AN in Q. exact Q.
Qed.
Lemma C100_null_lemma : forall data name series symbols v w, data_with names data series -> series <> [] ->
  (symbols = [] \/ ((forall sy, In sy symbols -> In sy (map symbol_of names)) /\ answers v = false)) ->
  run data name series symbols v w = UB.
Proof.
  intros data name series symbols v w D NE KS. destruct (whole_state k1 k2 s c names M g OK HC E) as (m & x & vs & leak & rest & F & E1 & LK & LV & US & HO & H & N).
  unfold with_model. rewrite E1. cbn [bind]. destruct symbols as [|s0 sl].
  - rewrite (joint_unnamed x vs rest names F m data name series v w HO H D NE). reflexivity.
  - destruct KS as [KS|(KS & AN)]; [discriminate|].
    destruct (joint_named x vs rest names M US F m data name series (s0 :: sl) v w HO H D NE ltac:(discriminate)) as (Q & _). specialize (Q (proj1 (known_symbols _) KS)).
    rewrite AN in Q. rewrite Q. reflexivity.
Qed.
Lemma C100_kept_lemma : forall data name series symbols v w, data_with names data series ->
  series = [] \/ (exists sy, In sy symbols /\ ~ In sy (map symbol_of names)) ->
  exists m0 x m, m_parse_model k1 k2 (fresh_globals c) s = Ok (Some (m0, x, names, M, g)) /\
    run data name series symbols v w = Ok (Some m) /\ live m0 + len series <= live m.
Proof.
  intros data name series symbols v w D KS. destruct (whole_state k1 k2 s c names M g OK HC E) as (m & x & vs & leak & rest & F & E1 & LK & LV & US & HO & H & N).
  exists m, (Some x). unfold with_model. rewrite E1. cbn [bind]. rewrite (live_heap _ _ H).
  destruct series as [|ts series].
  - destruct (joint_empty x names F m data name [] symbols v w H D eq_refl) as (m' & e & E' & LE & H'). exists m'. split; [reflexivity|]. rewrite E'. split; [reflexivity|].
    rewrite (live_heap _ _ H'), app_length. cbn. lia.
  - destruct KS as [KS|(sy & IS & NI)]; [discriminate|].
    destruct (joint_named x vs rest names M US F m data name (ts :: series) symbols v w HO H D ltac:(discriminate) ltac:(intros ->; exact IS)) as (_ & Q).
    destruct Q as (m' & a & b & ss & ys & GS & E' & LY & FY & H'). { intros FK. apply NI. apply known_symbol. rewrite Forall_forall in FK. exact (FK sy IS). }
    exists m'. split; [reflexivity|]. rewrite E'. split; [reflexivity|]. rewrite (live_heap _ _ H'). cbn [List.length]. rewrite app_length.
    assert (B := series_blocks ys GS FY). rewrite <- LY in B. cbn [List.length] in B |- *. lia.
Qed.
End Whole.
