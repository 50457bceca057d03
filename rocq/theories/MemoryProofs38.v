(** * Memory of niptrain (C95) *)
From Coq Require Import Permutation String Ascii.
From Verif Require Import Base BaseProofs HeapProofs VariableModel VariableSpec JoinTreeModel NipModel NipSpec SliceSpec NipProofs3 SeriesFileModel ParseModel ParseSpec PropertiesParse MemoryModel MemorySpec MemoryProofs MemoryProofs2 MemoryProofs3 MemoryProofs4 MemoryProofs5 MemoryProofs6 MemoryProofs10 MemoryProofs12 MemoryModel2 MemorySpec2 MemoryProofs15 MemoryProofs17 MemoryModel3 MemorySpec3 MemoryProofs20 MemoryModel4 MemorySpec4 MemoryModel5 MemoryProofs25 MemoryProofs26 MemoryProofs30 MemoryProofs32 MemoryProofs33 MemoryProofs34 MemoryProofs35 MemoryModel6 MemorySpec6 MemoryProofs36 MemoryProofs37.
Import ListNotations.
Open Scope nat_scope.
Local Open Scope res_scope.
Local Open Scope list_scope.
Local Notation len := List.length.

Lemma grow_ok : forall k m curve f, owns m (mblk curve) f -> exists m' curve', grow m curve k = Ok (m', curve') /\ owns m' (mblk curve') f.
Proof.
  induction k as [|k IH]; intros m curve f O; cbn [grow]; [eauto|]. destruct (m_link_ok m curve [] f) as (m1 & c1 & E & O1 & _). { rewrite app_nil_r. exact O. }
  rewrite E. cbn [bind]. rewrite app_nil_r in O1. exact (IH m1 c1 f O1).
Qed.
Lemma empty_ok : forall m curve f, owns m (mblk curve) f -> exists m' curve', empty_curve m curve = Ok (m', curve') /\ owns m' (mblk curve') f.
Proof.
  intros m curve f O. unfold empty_curve. rewrite (use_owns m _ _ (b_list curve) O) by (left; reflexivity). cbn [bind].
  destruct (free_all_owns (b_nodes curve) m [b_list curve] f) as (m1 & E1 & O1). { eapply owns_perm; [exact O|]. unfold mblk. perm. }
  rewrite E1. cbn [bind]. eexists _, _. split; [reflexivity|]. exact O1.
Qed.

Lemma series_at_ok : forall a nobs m F ys i, heap_is m F -> In (a, ptrs ys) F -> i + len nobs = len ys ->
  series_at m (Some a) i nobs = Ok (map (fun y => (Some (fst y), snd y)) (combine (skipn i ys) nobs)).
Proof.
  intros a. induction nobs as [|k nobs IH]; intros m F ys i H IA L; cbn [series_at].
  { destruct (skipn i ys); reflexivity. }
  cbn [List.length] in L. destruct (nth_error ys i) as [y|] eqn:EY; [|apply nth_error_None in EY; lia].
  rewrite (ptr_ok m F a (ptrs ys) i (Some y) H IA) by (unfold ptrs; rewrite nth_error_map, EY; reflexivity). cbn [bind].
  rewrite (IH m F ys (S i) H IA) by lia. cbn [bind]. rewrite (skipn_nth _ ys i _ EY). reflexivity.
Qed.

Section Train.
Variables (x : nat) (vs : list nat) (rest : fp) (names : list named_variable) (M : NipModel.model).
Hypothesis US : usable names M (len vs).
Variables (a : nat) (ys : list nat) (GS : list fp) (nobs : list nat) (families : nat -> list nat).
Hypothesis FY : Forall2 ser ys GS.
Hypothesis LN : len nobs = len ys.
Let base (F : fp) := (a, ptrs ys) :: concat GS ++ F.
Let I (F : fp) := exists F1, F = concat GS ++ F1 /\ holds x vs rest F1.

Lemma in_seq_lt : forall n, Forall (fun i => i < n) (seq 0 n).
Proof. intros n. apply Forall_forall. intros i Hi. apply in_seq in Hi. lia. Qed.

Lemma train_maps : Forall (maps_ok I) (map (fun i => nth i vs 0) (seq 0 (len vs))).
Proof.
  apply Forall_forall. intros v Hv. apply in_map_iff in Hv. destruct Hv as (i & <- & Hi). apply in_seq in Hi.
  intros F m tmp (F1 & -> & HO) H. destruct (holds_maps x vs rest i ltac:(lia) F1 m (tmp ++ concat GS) HO) as (m' & F2 & E & HO2 & H2).
  { rewrite <- app_assoc. exact H. }
  exists m', (concat GS ++ F2). split; [exact E|]. split; [exists F2; auto|]. rewrite app_assoc. exact H2.
Qed.
Lemma train_parents : Forall (parents_ok I) (map (fun i => nth i vs 0) (seq 0 (len vs))).
Proof.
  apply Forall_forall. intros v Hv. apply in_map_iff in Hv. destruct Hv as (i & <- & Hi). apply in_seq in Hi.
  intros F (F1 & -> & HO). destruct (holds_parents x vs rest i ltac:(lia) F1 HO) as (b & k & IB & EB). exists b, k. split; [apply in_or_app; right; exact IB|exact EB].
Qed.
Lemma train_out : forall F, I F -> Forall (has_var F) (map (fun i => nth i vs 0) (m_out M)).
Proof. intros F (F1 & -> & HO). apply (has_at x vs rest F1 (concat GS) _ HO). exact (us_out _ _ _ US). Qed.
Lemma train_series : Forall (fun y => series_ok I (fst y)) (combine ys nobs).
Proof.
  apply Forall_forall. intros (y, k) Hy. apply in_combine_l in Hy. cbn [fst]. apply In_nth_error in Hy. destruct Hy as (i & EY).
  destruct (nth_pair _ _ _ i FY) as (y' & g & _ & Q & IG & EY' & _). { apply nth_error_Some. congruence. }
  assert (y' = y) by congruence. subst y'. destruct (ser_length y g Q) as (n & LY). exists n. intros F (F1 & -> & _).
  eapply length_incl; [|exact LY]. intros z Hz. apply in_or_app. left. apply IG. exact Hz.
Qed.

Lemma batches_ok : forall l m F curve, holds x vs rest F -> owns m (mblk curve) (base F) ->
  exists m' F' curve' ok, train_batches m (Some x) (Some a) nobs (len vs) (m_out M) (m_children M) families curve l = Ok (m', curve', ok) /\
    holds x vs rest F' /\ owns m' (mblk curve') (base F').
Proof.
  induction l as [|b l IH]; intros m F curve HO O; cbn [train_batches]; [exists m, F, curve, true; auto|]. unfold owns, base in O.
  assert (H : heap_is m ((led (mblk curve) ++ (a, ptrs ys) :: concat GS) ++ F)). { rewrite <- app_assoc. exact O. }
  rewrite (variables_at_ok x vs rest F _ m HO H _ (in_seq_lt _)). cbn [bind]. rewrite (out_at x vs rest names M US F _ m HO H). cbn [bind].
  rewrite (series_at_ok a nobs m _ ys 0 O) by (first [cbn; exact LN|apply in_or_app; right; left; reflexivity]). cbn [bind skipn].
  destruct (em_learn_ok I _ _ train_maps train_parents train_out (b_first b :: b_others b) (combine ys nobs) m (concat GS ++ F) (led (mblk curve) ++ [(a, ptrs ys)]) families (b_random b) (b_search b) train_series)
    as (m1 & F0 & e & E1 & (F1 & -> & HO1) & H1).
  { exists F. auto. } { rewrite <- app_assoc. exact O. }
  rewrite E1. cbn [bind].
  destruct (grow_ok (b_values b) m1 curve (base F1)) as (m2 & c2 & E2 & O2). { unfold owns, base. rewrite <- app_assoc in H1. exact H1. }
  rewrite E2. cbn [bind].
  assert (W : exists m' F' curve' ok, (let* m := m_write_model m2 (Some x) (m_children M) families (b_search b) (b_opened b) in
     train_batches m (Some x) (Some a) nobs (len vs) (m_out M) (m_children M) families c2 l) = Ok (m', curve', ok) /\ holds x vs rest F' /\ owns m' (mblk curve') (base F')).
  { destruct (write_model_ok m2 x vs rest F1 (led (mblk c2) ++ (a, ptrs ys) :: concat GS) (m_children M) families (b_search b) (b_opened b) HO1) as (m3 & F3 & E3 & HO3 & H3).
    { rewrite <- app_assoc. exact O2. } { exact (us_children _ _ _ US). }
    rewrite E3. cbn [bind]. apply (IH m3 F3 c2 HO3). unfold owns, base. rewrite <- app_assoc in H3. exact H3. }
  destruct e; first [exact W|exists m2, F1, c2, false; auto].
Qed.

Lemma runs_ok : forall l m F curve, holds x vs rest F -> owns m (mblk curve) (base F) ->
  exists m' F' curve' ok, train_runs m (Some x) (Some a) nobs (len vs) (m_out M) (m_children M) families curve l = Ok (m', curve', ok) /\
    holds x vs rest F' /\ owns m' (mblk curve') (base F').
Proof.
  induction l as [|r l IH]; intros m F curve HO O; cbn [train_runs]; [exists m, F, curve, true; auto|].
  assert (X : exists m1 c1, match b_nodes curve with [] => Ok (m, curve) | _ => empty_curve m curve end = Ok (m1, c1) /\ owns m1 (mblk c1) (base F)).
  { destruct (b_nodes curve); [exists m, curve; auto|apply empty_ok; exact O]. }
  destruct X as (m1 & c1 & E1 & O1). rewrite E1. cbn [bind]. destruct (batches_ok r m1 F c1 HO O1) as (m2 & F2 & c2 & ok & E2 & HO2 & O2). rewrite E2. cbn [bind].
  destruct ok; [exact (IH m2 F2 c2 HO2 O2)|]. exists m2, F2, c2, false. auto.
Qed.
End Train.

Lemma train_body : forall x vs rest names M, usable names M (len vs) ->
  forall F m data name series valid families runs w opened, holds x vs rest F -> heap_is m F -> data_with names data series ->
  exists m' e, niptrain_memory m (Some x) names M data name series valid families runs w opened = Ok m' /\ len e = empty_array data series /\ heap_is m' (e ++ rest).
Proof.
  intros x vs rest names M US F m data name series valid families runs w opened HO H D. unfold niptrain_memory.
  destruct (read_any m F names name data series H D) as (m1 & set & E & [(ES & e & LE & H1)|(ES & a & ys & GS & -> & LS & FY & H1)]); rewrite E; cbn [bind]; clear H E.
  { subst series. cbn [List.length Nat.eqb]. destruct (holds_free m1 x vs rest F e HO H1) as (m2 & E2 & H2). eauto. }
  rewrite (none_left data series ES). destruct (Nat.eqb_spec (len series) 0) as [K|KS]; [destruct series; [congruence|cbn in K; lia]|]. rewrite LS.
  destruct (rd_in_list _ series 0 ltac:(lia)) as (ts & ER & _). rewrite ER. cbn [bind].
  destruct (_ || _)%bool.
  { destruct (free_series_ok m1 F a ys GS FY H1) as (m2 & E2 & H2). rewrite E2. cbn [bind]. destruct (holds_free m2 x vs rest F [] HO H2) as (m3 & E3 & H3). exists m3, []. auto. }
  rewrite (mark_ok x vs rest F ((a, ptrs ys) :: concat GS) _ HO H1). cbn [bind].
  destruct (m_list_ok m1 None [] ((a, ptrs ys) :: concat GS ++ F)) as (m2 & c & E2 & O2 & _). { exact H1. }
  rewrite E2. rewrite app_nil_r in O2. clear H1.
  rewrite (nvars_at x vs rest F (led (mblk c) ++ (a, ptrs ys) :: concat GS) m2 HO) by (rewrite <- app_assoc; exact O2). cbn [bind].
  destruct (runs_ok x vs rest names M US a ys GS (map (fun ts => len (s_observed ts)) series) families FY ltac:(rewrite map_length; exact LS) runs m2 F c HO O2) as (m3 & F3 & c3 & ok & E3 & HO3 & O3).
  rewrite E3. cbn [bind].
  destruct (free_series_ok m3 (led (mblk c3) ++ F3) a ys GS FY) as (m4 & E4 & H4). { eapply heap_perm; [|exact O3]. perm. }
  destruct (negb ok); rewrite E4; cbn [bind].
  - destruct (holds_free m4 x vs rest F3 _ HO3 H4) as (m5 & E5 & H5). rewrite E5. cbn [bind].
    destruct (m_drop_ok m5 c3 [] rest) as (m6 & E6 & H6). { rewrite app_nil_r. exact H5. } exists m6, []. auto.
  - assert (O4 : owns m4 (mblk c3 ++ []) F3) by (rewrite app_nil_r; exact H4).
    rewrite (use_list_ok m4 c3 _ _ O4) by (rewrite app_nil_r; apply incl_refl). cbn [bind].
    destruct (m_drop_ok m4 c3 [] F3 O4) as (m5 & E5 & H5). rewrite E5. cbn [bind].
    destruct (write_model_ok m5 x vs rest F3 [] (m_children M) families w opened HO3 H5 (us_children _ _ _ US)) as (m6 & F6 & E6 & HO6 & H6). rewrite E6. cbn [bind].
    destruct (holds_free m6 x vs rest F6 [] HO6 H6) as (m7 & E7 & H7). exists m7, []. auto.
Qed.

(** ** After the parser *)
Lemma parsed_usable : forall t names M n, parsed t names M -> size t = n -> usable names M n.
Proof.
  intros t names M n P SZ. assert (PN := pa_names _ _ _ P). assert (LN : len names = n). { rewrite (proj1 PN), (pa_size _ _ _ P). exact SZ. }
  constructor.
  - exact LN.
  - intros s. exists (position s (map symbol_of names)). split; [exact (model_variable_ok _ _ _ s PN)|]. intros i E. assert (Q := position_spec s (map symbol_of names)). rewrite E in Q.
    destruct Q as (Q & _). rewrite map_length, LN in Q. exact Q.
  - assert (SO := pa_slices _ _ _ P). destruct (so_out_clique _ _ SO) as (LC & IC). apply Forall_forall. intros v Hv. rewrite <- SZ, <- (pa_size _ _ _ P).
    exact (mo_scope _ _ (so_model _ _ SO) _ v LC (IC v Hv)).
  - rewrite (pa_children _ _ _ P). apply Forall_forall. intros v Hv. apply filter_In in Hv. destruct Hv as (Hv & _). apply in_seq in Hv. lia.
Qed.

Section Whole.
Variables (k1 k2 : list pvar -> list nat -> Z) (s : source) (c : Z) (names : list named_variable) (M : NipModel.model) (g : globals).
Hypothesis OK : source_ok s.
Hypothesis HC : (c + Z.of_nat (len (s_nodes s)) <= LONG_MAX)%Z.
Hypothesis E : parse_model k1 k2 (fresh_globals c) (net_of s) = Ok (Some (names, M, g)).

Lemma whole_state : exists m x vs leak rest F, m_parse_model k1 k2 (fresh_globals c) s = Ok (Some (m, Some x, names, M, g)) /\ leaked (m_jt M) leak /\
  len vs = len (s_nodes s) /\ usable names M (len vs) /\ holds x vs rest F /\ heap_is m F /\ ignored s + 11 * len leak <= len rest <= ignored s + 12 * len leak.
Proof.
  destruct (C92_state k1 k2 s c names M g OK HC E) as (m & x & vs & leak & rest & F & E1 & LK & LV & HO & H & N). exists m, x, vs, leak, rest, F.
  split; [exact E1|]. split; [exact LK|]. split; [exact LV|]. split; [|auto].
  assert (SZ : size (net_of s) = len (s_nodes s)) by (unfold size; cbn; apply map_length).
  destruct (C61_parsed_model (net_of s) c k1 k2 _ (proj1 OK) ltac:(rewrite SZ; exact HC) E) as (names' & M' & g' & Q & P). injection Q as <- <- <-.
  apply (parsed_usable (net_of s)); [exact P|congruence].
Qed.

Lemma program_left : forall main extra, (forall m x vs rest F, len vs = len (s_nodes s) -> usable names M (len vs) -> holds x vs rest F -> heap_is m F ->
    exists m' e, main m (Some x) names M = Ok m' /\ len e = extra /\ heap_is m' (e ++ rest)) ->
  exists m, with_model k1 k2 (fresh_globals c) s main = Ok (Some m) /\ left_of s M extra m.
Proof.
  intros main extra B. destruct whole_state as (m & x & vs & leak & rest & F & E1 & LK & LV & US & HO & H & N).
  destruct (B m x vs rest F LV US HO H) as (m' & e & EM & LE & H'). exists m'. unfold with_model. rewrite E1. cbn [bind]. rewrite EM. split; [reflexivity|].
  exists leak. split; [exact LK|]. rewrite (live_heap _ _ H'), app_length, LE. lia.
Qed.

Lemma C95_inference_lemma : forall data name series symbol opened w, data_with names data series ->
  exists m, with_model k1 k2 (fresh_globals c) s (fun m x names M => nipinference_memory m x names M data name symbol opened w) = Ok (Some m) /\
    left_of s M (empty_array data series) m.
Proof. intros data name series symbol opened w D. apply program_left. intros m x vs rest F _ US HO H. exact (inference_body x vs rest names M US F m data name series symbol opened w HO H D). Qed.
Lemma C95_next_lemma : forall data name series symbol w, data_with names data series ->
  exists m, with_model k1 k2 (fresh_globals c) s (fun m x names M => nipnext_memory m x names M data name symbol w) = Ok (Some m) /\
    left_of s M (empty_array data series) m.
Proof. intros data name series symbol w D. apply program_left. intros m x vs rest F _ US HO H. exact (next_body x vs rest names M US F m data name series symbol w HO H D). Qed.
Lemma C95_map_lemma : forall data name series opened closed w, data_with names data series -> closed = true \/ ~ writes_output opened series ->
  exists m, with_model k1 k2 (fresh_globals c) s (fun m x names M => nipmap_memory m x names M data name series opened closed w) = Ok (Some m) /\
    left_of s M (empty_array data series) m.
Proof.
  intros data name series opened closed w D CL. apply program_left. intros m x vs rest F _ US HO H.
  destruct (map_body x vs rest names M US F m data name series opened closed w HO H D) as (m' & e & EM & [(_ & Q)|(EC & W & _)]); [eauto|].
  exfalso. destruct CL as [CL|CL]; [congruence|exact (CL W)].
Qed.
Lemma ser_blocks : forall ys GS, Forall2 ser ys GS -> len ys <= len (concat GS).
Proof.
  intros ys GS FF. induction FF as [|y h ys GS Q FF IH]; [apply Nat.le_refl|]. cbn [concat List.length]. rewrite app_length.
  destruct Q as (n & hid & obs & d & gh & go & gd & -> & _). cbn [List.length]. lia.
Qed.
Lemma C95_map_unclosed_lemma : forall data name series w, data_with names data series -> writes_output true series ->
  exists m0 x m, m_parse_model k1 k2 (fresh_globals c) s = Ok (Some (m0, x, names, M, g)) /\
    with_model k1 k2 (fresh_globals c) s (fun m x names M => nipmap_memory m x names M data name series true false w) = Ok (Some m) /\
    live m0 + 1 + len series <= live m.
Proof.
  intros data name series w D W. destruct whole_state as (m & x & vs & leak & rest & F & E1 & LK & LV & US & HO & H & N).
  destruct (map_body x vs rest names M US F m data name series true false w HO H D) as (m' & e & EM & [([Q|Q] & _)|(_ & _ & a & ys & GS & EE & LY & FY & _ & H')]); [discriminate Q|exfalso; exact (Q W)|].
  exists m, (Some x), m'. unfold with_model. rewrite E1. cbn [bind]. rewrite EM. split; [reflexivity|]. split; [reflexivity|].
  rewrite (live_heap _ _ H), (live_heap _ _ H'), EE, app_length. cbn [List.length]. assert (B := ser_blocks ys GS FY). rewrite LY in B. lia.
Qed.
Lemma C95_likelihood_lemma : forall data name series symbols w, data_with names data series ->
  exists m, with_model k1 k2 (fresh_globals c) s (fun m x names M => niplikelihood_memory m x names data name symbols w) = Ok (Some m) /\
    left_of s M (empty_array data series) m.
Proof. intros data name series symbols w D. apply program_left. intros m x vs rest F _ US HO H. exact (likelihood_body x vs rest names M US F m data name series symbols w HO H D). Qed.
Lemma C95_sample_lemma : forall valid count length order opened w, Forall (fun v => v < len (s_nodes s)) order ->
  exists m, with_model k1 k2 (fresh_globals c) s (fun m x names M => nipsample_memory m x M valid count length order opened w) = Ok (Some m) /\ left_of s M 0 m.
Proof.
  intros valid count length order opened w KO. apply program_left. intros m x vs rest F LV US HO H. rewrite <- LV in KO.
  destruct (sample_body x vs rest names M US F m valid count length order opened w HO H KO) as (m' & EM & H'). exists m', []. auto.
Qed.
Lemma C95_train_lemma : forall data name series valid families runs w opened, data_with names data series ->
  exists m, with_model k1 k2 (fresh_globals c) s (fun m x names M => niptrain_memory m x names M data name series valid families runs w opened) = Ok (Some m) /\
    left_of s M (empty_array data series) m.
Proof. intros data name series valid families runs w opened D. apply program_left. intros m x vs rest F _ US HO H. exact (train_body x vs rest names M US F m data name series valid families runs w opened HO H D). Qed.
End Whole.

Lemma C95_nothing_left_lemma : forall s M m, said_once s ->
  (forall a b z, a < b < len (cls (m_jt M)) -> In z (sps (m_jt M)) -> neighbouring (m_jt M) a b \/ shared (m_jt M) a b < len (s_vars z)) ->
  left_of s M 0 m -> all_free m.
Proof.
  intros s M m ON FAR (leak & (_ & LK & _) & N). apply live_none. rewrite (ignored_once s ON) in N.
  assert (LE : leak = []). { destruct leak as [|[a b] leak]; [reflexivity|]. exfalso. destruct (LK a b (or_introl eq_refl)) as (AB & NB & z & IS & L). destruct (FAR a b z AB IS) as [Q|Q]; [exact (NB Q)|lia]. }
  rewrite LE in N. cbn in N. lia.
Qed.
