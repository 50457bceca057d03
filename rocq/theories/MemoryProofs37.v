(** * Memory of whole programs (C95) *)
From Coq Require Import Permutation String Ascii.
From Verif Require Import Base BaseProofs HeapProofs VariableModel VariableSpec JoinTreeModel NipModel NipSpec SliceSpec NipProofs3 SeriesFileModel GraphModel ParseModel ParseSpec ParseProofs ParseProofs8 PropertiesParse NetGrammarModel NetSpec MemoryModel MemorySpec MemoryProofs MemoryProofs2 MemoryProofs3 MemoryProofs4 MemoryProofs5 MemoryProofs6 MemoryProofs10 MemoryProofs12 GatherProofs MemoryProofs13 MemoryModel2 MemorySpec2 MemoryProofs14 MemoryProofs15 MemoryProofs17 MemoryModel3 MemorySpec3 MemoryProofs20 MemoryModel4 MemorySpec4 MemoryModel5 MemoryProofs26 MemoryProofs30 MemoryProofs32 MemoryProofs33 MemoryProofs34 MemoryProofs35 MemoryModel6 MemorySpec6 MemoryProofs36.
Import ListNotations.
Open Scope nat_scope.
Local Open Scope res_scope.
Local Open Scope list_scope.
Local Notation len := List.length.

(** What is known about a model that was parsed. *)
Record usable (names : list named_variable) (M : NipModel.model) (n : nat) : Prop := {
  us_names : len names = n;
  us_find : forall s, exists o, model_variable names s = Ok o /\ forall i, o = Some i -> i < n;
  us_out : Forall (fun i => i < n) (m_out M);
  us_children : Forall (fun i => i < n) (m_children M)
}.

(** ** Data files *)
Lemma hidden_lt : forall nvars cols obs h, hidden_variables nvars cols obs = Ok h -> Forall (fun i => i < nvars) h.
Proof.
  intros nvars cols obs h E. unfold hidden_variables in E. destruct (Nat.ltb nvars obs) eqn:EL; [discriminate|]. apply Nat.ltb_ge in EL.
  apply bind_inv in E. destruct E as ((h' & mm) & E & EQ). injection EQ as ->.
  match type of E with for_up 0 nvars ?b ?s = _ => assert (X := for_up_back _ (fun _ (st : list nat * nat) => Forall (fun i => i < nvars) (fst st)) b 0 nvars s (h, mm) E) end.
  cbn [fst] in X. apply X; clear X E; [lia| |].
  - apply Forall_forall. intros i Hi. assert (Q := repeat_spec _ _ _ Hi). subst i. destruct (nvars - obs) eqn:EN; [destruct Hi|lia].
  - intros i (q, k) st' Ki HQ ES. cbn [fst] in HQ. destruct (existsb _ cols); [injection ES as <-; exact HQ|].
    unfold wr in ES. destruct (Nat.ltb k (len q)) eqn:EK; [|discriminate]. cbn [bind] in ES. injection ES as <-. cbn [fst] in *. apply Nat.ltb_lt in EK.
    apply Forall_forall. intros z Hz. apply In_nth with (d := 0) in Hz. destruct Hz as (j & Lj & EJ). rewrite set_nth_length in Lj. rewrite nth_set in EJ by exact EK.
    rewrite Forall_forall in HQ. destruct (Nat.eqb_spec j k); [subst z; lia|]. subst z. apply HQ. apply nth_In. exact Lj.
Qed.
Lemma read_series_hidden : forall names lengths df l, read_series names df lengths = Ok l -> Forall (fun s => Forall (fun i => i < len names) (s_hidden s)) l.
Proof.
  intros names. induction lengths as [|n r IH]; intros df l E; cbn [read_series] in E; [injection E as <-; constructor|].
  step E cols Q1. step E hidden Q2. step E p Q3. destruct p as (df', data). step E rst Q4. injection E as <-. constructor; [exact (hidden_lt _ _ _ _ Q2)|exact (IH _ _ Q4)].
Qed.
Lemma data_hidden : forall names data series, data_with names data series -> Forall (fun s => Forall (fun i => i < len names) (s_hidden s)) series.
Proof.
  intros names [text|] series D; cbn [data_with] in D; [|subst series; constructor]. unfold read_timeseries in D. step D p Q1. destruct p as (df, r).
  destruct (r <? 0)%Z; [discriminate|]. step D l Q2. injection D as <-. exact (read_series_hidden _ _ _ _ Q2).
Qed.

(** The file is read: either there are no series, or there is an array of them. *)
Lemma read_any : forall m F names name data series, heap_is m F -> data_with names data series ->
  exists m1 set, mem_read_timeseries m names name data = Ok (m1, set, len series) /\
    ((series = [] /\ exists e, len e = empty_array data series /\ heap_is m1 (e ++ F)) \/
     (series <> [] /\ exists a ys GS, set = Some a /\ len series = len ys /\ Forall2 ser ys GS /\ heap_is m1 ((a, ptrs ys) :: concat GS ++ F))).
Proof.
  intros m F names name [text|] series H D; cbn [data_with] in D.
  - destruct (read_heap_ok m F names name text series H D) as (m1 & a & ys & GS & E & L & FY & H1). exists m1, (Some a). split; [exact E|].
    destruct series as [|ts series].
    + left. split; [reflexivity|]. destruct ys; [|discriminate L]. inversion FY; subst. exists [(a, ptrs [])]. split; [reflexivity|exact H1].
    + right. split; [discriminate|]. exists a, ys, GS. auto.
  - subst series. destruct (open_missing_ok m F name H) as (m1 & E & H1). exists m1, None. unfold mem_read_timeseries. rewrite E. split; [reflexivity|].
    left. split; [reflexivity|]. exists []. auto.
Qed.

Lemma rd_in_list : forall A (l : list A) i, i < len l -> exists z, rd l i = Ok z /\ In z l.
Proof. intros A l i K. unfold rd. destruct (nth_error l i) as [z|] eqn:E; [|apply nth_error_None in E; lia]. exists z. split; [reflexivity|eapply nth_error_In; exact E]. Qed.

(** ** Arrays that are filled *)
Lemma fill_one : forall m a us n i u f, heap_is m ((a, ptrs us ++ repeat (P None) (n - i)) :: f) -> len us = i -> i < n ->
  exists m', store m (Some a) i (P (Some u)) = Ok m' /\ heap_is m' ((a, ptrs (us ++ [u]) ++ repeat (P None) (n - S i)) :: f).
Proof.
  intros m a us n i u f H L K. replace (n - i) with (S (n - S i)) in H by lia.
  destruct (store_ok m f a (ptrs us ++ repeat (P None) (S (n - S i))) i (P (Some u)) H) as (m' & E & H' & _).
  { rewrite app_length, repeat_length. unfold ptrs. rewrite map_length. lia. }
  exists m'. split; [exact E|]. rewrite (ptrs_set us (n - S i) i u L) in H'. exact H'.
Qed.

(** ** The programs *)
Section Programs.
Variables (x : nat) (vs : list nat) (rest : fp) (names : list named_variable) (M : NipModel.model).
Hypothesis US : usable names M (len vs).

Lemma none_left : forall data (series : list SeriesFileModel.series), series <> [] -> empty_array data series = 0.
Proof. intros [d|] [|ts l] K; try reflexivity. congruence. Qed.
Lemma out_at : forall F tmp m, holds x vs rest F -> heap_is m (tmp ++ F) -> variables_at m (Some x) (m_out M) = Ok (map Some (map (fun i => nth i vs 0) (m_out M))).
Proof. intros F tmp m HO H. apply (variables_at_ok x vs rest F tmp m HO H). exact (us_out _ _ _ US). Qed.
Lemma has_at : forall F tmp l, holds x vs rest F -> Forall (fun i => i < len vs) l -> Forall (has_var (tmp ++ F)) (map (fun i => nth i vs 0) l).
Proof. intros F tmp l HO K. eapply has_vars_incl; [|exact (holds_has _ _ _ _ _ HO K)]. apply in_right. Qed.
Lemma has_one : forall F tmp v, holds x vs rest F -> v < len vs -> has_var (tmp ++ F) (nth v vs 0).
Proof. intros F tmp v HO K. assert (X : Forall (fun i => i < len vs) [v]) by (constructor; [exact K|constructor]). exact (Forall_inv (has_at F tmp [v] HO X)). Qed.

Lemma free_both : forall m f a b ys GS us U, Forall2 ser ys GS -> Forall2 unc us U -> len us = len ys ->
  heap_is m ((b, ptrs us) :: concat U ++ (a, ptrs ys) :: concat GS ++ f) ->
  exists m', for_up 0 (len ys) (fun i m =>
          let* y := ptr m (Some a) i in
          let* m := free_timeseries m y in
          let* u := ptr m (Some b) i in
          free_uncertainseries m u) m = Ok m' /\ heap_is m' ((a, ptrs ys) :: (b, ptrs us) :: f).
Proof.
  intros m f a b ys GS us U FY FU L H.
  match goal with |- context [for_up 0 _ ?body m] =>
    destruct (for_up_inv memory (fun i m => exists GS' U', Forall2 ser (skipn i ys) GS' /\ Forall2 unc (skipn i us) U' /\
      heap_is m ((a, ptrs ys) :: (b, ptrs us) :: concat GS' ++ concat U' ++ f)) body 0 (len ys) m) as (m' & E & GS' & U' & F1 & F2 & H') end.
  - lia.
  - exists GS, U. split; [exact FY|]. split; [exact FU|]. eapply heap_perm; [|exact H]. perm.
  - intros i mi K (GS' & U' & F1 & F2 & HM). destruct (nth_error ys i) as [y|] eqn:EY; [|apply nth_error_None in EY; lia].
    destruct (nth_error us i) as [u|] eqn:EU; [|apply nth_error_None in EU; lia].
    rewrite (skipn_nth _ ys i _ EY) in F1. rewrite (skipn_nth _ us i _ EU) in F2. inversion F1 as [|? g ? GS1 HS HR]; subst. inversion F2 as [|? h ? U1 HU HR2]; subst. cbn [concat] in HM.
    rewrite (ptr_ok mi _ a _ i (Some y) HM (or_introl eq_refl)) by (unfold ptrs; rewrite nth_error_map, EY; reflexivity). cbn [bind].
    destruct (free_timeseries_ok mi ((a, ptrs ys) :: (b, ptrs us) :: concat GS1 ++ h ++ concat U1 ++ f) y g HS) as (m1 & E1 & H1).
    { eapply heap_perm; [|exact HM]. rewrite <- !app_assoc. perm. }
    rewrite E1. cbn [bind]. rewrite (ptr_ok m1 _ b _ i (Some u) H1 (or_intror (or_introl eq_refl))) by (unfold ptrs; rewrite nth_error_map, EU; reflexivity). cbn [bind].
    destruct (free_uncertainseries_ok m1 ((a, ptrs ys) :: (b, ptrs us) :: concat GS1 ++ concat U1 ++ f) u h HU) as (m2 & E2 & H2).
    { eapply heap_perm; [|exact H1]. perm. }
    exists m2. split; [exact E2|]. exists GS1, U1. auto.
  - exists m'. split; [exact E|]. rewrite skipn_all in F1. rewrite <- L, skipn_all in F2. inversion F1; subst. inversion F2; subst. exact H'.
Qed.

Lemma inference_body : forall F m data name series symbol opened w, holds x vs rest F -> heap_is m F -> data_with names data series ->
  exists m' e, nipinference_memory m (Some x) names M data name symbol opened w = Ok m' /\ len e = empty_array data series /\ heap_is m' (e ++ rest).
Proof.
  intros F m data name series symbol opened w HO H D. unfold nipinference_memory.
  destruct (read_any m F names name data series H D) as (m1 & set & E & [(ES & e & LE & H1)|(ES & a & ys & GS & -> & LS & FY & H1)]); rewrite E; cbn [bind]; clear H E.
  { subst series. cbn [List.length Nat.ltb Nat.leb]. destruct (holds_free m1 x vs rest F e HO H1) as (m2 & E2 & H2). eauto. }
  rewrite (none_left data series ES). destruct (Nat.ltb_spec (len series) 1) as [K|_]; [destruct series; [congruence|cbn in K; lia]|]. rewrite LS. al H1. rename a0 into b.
  destruct (us_find _ _ _ US symbol) as (o & EV & KO).
  rewrite (find_ok x vs rest F ((b, repeat (P None) (len ys)) :: (a, ptrs ys) :: concat GS) _ HO H1 names symbol o EV KO). cbn [bind]. destruct o as [v|]; cbn [option_map].
  2:{ destruct (free_series_ok m0 ((b, repeat (P None) (len ys)) :: F) a ys GS FY) as (m2 & E2 & H2). { eapply heap_perm; [|exact H1]. perm. }
      rewrite E2. cbn [bind]. destruct (free_ok _ _ b _ H2) as (m3 & E3 & H3 & _). rewrite E3. cbn [bind]. destruct (holds_free m3 x vs rest F [] HO H3) as (m4 & E4 & H4). exists m4, []. auto. }
  specialize (KO v eq_refl). rewrite (mark_ok x vs rest F ((b, repeat (P None) (len ys)) :: (a, ptrs ys) :: concat GS) _ HO H1). cbn [bind].
  match goal with |- context [bind (for_up 0 (len ys) ?body m0) _] =>
    destruct (for_up_inv memory (fun i m => exists us U, len us = i /\ Forall2 unc us U /\
      heap_is m (((b, ptrs us ++ repeat (P None) (len ys - i)) :: concat U ++ (a, ptrs ys) :: concat GS) ++ F)) body 0 (len ys) m0) as (m2 & E2 & us & U & LU & FU & H2) end.
  - lia.
  - exists [], []. split; [reflexivity|]. split; [constructor|]. rewrite Nat.sub_0_r. exact H1.
  - intros i mi K (us & U & LU & FU & HM). destruct (nth_pair _ _ _ i FY ltac:(lia)) as (y & g & EY & Q & IG & _).
    assert (IA : incl ((a, ptrs ys) :: concat GS) (((b, ptrs us ++ repeat (P None) (len ys - i)) :: concat U ++ (a, ptrs ys) :: concat GS) ++ F)).
    { intros z Hz. apply in_or_app. left. right. apply in_or_app. right. exact Hz. }
    rewrite (ptr_ok mi _ a _ i (Some y) HM) by (first [exact EY|apply IA; left; reflexivity]). cbn [bind].
    rewrite (out_at _ _ _ HO HM). cbn [bind]. destruct (ser_length y g Q) as (n & LY).
    destruct (forward_backward_ok mi _ y n [nth v vs 0] (map (fun i => nth i vs 0) (m_out M)) (w i) HM) as (m3 & u & h & E3 & Q3 & H3).
    { eapply length_incl; [|exact LY]. intros z Hz. apply IA. right. apply IG. exact Hz. }
    { apply (has_at F _ [v] HO). constructor; [exact KO|constructor]. }
    { apply (has_at F _ _ HO). exact (us_out _ _ _ US). }
    cbn [map] in E3. rewrite E3. cbn [bind].
    destruct (fill_one m3 b us (len ys) i u (h ++ concat U ++ (a, ptrs ys) :: concat GS ++ F)) as (m4 & E4 & H4); [|exact LU|lia|].
    { eapply heap_perm; [|exact H3]. perm. }
    rewrite E4. cbn [bind]. destruct LY as (by_ & IY & EL).
    rewrite (num_ok m4 _ y by_ Y_length n H4); [cbn [bind]| |exact EL].
    2:{ right. apply in_or_app. right. apply in_or_app. right. right. apply in_or_app. left. apply IG. exact IY. }
    eexists. split; [reflexivity|]. exists (us ++ [u]), (U ++ [h]). split; [rewrite app_length; cbn; lia|]. split; [apply Forall2_app; [exact FU|constructor; [exact Q3|constructor]]|].
    eapply heap_perm; [|exact H4]. rewrite concat_app. cbn [concat]. rewrite app_nil_r. perm.
  - rewrite E2. cbn [bind]. clear H1 E2. rewrite Nat.sub_diag in H2. cbn [repeat] in H2. rewrite app_nil_r in H2.
    destruct (write_uncertainseries_ok m2 _ b us U (nth v vs 0) opened H2) as (m3 & E3 & H3).
    { left. reflexivity. } { exact FU. } { intros z Hz. apply in_or_app. left. right. apply in_or_app. left. exact Hz. }
    { apply (has_one F _ v HO KO). }
    rewrite LU in E3. rewrite E3. cbn [bind].
    destruct (free_both m3 F a b ys GS us U FY FU LU) as (m4 & E4 & H4). { eapply heap_perm; [|exact H3]. perm. }
    rewrite E4. cbn [bind]. destruct (free_ok _ _ a _ H4) as (m5 & E5 & H5 & _). rewrite E5. cbn [bind].
    destruct (free_ok _ _ b _ H5) as (m6 & E6 & H6 & _). rewrite E6. cbn [bind]. destruct (holds_free m6 x vs rest F [] HO H6) as (m7 & E7 & H7). exists m7, []. auto.
Qed.

Lemma next_body : forall F m data name series symbol w, holds x vs rest F -> heap_is m F -> data_with names data series ->
  exists m' e, nipnext_memory m (Some x) names M data name symbol w = Ok m' /\ len e = empty_array data series /\ heap_is m' (e ++ rest).
Proof.
  intros F m data name series symbol w HO H D. unfold nipnext_memory.
  destruct (read_any m F names name data series H D) as (m1 & set & E & [(ES & e & LE & H1)|(ES & a & ys & GS & -> & LS & FY & H1)]); rewrite E; cbn [bind]; clear H E.
  { subst series. cbn [List.length Nat.ltb Nat.leb]. destruct (holds_free m1 x vs rest F e HO H1) as (m2 & E2 & H2). eauto. }
  rewrite (none_left data series ES). destruct (Nat.ltb_spec (len series) 1) as [K|_]; [destruct series; [congruence|cbn in K; lia]|]. rewrite LS.
  destruct (us_find _ _ _ US symbol) as (o & EV & KO).
  rewrite (find_ok x vs rest F ((a, ptrs ys) :: concat GS) _ HO H1 names symbol o EV KO). cbn [bind]. destruct o as [v|]; cbn [option_map].
  2:{ destruct (free_series_ok m1 F a ys GS FY H1) as (m2 & E2 & H2). rewrite E2. cbn [bind]. destruct (holds_free m2 x vs rest F [] HO H2) as (m4 & E4 & H4). exists m4, []. auto. }
  specialize (KO v eq_refl). rewrite (mark_ok x vs rest F ((a, ptrs ys) :: concat GS) _ HO H1). cbn [bind].
  match goal with |- context [bind (for_up 0 (len ys) ?body m1) _] =>
    destruct (for_up_inv memory (fun i m => exists GS', Forall2 ser (skipn i ys) GS' /\ heap_is m (((a, ptrs ys) :: concat GS') ++ F)) body 0 (len ys) m1) as (m2 & E2 & GS' & F2 & H2) end.
  - lia.
  - exists GS. auto.
  - intros i mi K (GS' & F1 & HM). destruct (nth_error ys i) as [y|] eqn:EY; [|apply nth_error_None in EY; lia].
    rewrite (skipn_nth _ ys i _ EY) in F1. inversion F1 as [|? g ? GS1 HS HR]; subst. cbn [concat] in HM.
    rewrite (ptr_ok mi _ a _ i (Some y) HM (or_introl eq_refl)) by (unfold ptrs; rewrite nth_error_map, EY; reflexivity). cbn [bind].
    rewrite (out_at _ _ _ HO HM). cbn [bind]. destruct (ser_length y g HS) as (n & LY).
    assert (IG : incl g (((a, ptrs ys) :: g ++ concat GS1) ++ F)). { intros z Hz. apply in_or_app. left. right. apply in_or_app. left. exact Hz. }
    destruct (forward_ok mi _ y n [nth v vs 0] (map (fun i => nth i vs 0) (m_out M)) (w i) HM) as (m3 & u & h & E3 & Q3 & H3).
    { eapply length_incl; [exact IG|exact LY]. }
    { apply (has_at F _ [v] HO). constructor; [exact KO|constructor]. }
    { apply (has_at F _ _ HO). exact (us_out _ _ _ US). }
    cbn [map] in E3. rewrite E3. cbn [bind]. assert (Q4 := Q3). destruct Q3 as (k & l & UO). assert (UO' := UO). destruct UO' as (ua & ud & uba & R & gc & EH & _).
    rewrite (num_ok m3 _ u _ U_length l H3) by (first [reflexivity|rewrite EH; left; reflexivity]). cbn [bind].
    assert (X : exists m4, (if Nat.ltb 0 l then write_results m3 (Some u) (l - 1) (fun _ => []) else Ok m3) = Ok m4 /\ heap_is m4 (h ++ ((a, ptrs ys) :: g ++ concat GS1) ++ F)).
    { destruct (Nat.ltb_spec 0 l); [|eauto]. eapply write_results_ok; [exact UO|apply incl_appl, incl_refl|exact H3|lia]. }
    destruct X as (m4 & E4 & H4). rewrite E4. cbn [bind]. destruct LY as (by_ & IY & EL).
    rewrite (num_ok m4 _ y by_ Y_length n H4) by (first [exact EL|apply in_or_app; right; apply IG; exact IY]). cbn [bind].
    destruct (free_timeseries_ok m4 (h ++ ((a, ptrs ys) :: concat GS1) ++ F) y g HS) as (m5 & E5 & H5). { eapply heap_perm; [|exact H4]. perm. }
    rewrite E5. cbn [bind]. destruct (free_uncertainseries_ok m5 _ u h Q4 H5) as (m6 & E6 & H6). exists m6. split; [exact E6|]. exists GS1. auto.
  - rewrite E2. cbn [bind]. rewrite skipn_all in F2. inversion F2; subst. cbn [concat app] in H2. destruct (free_ok _ _ a _ H2) as (m3 & E3 & H3 & _). rewrite E3. cbn [bind].
    destruct (holds_free m3 x vs rest F [] HO H3) as (m4 & E4 & H4). exists m4, []. auto.
Qed.

(** All of it is left if the output cannot be closed. *)
Lemma map_body : forall F m data name series opened closed w, holds x vs rest F -> heap_is m F -> data_with names data series ->
  exists m' e, nipmap_memory m (Some x) names M data name series opened closed w = Ok m' /\
    (((closed = true \/ ~ writes_output opened series) /\ len e = empty_array data series /\ heap_is m' (e ++ rest)) \/
     (closed = false /\ writes_output opened series /\ exists a ys GS, e = (a, ptrs ys) :: concat GS /\ len ys = len series /\ Forall2 ser ys GS /\ 0 < len ys /\ heap_is m' (e ++ F))).
Proof.
  intros F m data name series opened closed w HO H D. unfold nipmap_memory. assert (DH := data_hidden _ _ _ D). rewrite (us_names _ _ _ US) in DH.
  destruct (read_any m F names name data series H D) as (m1 & set & E & [(ES & e & LE & H1)|(ES & a & ys & GS & -> & LS & FY & H1)]); rewrite E; cbn [bind]; clear H E.
  { subst series. cbn [List.length Nat.ltb Nat.leb]. destruct (holds_free m1 x vs rest F e HO H1) as (m2 & E2 & H2). exists m2, e. split; [exact E2|]. left. split; [|auto].
    right. intros (_ & ts & others & Q & _). discriminate Q. }
  rewrite (none_left data series ES). destruct (Nat.ltb_spec (len series) 1) as [K|KS]; [destruct series; [congruence|cbn in K; lia]|]. rewrite LS.
  destruct (rd_in_list _ series 0 ltac:(lia)) as (ts & ER & _). rewrite ER. cbn [bind].
  assert (X : exists m2, (let* m := free_series m1 (Some a) (len ys) in free_model m (Some x)) = Ok m2 /\ heap_is m2 rest).
  { destruct (free_series_ok m1 F a ys GS FY H1) as (m2 & E2 & H2). rewrite E2. cbn [bind]. exact (holds_free m2 x vs rest F [] HO H2). }
  destruct (_ || _)%bool eqn:EB.
  { destruct X as (m2 & E2 & H2). exists m2, []. split; [exact E2|]. left. split; [|auto]. right. intros (-> & ts' & others & -> & K). injection ER as <-. cbn [negb orb] in EB.
    destruct (s_hidden ts'); [apply K; reflexivity|discriminate EB]. }
  assert (W : writes_output opened series).
  { apply orb_false_iff in EB. destruct EB as (EB1 & EB2). destruct opened; [|discriminate EB1]. split; [reflexivity|]. destruct series as [|ts' others]; [discriminate ER|]. exists ts', others.
    injection ER as <-. split; [reflexivity|]. intros K. rewrite K in EB2. discriminate EB2. }
  clear X. rewrite (mark_ok x vs rest F ((a, ptrs ys) :: concat GS) _ HO H1). cbn [bind].
  match goal with |- context [bind (for_up 0 (len ys) ?body m1) _] =>
    destruct (for_up_inv memory (fun i m => heap_is m (((a, ptrs ys) :: concat GS) ++ F)) body 0 (len ys) m1) as (m2 & E2 & H2) end.
  - lia.
  - exact H1.
  - intros i mi K HM. cbv beta in HM. destruct (nth_pair _ _ _ i FY ltac:(lia)) as (y & g & EY & Q & IG & _).
    assert (IA : incl g (((a, ptrs ys) :: concat GS) ++ F)). { intros z Hz. apply in_or_app. left. right. apply IG. exact Hz. }
    rewrite (ptr_ok mi _ a _ i (Some y) HM (or_introl eq_refl) EY). cbn [bind].
    destruct (rd_in_list _ series i ltac:(lia)) as (tsi & ERI & ITS). rewrite ERI. cbn [bind]. rewrite Forall_forall in DH. specialize (DH tsi ITS).
    rewrite (variables_at_ok x vs rest F _ mi HO HM _ DH). cbn [bind].
    rewrite (out_at _ _ _ HO HM). cbn [bind]. destruct (ser_length y g Q) as (n & LY).
    destruct (forward_backward_ok mi _ y n (map (fun i => nth i vs 0) (s_hidden tsi)) (map (fun i => nth i vs 0) (m_out M)) (w i) HM) as (m3 & u & h & E3 & Q3 & H3).
    { eapply length_incl; [exact IA|exact LY]. }
    { apply (has_at F _ _ HO DH). }
    { apply (has_at F _ _ HO). exact (us_out _ _ _ US). }
    rewrite E3. cbn [bind]. destruct (read_results_ok m3 _ u h Q3 (incl_appl _ (incl_refl _)) H3) as (m4 & E4 & H4). rewrite E4. cbn [bind].
    destruct (free_uncertainseries_ok m4 _ u h Q3 H4) as (m5 & E5 & H5). rewrite E5. cbn [bind]. destruct LY as (by_ & IY & EL).
    rewrite (num_ok m5 _ y by_ Y_length n H5 (IA _ IY) EL). cbn [bind]. eauto.
  - rewrite E2. cbn [bind]. destruct closed; cbn [negb].
    + destruct (free_series_ok m2 F a ys GS FY H2) as (m3 & E3 & H3). rewrite E3. cbn [bind]. destruct (holds_free m3 x vs rest F [] HO H3) as (m4 & E4 & H4). exists m4, []. split; [exact E4|]. left. auto.
    + exists m2, ((a, ptrs ys) :: concat GS). split; [reflexivity|]. right. split; [reflexivity|]. split; [exact W|]. exists a, ys, GS. split; [reflexivity|]. split; [auto|]. split; [exact FY|]. split; [lia|exact H2].
Qed.

Lemma likelihood_body : forall F m data name series symbols w, holds x vs rest F -> heap_is m F -> data_with names data series ->
  exists m' e, niplikelihood_memory m (Some x) names data name symbols w = Ok m' /\ len e = empty_array data series /\ heap_is m' (e ++ rest).
Proof.
  intros F m data name series symbols w HO H D. unfold niplikelihood_memory.
  destruct (read_any m F names name data series H D) as (m1 & set & E & [(ES & e & LE & H1)|(ES & a & ys & GS & -> & LS & FY & H1)]); rewrite E; cbn [bind]; clear H E.
  { subst series. cbn [List.length Nat.eqb]. destruct (holds_free m1 x vs rest F e HO H1) as (m2 & E2 & H2). eauto. }
  rewrite (none_left data series ES). destruct (Nat.eqb_spec (len series) 0) as [K|_]; [destruct series; [congruence|cbn in K; lia]|]. rewrite LS.
  rewrite (mark_ok x vs rest F ((a, ptrs ys) :: concat GS) _ HO H1). cbn [bind].
  rewrite const_loop; [cbn [bind]|lia|].
  2:{ intros i K. destruct (rd_in_list _ symbols i ltac:(lia)) as (sy & ER & _). rewrite ER. cbn [bind]. destruct (us_find _ _ _ US sy) as (o & EV & KO).
      rewrite (find_ok x vs rest F ((a, ptrs ys) :: concat GS) _ HO H1 names sy o EV KO). cbn [bind]. destruct o as [v|]; cbn [option_map]; [|reflexivity].
      destruct (has_one F ((a, ptrs ys) :: concat GS) v HO (KO v eq_refl)) as (b & id & c & IB & EI & _). rewrite (num_ok m1 _ _ b V_id id H1 IB EI). reflexivity. }
  match goal with |- context [bind (for_up 0 (len ys) ?body m1) _] =>
    destruct (for_up_inv memory (fun i m => heap_is m ((a, ptrs ys) :: concat GS ++ F)) body 0 (len ys) m1) as (m2 & E2 & H2) end.
  - lia.
  - exact H1.
  - intros i mi K HM. cbv beta in HM. destruct (nth_pair _ _ _ i FY ltac:(lia)) as (y & g & EY & Q & IG & _).
    rewrite (ptr_ok mi _ a _ i (Some y) HM (or_introl eq_refl) EY). cbn [bind]. destruct (ser_length y g Q) as (n & by_ & IY & EL).
    rewrite (num_ok mi _ y by_ Y_length n HM) by (first [exact EL|right; apply in_or_app; left; apply IG; exact IY]). cbn [bind].
    match goal with |- exists s', for_up 0 n ?body mi = Ok s' /\ _ => destruct (for_up_inv memory (fun _ m => heap_is m ((a, ptrs ys) :: concat GS ++ F)) body 0 n mi) as (m3 & E3 & H3) end; [lia|exact HM| |eauto].
    intros t mt KT HT. cbv beta in HT. apply work_ok. exact HT.
  - rewrite E2. cbn [bind]. destruct (free_series_ok m2 F a ys GS FY H2) as (m3 & E3 & H3). rewrite E3. cbn [bind].
    destruct (holds_free m3 x vs rest F [] HO H3) as (m4 & E4 & H4). exists m4, []. auto.
Qed.

Lemma sample_body : forall F m valid count length order opened w, holds x vs rest F -> heap_is m F -> Forall (fun i => i < len vs) order ->
  exists m', nipsample_memory m (Some x) M valid count length order opened w = Ok m' /\ heap_is m' rest.
Proof.
  intros F m valid count length order opened w HO H KO. unfold nipsample_memory. destruct (negb valid); [exact (holds_free m x vs rest F [] HO H)|].
  al H.
  match goal with |- context [bind (for_up 0 count ?body m0) _] =>
    destruct (for_up_inv memory (fun i m => exists ys GS, len ys = i /\ Forall2 full ys GS /\
      heap_is m (((a, ptrs ys ++ repeat (P None) (count - i)) :: concat GS) ++ F)) body 0 count m0) as (m2 & E2 & ys & GS & LY & FY & H2) end.
  - lia.
  - exists [], []. split; [reflexivity|]. split; [constructor|]. rewrite Nat.sub_0_r. exact H.
  - intros i mi K (ys & GS & LY & FY & HM). rewrite (variables_at_ok x vs rest F _ mi HO HM _ KO). cbn [bind]. rewrite (out_at _ _ _ HO HM). cbn [bind].
    destruct (generate_data_full mi _ (map (fun i => nth i vs 0) order) (map (fun i => nth i vs 0) (m_out M)) length (w i) HM) as (m3 & y & g & E3 & Q & H3).
    { apply (has_at F _ _ HO KO). } { apply (has_at F _ _ HO). exact (us_out _ _ _ US). }
    rewrite E3. cbn [bind]. destruct (fill_one m3 a ys count i y (g ++ concat GS ++ F)) as (m4 & E4 & H4); [|exact LY|lia|].
    { eapply heap_perm; [|exact H3]. perm. }
    exists m4. split; [exact E4|]. exists (ys ++ [y]), (GS ++ [g]). split; [rewrite app_length; cbn; lia|]. split; [apply Forall2_app; [exact FY|constructor; [exact Q|constructor]]|].
    eapply heap_perm; [|exact H4]. rewrite concat_app. cbn [concat]. rewrite app_nil_r. perm.
  - rewrite E2. cbn [bind]. clear H E2. rewrite Nat.sub_diag in H2. cbn [repeat] in H2. rewrite app_nil_r in H2.
    destruct (write_timeseries_ok m2 _ a ys GS (len order) opened H2) as (m3 & E3 & H3).
    { left. reflexivity. } { exact FY. } { intros z Hz. apply in_or_app. left. right. exact Hz. }
    rewrite LY in E3. rewrite E3. cbn [bind].
    match goal with |- context [for_down count 0 ?body m3] =>
      destruct (for_down_inv memory (fun i m => exists GS', Forall2 full (firstn i ys) GS' /\ heap_is m ((a, ptrs ys) :: concat GS' ++ F)) body count 0 m3) as (m4 & E4 & GS' & F4 & H4) end.
    + lia.
    + exists GS. rewrite firstn_all2 by lia. auto.
    + intros i mi K (GS' & F1 & HM). destruct (nth_error ys i) as [y|] eqn:EY; [|apply nth_error_None in EY; lia].
      rewrite (ptr_ok mi _ a _ i (Some y) HM (or_introl eq_refl)) by (unfold ptrs; rewrite nth_error_map, EY; reflexivity). cbn [bind].
      rewrite (firstn_nth _ _ _ _ EY) in F1. apply Forall2_app_inv_l in F1. destruct F1 as (G1 & G2 & F1 & F2 & ->). inversion F2 as [|? g ? G3 Q F3]; subst. inversion F3; subst.
      rewrite concat_app in HM. cbn [concat] in HM. rewrite app_nil_r in HM.
      destruct (free_timeseries_ok mi ((a, ptrs ys) :: concat G1 ++ F) y g (full_ser _ _ Q)) as (m5 & E5 & H5). { eapply heap_perm; [|exact HM]. perm. }
      exists m5. split; [exact E5|]. exists G1. auto.
    + rewrite E4. cbn [bind]. cbn [firstn] in F4. inversion F4; subst. cbn [concat app] in H4. destruct (free_ok _ _ a _ H4) as (m5 & E5 & H5 & _). rewrite E5. cbn [bind].
      exact (holds_free m5 x vs rest F [] HO H5).
Qed.
End Programs.
