(** * Proofs about memory: reading data files (C89) *)
From Coq Require Import Permutation String Ascii ZArith.
From Verif Require Import Base BaseProofs HeapProofs StringModel NipModel MemoryModel MemorySpec MemorySpec2 MemoryProofs MemoryProofs2 MemoryProofs3 MemoryProofs4 MemoryProofs5 MemoryProofs10.
From Verif Require Import SeriesFileModel MemoryModel2 MemoryProofs13 MemoryProofs14 MemoryProofs15 MemoryProofs16.
Import ListNotations.
Open Scope nat_scope.
Local Open Scope list_scope.
Local Open Scope res_scope.
Local Notation len := List.length.

(** ** Every memory has a footprint *)
Fixpoint blocks_from (k : nat) (m : memory) : fp :=
  match m with
  | [] => []
  | Some b :: r => (k, b) :: blocks_from (S k) r
  | None :: r => blocks_from (S k) r
  end.
Lemma blocks_from_in : forall m k a b, In (a, b) (blocks_from k m) <-> k <= a /\ nth_error m (a - k) = Some (Some b).
Proof.
  induction m as [|o m IH]; intros k a b; cbn [blocks_from].
  - cbn. split; [intros []|]. intros [_ H]. destruct (a - k); discriminate.
  - assert (X : In (a, b) (blocks_from (S k) m) <-> S k <= a /\ nth_error (o :: m) (a - k) = Some (Some b)).
    { rewrite IH. split; intros [L H]; (split; [exact L|]).
      - replace (a - k) with (S (a - S k)) by lia. exact H.
      - replace (a - k) with (S (a - S k)) in H by lia. exact H. }
    destruct o as [b0|].
    + cbn [In]. rewrite X. split.
      * intros [E|[L H]]; [injection E as -> ->; rewrite Nat.sub_diag; split; [lia|reflexivity]|split; [lia|exact H]].
      * intros [L H]. destruct (Nat.eq_dec k a) as [->|NE]; [left; rewrite Nat.sub_diag in H; cbn in H; congruence|right; split; [lia|exact H]].
    + rewrite X. split; intros [L H]; [split; [lia|exact H]|].
      destruct (Nat.eq_dec k a) as [->|NE]; [rewrite Nat.sub_diag in H; discriminate H|split; [lia|exact H]].
Qed.
Lemma blocks_from_nodup : forall m k, NoDup (map fst (blocks_from k m)).
Proof.
  induction m as [|[b|] m IH]; intros k; cbn [blocks_from map fst]; [constructor| |apply IH].
  constructor; [|apply IH]. intros I. apply in_map_iff in I. destruct I as ((a, b') & E & I). cbn in E. subst a.
  apply blocks_from_in in I. lia.
Qed.
Lemma footprint : forall m, heap_is m (blocks_from 0 m).
Proof. intros m. split; [apply blocks_from_nodup|]. intros a b. rewrite blocks_from_in, Nat.sub_0_r. split; [split; [lia|assumption]|intros [_ X]; exact X]. Qed.
Lemma heap_same : forall m m' f, heap_is m f -> heap_is m' f -> same_memory m m'.
Proof. intros m m' f [_ H] [_ H'] a b. rewrite H, H'. reflexivity. Qed.
Lemma heap_keeps : forall m m' g f, heap_is m f -> heap_is m' (g ++ f) -> keeps m m'.
Proof. intros m m' g f [_ H] [_ H'] a b E. apply H'. apply in_or_app. right. apply H. exact E. Qed.

(** ** Rows *)
Lemma read_rows_ok : forall names cols obs n m f df tokens df' data,
  read_rows names cols obs df n = Ok (df', data) -> heap_is m f ->
  exists m' tokens', mem_read_rows m df tokens n = Ok (m', df', tokens') /\ heap_is m' f.
Proof.
  intros names cols obs. induction n as [|n IH]; intros m f df tokens df' data E H; cbn [read_rows mem_read_rows] in *.
  - injection E as <- <-. exists m, tokens. auto.
  - step E x Q1. destruct x as (df1, ws). destruct ws as [ws|]; [|discriminate]. step E row Q2. step E y Q3. destruct y as (df2, rows). injection E as <- <-.
    unfold mem_next_line_tokens. rewrite Q1. cbn [bind]. al H. al H. rename a into tb. rename a0 into ar.
    destruct (copy_strings_ok _ _ ar ws H) as (m1' & rs & gr & E1 & L & HA & H1). rewrite E1. cbn [bind]. clear H E1. rename H1 into H. fr H.
    match type of H with heap_is ?M ?F => eapply (heap_perm M F ((ar, ptrs rs) :: f ++ gr)) in H; [|perm] end.
    rewrite <- (app_nil_r rs) in HA.
    destruct (free_strings ar _ rs _ gr [] HA H) as (m2' & b1 & E2 & A2 & H2). rewrite L in E2. rewrite E2. cbn [bind]. rewrite (addresses_nil _ A2), app_nil_r in H2. clear H E2 A2.
    destruct (free_ok _ _ ar _ H2) as (m3' & E3 & H3 & _). rewrite E3. cbn [bind].
    apply (IH m3' f df1 (Some ar) df2 rows Q3 H3).
Qed.

(** ** Series *)
Lemma read_series_ok : forall names lengths m f df results tokens n ys GS l,
  read_series names df lengths = Ok l -> len ys = n -> Forall2 ser ys GS ->
  heap_is m ((results, ptrs ys ++ repeat (P None) (len lengths)) :: concat GS ++ f) ->
  exists m' ys' GS', mem_read_series m names df (Some results) tokens n lengths = Ok m' /\
    len ys' = n + len lengths /\ len l = len lengths /\ Forall2 ser ys' GS' /\ heap_is m' ((results, ptrs ys') :: concat GS' ++ f).
Proof.
  intros names. induction lengths as [|k r IH]; intros m f df results tokens n ys GS l E L HF H; cbn [read_series mem_read_series] in *.
  - injection E as <-. exists m, ys, GS. split; [reflexivity|]. split; [cbn; lia|]. split; [reflexivity|]. split; [exact HF|].
    cbn [List.length repeat] in H. rewrite app_nil_r in H. exact H.
  - step E cols Q1. step E hid Q2. step E x Q3. destruct x as (df1, data). step E rest Q4. injection E as <-. rewrite Q1. cbn [bind].
    destruct (new_timeseries_ok m _ (Some (len names - len (known cols))) (len (known cols)) k H) as (m1 & y & g & E1 & HS & H1). rewrite E1. cbn [bind]. clear H E1.
    match goal with |- context [bind ?X _] =>
      assert (Y : exists m2 tk, X = Ok (m2, df1, tk) /\ heap_is m2 (g ++ (results, ptrs ys ++ repeat (P None) (len (k :: r))) :: concat GS ++ f)) end.
    { destruct (Nat.ltb 0 (len (known cols))).
      - destruct (read_rows_ok _ _ _ _ _ _ _ tokens _ _ Q3 H1) as (m2 & tk & E2 & H2). exists m2, tk. auto.
      - injection Q3 as <- <-. exists m1, tokens. auto. }
    destruct Y as (m2 & tk & E2 & H2). rewrite E2. cbn [bind]. cbn [List.length] in H2. front H2 results.
    destruct (store_ok _ _ results _ n (P (Some y)) H2 (ptrs_length _ _ _ L)) as (m3 & E3 & H3 & _). rewrite E3. cbn [bind]. rewrite ptrs_set in H3 by exact L.
    destruct (IH m3 f df1 results tk (S n) (ys ++ [y]) (GS ++ [g]) rest Q4) as (m' & ys' & GS' & E4 & L4 & LL & HF4 & H4).
    + rewrite app_length. cbn. lia.
    + apply Forall2_app; [exact HF|]. constructor; [exact HS|constructor].
    + rewrite concat_app. cbn [concat]. rewrite app_nil_r. eapply heap_perm; [|exact H3]. rewrite <- app_assoc. perm.
    + exists m', ys', GS'. split; [exact E4|]. split; [cbn; lia|]. split; [cbn; lia|]. auto.
Qed.

Lemma release_ok : forall m f results ys GS, Forall2 ser ys GS -> heap_is m ((results, ptrs ys) :: concat GS ++ f) ->
  exists m', release m (Some results) (len ys) = Ok m' /\ heap_is m' f.
Proof.
  intros m f results ys GS HF H. unfold release.
  match goal with |- context [for_up 0 _ ?b m] =>
    destruct (for_up_inv memory (fun t m => exists GS', Forall2 ser (skipn t ys) GS' /\ heap_is m ((results, ptrs ys) :: concat GS' ++ f)) b 0 (len ys) m)
      as (m' & E & GS' & HF' & HH) end.
  - lia.
  - exists GS. auto.
  - intros t mt Ht (GS' & HF' & HM). destruct (nth_error ys t) as [y|] eqn:EY; [|apply nth_error_None in EY; lia].
    rewrite (skipn_nth _ ys t _ EY) in HF'. inversion HF' as [|? g ? GS1 HS HR]; subst. cbn [concat] in HM.
    rewrite (ptr_ok _ _ results _ t (Some y) HM (or_introl eq_refl)) by (unfold ptrs; rewrite nth_error_map, EY; reflexivity). cbn [bind].
    destruct (free_timeseries_ok mt ((results, ptrs ys) :: concat GS1 ++ f) y g HS) as (m' & E & H').
    { eapply heap_perm; [|exact HM]. rewrite <- app_assoc. perm. }
    exists m'. split; [exact E|]. exists GS1. auto.
  - rewrite E. cbn [bind]. rewrite skipn_all in HF'. inversion HF'; subst. cbn [concat app] in HH.
    destruct (free_ok _ _ results _ HH) as (m2 & E2 & H2 & _). exists m2. auto.
Qed.

(** ** Files *)
Lemma read_heap_ok : forall m F names name f l, heap_is m F -> read_timeseries names f = Ok (Some l) ->
  exists m1 results ys GS, mem_read_timeseries m names name (Some f) = Ok (m1, Some results, len l) /\ len ys = len l /\
    Forall2 ser ys GS /\ heap_is m1 ((results, ptrs ys) :: concat GS ++ F).
Proof.
  intros m F names name f l H E. unfold read_timeseries in E. step E x Q1. destruct x as (df, r). destruct (r <? 0)%Z eqn:ER; [discriminate|]. step E l' Q2. injection E as ->.
  unfold mem_read_timeseries.
  destruct (open_ok m F name H) as (m1 & file & nm & bn & E1 & H1). rewrite E1. cbn [bind]. clear H E1.
  destruct (analyse_file_ok m1 F file nm bn _ df r Q1 ltac:(apply Z.ltb_ge in ER; exact ER) H1) as (m2 & g & E2 & D & H2 & LD). rewrite E2. cbn [bind]. rewrite ER. clear H1 E2.
  rewrite <- LD. al H2. rename a into results.
  destruct (read_series_ok names (f_datarows df) m0 (g ++ F) df results None 0 [] [] l Q2 eq_refl (Forall2_nil _) H2) as (m4 & ys & GS & E4 & LY & LL & HF & H4). rewrite E4. cbn [bind]. clear H2 E4.
  destruct (close_ok m4 ((results, ptrs ys) :: concat GS ++ F) file g D) as (m5 & E5 & H5).
  { eapply heap_perm; [|exact H4]. perm. }
  rewrite E5. cbn [bind]. cbn [plus] in LY. rewrite LL. exists m5, results, ys, GS. auto.
Qed.

Lemma read_file_ok : forall m names name f l, read_timeseries names f = Ok (Some l) ->
  exists m1 results m2, mem_read_timeseries m names name (Some f) = Ok (m1, results, len l) /\
    keeps m m1 /\ release m1 results (len l) = Ok m2 /\ same_memory m m2.
Proof.
  intros m names name f l E. assert (H0 := footprint m). set (F := blocks_from 0 m) in *.
  destruct (read_heap_ok m F names name f l H0 E) as (m5 & results & ys & GS & E5 & LY & HF & H5).
  destruct (release_ok m5 F results ys GS HF H5) as (m6 & E6 & H6). rewrite LY in E6.
  exists m5, (Some results), m6. split; [exact E5|]. split; [|split; [exact E6|]].
  - eapply (heap_keeps m m5 ((results, ptrs ys) :: concat GS) F H0). cbn [app]. exact H5.
  - apply (heap_same m m6 F H0 H6).
Qed.

Lemma missing_file_ok : forall m names name, exists m1, mem_read_timeseries m names name None = Ok (m1, None, 0) /\ same_memory m m1.
Proof.
  intros m names name. assert (H := footprint m). destruct (open_missing_ok m _ name H) as (m1 & E & H1).
  exists m1. unfold mem_read_timeseries. rewrite E. split; [reflexivity|]. apply (heap_same m m1 _ H H1).
Qed.

Lemma analysed_file_ok : forall m name df df' r, analyse_data_file df = Ok (df', r) -> (0 <= r)%Z ->
  exists m1 file m2 m3, mem_open_data_file m true name = Ok (m1, file) /\
    mem_analyse_data_file m1 file df = Ok (m2, df', r) /\ mem_close_data_file m2 file = Ok m3 /\ same_memory m m3.
Proof.
  intros m name df df' r E HR. assert (H := footprint m). set (F := blocks_from 0 m) in *.
  destruct (open_ok m F name H) as (m1 & file & nm & bn & E1 & H1).
  destruct (analyse_file_ok m1 F file nm bn _ df' r E HR H1) as (m2 & g & E2 & D & H2 & _).
  destruct (close_ok m2 F file g D H2) as (m3 & E3 & H3).
  exists m1, (Some file), m2, m3. split; [exact E1|]. split; [exact E2|]. split; [exact E3|]. apply (heap_same m m3 F H H3).
Qed.
