(** * Proofs about memory: analysing and closing data files (C89) *)
From Coq Require Import Permutation String Ascii ZArith.
From Verif Require Import Base BaseProofs HeapProofs StringModel MemoryModel MemorySpec MemoryProofs MemoryProofs2 MemoryProofs3 MemoryProofs4 MemoryProofs5 MemoryProofs10.
From Verif Require Import SeriesFileModel MemoryModel2 MemoryProofs13 MemoryProofs14.
Import ListNotations.
Open Scope nat_scope.
Local Open Scope list_scope.
Local Open Scope res_scope.
Local Notation len := List.length.

Lemma skipn_nth : forall A (l : list A) t x, nth_error l t = Some x -> skipn t l = x :: skipn (S t) l.
Proof.
  intros A l. induction l as [|y l IH]; intros [|t] x E; try discriminate.
  - injection E as ->. reflexivity.
  - cbn in E |- *. apply IH. exact E.
Qed.
Lemma firstn_nth : forall A (l : list A) t x, nth_error l t = Some x -> firstn (S t) l = firstn t l ++ [x].
Proof.
  intros A l. induction l as [|y l IH]; intros [|t] x E; try discriminate.
  - injection E as ->. reflexivity.
  - cbn [nth_error] in E. rewrite !firstn_cons. cbn [app]. rewrite <- (IH t x E). reflexivity.
Qed.

(** ** Opening *)
Lemma open_ok : forall m f name, heap_is m f ->
  exists m' file nm b, mem_open_data_file m true name = Ok (m', Some file) /\
    heap_is m' ((file, [P (Some nm); P None; P None; N 0; P None; P None]) :: (nm, b) :: f).
Proof.
  intros m f name H. unfold mem_open_data_file. cbv zeta. al H. unfold F_name, F_datarows, F_symbols, F_nodes, F_states, F_nstates.
  st H. st H. st H. st H. st H. st H. al H. st H. eexists _, a, a0, _. split; [reflexivity|exact H].
Qed.
Lemma open_missing_ok : forall m f name, heap_is m f ->
  exists m', mem_open_data_file m false name = Ok (m', None) /\ heap_is m' f.
Proof.
  intros m f name H. unfold mem_open_data_file. cbv zeta. al H. unfold F_name, F_datarows, F_symbols, F_nodes, F_states, F_nstates.
  st H. st H. st H. st H. st H. st H. fr H. eexists. split; [reflexivity|exact H].
Qed.

(** ** The header *)
Lemma copy_strings_ok : forall m f a words, heap_is m ((a, repeat (P None) (len words)) :: f) ->
  exists m' rs gr, mem_copy_strings m (Some a) words = Ok m' /\ len rs = len words /\ addresses gr rs /\ heap_is m' ((a, ptrs rs) :: gr ++ f).
Proof.
  intros m f d words H. unfold mem_copy_strings. set (n := len words) in *.
  match goal with |- context [for_up 0 n ?b m] =>
    destruct (for_up_inv memory (fun t m => exists rs gr, len rs = t /\ addresses gr rs /\
      heap_is m ((d, ptrs rs ++ repeat (P None) (n - t)) :: gr ++ f)) b 0 n m) as (m' & E & rs & gr & L & HA & HH) end.
  - lia.
  - exists [], []. split; [reflexivity|]. split; [apply Permutation_refl|]. rewrite Nat.sub_0_r. exact H.
  - intros t mt Ht (rs & gr & L & HA & HM). rewrite (rd_ok _ words t []) by (unfold n in Ht; lia). cbn [bind]. al HM.
    replace (n - t) with (S (n - S t)) in HM by lia.
    front HM d. destruct (store_ok _ _ d _ t (P (Some a)) HM (ptrs_length _ _ _ L)) as (m' & E & H' & _). exists m'. split; [exact E|].
    rewrite ptrs_set in H' by exact L. exists (rs ++ [a]). eexists ((a, _) :: gr). split; [rewrite app_length; cbn; lia|].
    split; [unfold addresses in *; cbn [map fst]; eapply perm_trans; [apply perm_skip; exact HA|apply Permutation_cons_append]|].
    cbn [app]. eapply heap_perm; [|exact H']. perm.
  - exists m', rs, gr. rewrite Nat.sub_diag in HH. cbn [repeat] in HH. rewrite app_nil_r in HH. auto.
Qed.

Lemma set_symbols_ok : forall m f file nm d symbols,
  heap_is m ((file, [P nm; P d; P None; N 0; P None; P None]) :: f) ->
  exists m' sy rs gr, mem_set_node_symbols m (Some file) symbols = Ok m' /\ len rs = len symbols /\ addresses gr rs /\
    heap_is m' ((file, [P nm; P d; P (Some sy); N (len symbols); P None; P None]) :: (sy, ptrs rs) :: gr ++ f).
Proof.
  intros m f file nm d symbols H. unfold mem_set_node_symbols, F_nodes, F_symbols.
  set (n := len symbols). st H. al H. st H. gp H. front H a.
  destruct (copy_strings_ok _ _ a symbols H) as (m' & rs & gr & E & L & HA & H').
  exists m', a, rs, gr. split; [exact E|]. split; [exact L|]. split; [exact HA|].
  eapply heap_perm; [|exact H']. perm.
Qed.

Definition lists (LS : list (nat * list (nat * nat))) : fp := flat_map (fun x => lst (fst x) (snd x)) LS.
Definition strings (LS : list (nat * list (nat * nat))) : list nat := flat_map (fun x => map snd (snd x)) LS.

Lemma header_ok : forall m f file nm d sy n, heap_is m ((file, [P nm; P d; P sy; N n; P None; P None]) :: f) ->
  exists m' sn LS ns st, mem_header m (Some file) = Ok (m', Some sn) /\ len LS = n /\ strings LS = [] /\
    heap_is m' ((file, [P nm; P d; P sy; N n; P (Some st); P (Some ns)]) :: (sn, ptrs (map fst LS)) :: lists LS ++
                (ns, repeat (N 0) n) :: (st, repeat (P None) n) :: f).
Proof.
  intros m f file nm d sy n H. unfold mem_header, F_nodes, F_nstates, F_states. gn H. al H.
  match type of H with context [(file, ?B)] => set (bf := B) in * end.
  match goal with |- context [for_up 0 n ?b ?M] =>
    destruct (for_up_inv memory (fun t m => exists LS, len LS = t /\ strings LS = [] /\
      heap_is m ((a, ptrs (map fst LS) ++ repeat (P None) (n - t)) :: (file, bf) :: lists LS ++ f)) b 0 n M) as (m' & E & LS & L & HS & HH) end.
  - lia.
  - exists []. split; [reflexivity|]. split; [reflexivity|]. rewrite Nat.sub_0_r. exact H.
  - intros t mt Ht (LS & L & HS & HM). destruct (new_string_list_ok _ _ HM) as (m1 & l & E & H1). rewrite E. cbn [bind]. clear E HM.
    replace (n - t) with (S (n - S t)) in H1 by lia. assert (L' : len (map fst LS) = t) by (rewrite map_length; exact L).
    match type of H1 with heap_is ?M ?F => eapply (heap_perm M F ((a, _) :: lst l [] ++ _)) in H1; [|apply Permutation_sym, Permutation_middle] end.
    destruct (store_ok _ _ a _ t (P (Some l)) H1 (ptrs_length _ _ _ L')) as (m2 & E & H2 & _). exists m2. split; [exact E|].
    rewrite ptrs_set in H2 by exact L'. exists (LS ++ [(l, [])]). split; [rewrite app_length; cbn; lia|].
    split; [unfold strings in *; rewrite flat_map_app, HS; reflexivity|].
    rewrite map_app. cbn [map fst]. unfold lists. rewrite flat_map_app. cbn [flat_map fst snd]. rewrite app_nil_r.
    eapply heap_perm; [|exact H2]. cbn [app]. perm.
  - rewrite E. cbn [bind]. clear E H. rewrite Nat.sub_diag in HH. cbn [repeat] in HH. rewrite app_nil_r in HH. rename HH into H. unfold bf in H.
    al H. st H. al H. st H. eexists _, a, LS, a0, a1. split; [reflexivity|]. split; [exact L|]. split; [exact HS|].
    eapply heap_perm; [|exact H]. perm.
Qed.

(** ** The names of states *)
Lemma accumulate_ok : forall n i m f sn LS gs line bounds stn stn',
  accumulate_state_names stn line bounds i n = Ok stn' -> i + n <= len LS ->
  heap_is m ((sn, ptrs (map fst LS)) :: lists LS ++ gs ++ f) -> addresses gs (strings LS) ->
  exists m' LS' gs', mem_accumulate_state_names m (Some sn) stn line bounds i n = Ok (m', stn') /\
    map fst LS' = map fst LS /\ addresses gs' (strings LS') /\
    heap_is m' ((sn, ptrs (map fst LS)) :: lists LS' ++ gs' ++ f).
Proof.
  induction n as [|n IH]; intros i m f sn LS gs line bounds stn stn' E L H HA.
  - cbn in E. injection E as <-. exists m, LS, gs. auto.
  - cbn [accumulate_state_names] in E. step E token Q1. step E l Q2. step E stn1 Q3. cbn [mem_accumulate_state_names]. rewrite Q1. cbn [bind].
    al H. rewrite Q2. cbn [bind].
    destruct (negb (null_observation token) && negb (existsb (ascii_list_eqb token) l))%bool.
    + destruct (nth_error LS i) as [(q, xs)|] eqn:EL; [|apply nth_error_None in EL; lia].
      destruct (nth_error_split LS i EL) as (L1 & L2 & E1 & E2).
      front H sn. rewrite (ptr_ok _ _ sn _ i (Some q) H (or_introl eq_refl)) by (unfold ptrs; rewrite !nth_error_map, EL; reflexivity). cbn [bind].
      rewrite E1 in H at 2. unfold lists in H. rewrite flat_map_app in H. cbn [flat_map fst snd] in H. fold (lists L1) in H. fold (lists L2) in H.
      match type of H with heap_is ?M ((sn, ?B) :: (a, ?A) :: _) =>
        eapply (heap_perm M _ (lst q xs ++ (sn, B) :: (a, A) :: lists L1 ++ lists L2 ++ gs ++ f)) in H end.
      2:{ rewrite <- !app_assoc. perm. }
      destruct (prepend_string_ok _ _ q xs a H) as (m1 & ln & E3 & H1). rewrite E3. cbn [bind]. rewrite Q3. cbn [bind].
      destruct (IH (S i) m1 f sn (L1 ++ (q, (ln, a) :: xs) :: L2) ((a, repeat (N 0) (len token + 1)) :: gs) line bounds stn1 stn' E) as (m2 & LS' & gs' & E4 & EF & HA' & H').
      * rewrite E1 in L. rewrite app_length in L |- *. cbn [List.length] in *. lia.
      * assert (EM : map fst (L1 ++ (q, (ln, a) :: xs) :: L2) = map fst LS) by (rewrite E1, !map_app; reflexivity). rewrite EM.
        unfold lists. rewrite flat_map_app. cbn [flat_map fst snd]. fold (lists L1). fold (lists L2). rewrite <- !app_assoc.
        eapply heap_perm; [|exact H1]. cbn [app]. perm.
      * unfold addresses in *. cbn [map fst]. rewrite E1 in HA. unfold strings in HA |- *. rewrite flat_map_app in HA |- *. cbn [flat_map snd map] in HA |- *.
        eapply perm_trans; [apply perm_skip; exact HA|]. cbn [app]. apply Permutation_middle.
      * assert (EM : map fst (L1 ++ (q, (ln, a) :: xs) :: L2) = map fst LS) by (rewrite E1, !map_app; reflexivity). rewrite EM in *.
        exists m2, LS', gs'. auto.
    + cbn [bind] in Q3 |- *. injection Q3 as <-. front H a. destruct (free_ok _ _ a _ H) as (m' & E3 & H' & _). rewrite E3. cbn [bind].
      apply (IH (S i) m' f sn LS gs line bounds stn stn' E); [lia|exact H'|exact HA].
Qed.

Lemma words_from_length : forall n line bounds i ws, words_from line bounds i n = Ok ws -> len ws = n.
Proof.
  induction n as [|n IH]; intros line bounds i ws E; cbn [words_from] in E; [injection E as <-; reflexivity|].
  step E w Q1. step E r Q2. injection E as <-. cbn. rewrite (IH _ _ _ _ Q2). reflexivity.
Qed.

(** ** The second pass *)
Inductive reading (m : memory) (f : fp) (file nm d : nat) (p : pass2) : option nat -> Prop :=
| Unheaded : p_num_of_nodes p = 0 -> p_state p <= 2 ->
    heap_is m ((file, [P (Some nm); P (Some d); P None; N 0; P None; P None]) :: f) ->
    reading m f file nm d p None
| Headed : forall sn sy st ns LS rs gr gs n, p_num_of_nodes p = n -> p_state p <= 1 ->
    len LS = n -> len rs = n -> addresses gr rs -> addresses gs (strings LS) ->
    heap_is m ((file, [P (Some nm); P (Some d); P (Some sy); N n; P (Some st); P (Some ns)]) :: (sy, ptrs rs) :: gr ++
               (sn, ptrs (map fst LS)) :: lists LS ++ gs ++ (ns, repeat (N 0) n) :: (st, repeat (P None) n) :: f) ->
    reading m f file nm d p (Some sn).

Lemma analyse_loop_ok : forall fuel m fh file nm d sep f p sn p',
  analyse_loop fuel sep f p = Ok (Some p') -> reading m fh file nm d p sn ->
  exists m' sn', mem_analyse_loop fuel m (Some file) sep f p sn = Ok (m', Some (p', sn')) /\ reading m' fh file nm d p' sn' /\
    len (p_datarows p') = len (p_datarows p).
Proof.
  induction fuel as [|fuel IH]; intros m fh file nm d sep f p sn p' E R; [discriminate|].
  cbn [analyse_loop] in E. cbn [mem_analyse_loop].
  destruct (fgets f) as [(line, rest)|]; [|injection E as <-; exists m, sn; auto].
  step E nt Q1. destruct nt as (nt, c0). rewrite Q1. cbn [bind]. destruct (Nat.eqb nt 0).
  { destruct (IH m fh file nm d sep rest _ sn p' E) as (m' & sn' & E' & R' & L'); [|exists m', sn'; auto].
    destruct R as [X1 X2 H|sn sy st ns LS rs gr gs n X1 X2 X3 X4 X5 X6 H]; [apply Unheaded; assumption|eapply Headed; eassumption]. }
  step E bd Q2. destruct bd as ([bounds|], c1); [|discriminate]. rewrite Q2. cbn [bind].
  set (ts := if (negb (Nat.eqb (p_empty p) 0) && Nat.ltb (p_state p) 1)%bool then S (p_tscounter p) else p_tscounter p) in *.
  set (stt := if Nat.ltb 0 (p_state p) then p_state p - 1 else p_state p) in *.
  assert (HS : forall k, p_state p <= S k -> stt <= k). { intros k Hk. unfold stt. destruct (Nat.ltb_spec 0 (p_state p)); lia. }
  destruct (Nat.ltb 0 stt) eqn:ES.
  - step E symbols Q3. assert (LW := words_from_length _ _ _ _ _ Q3).
    destruct R as [X1 X2 H|sn sy st ns LS rs gr gs n X1 X2 X3 X4 X5 X6 H].
    2:{ apply Nat.ltb_lt in ES. assert (stt <= 0) by (apply HS; lia). lia. }
    al H. rewrite Q3. cbn [bind]. rename a into tb. front H file.
    destruct (set_symbols_ok _ _ file _ _ symbols H) as (m1 & sy & rs & gr & E1 & LR & HA & H1). rewrite E1. cbn [bind]. clear E1 H.
    destruct (header_ok _ _ file _ _ _ _ H1) as (m2 & sn & LS & ns & st & E2 & LL & HS2 & H2). rewrite E2. cbn [bind]. clear E2 H1. rename H2 into H.
    fr H.
    match goal with |- context [mem_analyse_loop fuel ?M] =>
      destruct (IH M fh file nm d sep rest _ (Some sn) p' E) as (m' & sn' & E' & R' & L'); [|exists m', sn'; auto] end.
    rewrite LW in LR, LL, H. eapply (Headed _ _ _ _ _ _ sn sy st ns LS rs gr [] nt); cbn [p_num_of_nodes p_state]; try assumption; try congruence.
    + apply HS. exact X2.
    + rewrite HS2. apply Permutation_refl.
    + cbn [app]. eapply heap_perm; [|exact H]. perm.
  - step E r Q3. step E dr Q4. step E stn Q5.
    assert (LD : len dr = len (p_datarows p)).
    { unfold wr in Q4. destruct (Nat.ltb _ _) in Q4; [|discriminate]. injection Q4 as <-. apply set_nth_length. }
    destruct R as [X1 X2 H|sn sy st ns LS rs gr gs n X1 X2 X3 X4 X5 X6 H].
    + al H. rewrite Q3. cbn [bind]. rewrite Q4. cbn [bind]. rewrite X1 in Q5 |- *. cbn [Nat.min accumulate_state_names mem_accumulate_state_names bind] in Q5 |- *.
      injection Q5 as <-. fr H.
      match goal with |- context [mem_analyse_loop fuel ?M] =>
        destruct (IH M fh file nm d sep rest _ None p' E) as (m' & sn' & E' & R' & L') end.
      * apply Unheaded; cbn [p_num_of_nodes p_state]; [assumption| |exact H]. assert (stt <= 1) by (apply HS; exact X2). lia.
      * exists m', sn'. rewrite X1 in E'. split; [exact E'|]. split; [exact R'|]. cbn [p_datarows] in L'. congruence.
    + al H. rewrite Q3. cbn [bind]. rewrite Q4. cbn [bind]. rename a into tb.
      match type of H with heap_is ?M ((tb, ?T) :: (file, ?B) :: _) =>
        eapply (heap_perm M _ ((sn, ptrs (map fst LS)) :: lists LS ++ gs ++ ((tb, T) :: (file, B) :: (sy, ptrs rs) :: gr ++ (ns, repeat (N 0) n) :: (st, repeat (P None) n) :: fh))) in H end.
      2:{ perm. }
      destruct (accumulate_ok _ 0 _ _ sn LS gs line bounds _ _ Q5 ltac:(lia) H X6) as (m1 & LS' & gs' & E1 & EF & HA' & H1). rewrite E1. cbn [bind]. clear H E1. rename H1 into H.
      fr H. rewrite <- EF in H.
      match goal with |- context [mem_analyse_loop fuel ?M] =>
        destruct (IH M fh file nm d sep rest _ (Some sn) p' E) as (m' & sn' & E' & R' & L') end.
      * eapply (Headed _ _ _ _ _ _ sn sy st ns LS' rs gr gs' n); cbn [p_num_of_nodes p_state]; try assumption.
        -- assert (stt <= 0) by (apply HS; exact X2). lia.
        -- rewrite <- (map_length fst LS'), EF, map_length. exact X3.
        -- eapply heap_perm; [|exact H]. perm.
      * exists m', sn'. split; [exact E'|]. split; [exact R'|]. cbn [p_datarows] in L'. congruence.
Qed.
