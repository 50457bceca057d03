(** * Proofs about memory: closing data files (C89) *)
From Coq Require Import Permutation String Ascii ZArith.
From Verif Require Import Base BaseProofs HeapProofs StringModel MemoryModel MemorySpec MemoryProofs MemoryProofs2 MemoryProofs3 MemoryProofs4 MemoryProofs5 MemoryProofs10.
From Verif Require Import SeriesFileModel MemoryModel2 MemoryProofs13 MemoryProofs14 MemoryProofs15.
Import ListNotations.
Open Scope nat_scope.
Local Open Scope list_scope.
Local Open Scope res_scope.
Local Notation len := List.length.

(** The arrays of the names of states: a pointer, NULL if there are no names,
    and the strings. *)
Definition arrays (XS : list (option nat * list nat)) : fp :=
  flat_map (fun x => match fst x with Some a => [(a, ptrs (snd x))] | None => [] end) XS.
Definition fit (x : option nat * list nat) : Prop := fst x = None -> snd x = [].
Definition sizes (XS : list (option nat * list nat)) : block := map (fun x => N (len (snd x))) XS.
Definition pointers_to (XS : list (option nat * list nat)) : block := map (fun x => P (fst x)) XS.

Inductive dfile (file : nat) : fp -> Prop :=
| Plain : forall nm d bn bd,
    dfile file ((file, [P (Some nm); P (Some d); P None; N 0; P None; P None]) :: (nm, bn) :: (d, bd) :: [])
| Full : forall nm d bn bd sy st ns rs gr XS gs n,
    len rs = n -> addresses gr rs -> len XS = n -> Forall fit XS -> addresses gs (flat_map snd XS) ->
    dfile file ((file, [P (Some nm); P (Some d); P (Some sy); N n; P (Some st); P (Some ns)]) :: (nm, bn) :: (d, bd) ::
      (sy, ptrs rs) :: gr ++ (ns, sizes XS) :: (st, pointers_to XS) :: arrays XS ++ gs).

Lemma lists_to_arrays_ok : forall m f file nm bn d bd p sn, reading m ((nm, bn) :: (d, bd) :: f) file nm d p sn ->
  exists m' g, mem_lists_to_arrays m (Some file) sn = Ok m' /\ dfile file g /\ heap_is m' (g ++ f).
Proof.
  intros m f file nm bn d bd p sn R. destruct R as [X1 X2 H|sn sy st ns LS rs gr gs n X1 X2 X3 X4 X5 X6 H].
  - unfold mem_lists_to_arrays, F_nodes. gn H. cbn [for_up loop_up Nat.sub bind free]. eexists _, _. split; [reflexivity|]. split; [apply Plain|exact H].
  - unfold mem_lists_to_arrays, F_nodes, F_nstates, F_states. gn H.
    match type of H with heap_is _ ((file, ?B) :: _) => set (bf := B) in * end.
    match goal with |- context [for_up 0 n ?b ?M] =>
      destruct (for_up_inv memory (fun t m => exists XS, map snd XS = map (fun x => map snd (snd x)) (firstn t LS) /\ Forall fit XS /\
        heap_is m ((ns, sizes XS ++ repeat (N 0) (n - t)) :: (st, pointers_to XS ++ repeat (P None) (n - t)) :: (file, bf) :: arrays XS ++ lists (skipn t LS) ++
                   (sn, ptrs (map fst LS)) :: (sy, ptrs rs) :: gr ++ gs ++ (nm, bn) :: (d, bd) :: f)) b 0 n M) as (m' & E & XS & EX & HF & HH) end.
    + lia.
    + exists []. split; [reflexivity|]. split; [constructor|]. rewrite Nat.sub_0_r. cbn [sizes pointers_to map app arrays flat_map skipn].
      eapply heap_perm; [|exact H]. perm.
    + intros t mt Ht (XS & EX & HF & HM).
      destruct (nth_error LS t) as [(q, xs)|] eqn:EL; [|apply nth_error_None in EL; lia].
      assert (LX : len XS = t). { rewrite <- (map_length snd XS), EX, map_length, firstn_length. lia. }
      front HM sn. rewrite (ptr_ok _ _ sn _ t (Some q) HM (or_introl eq_refl)) by (unfold ptrs; rewrite !nth_error_map, EL; reflexivity). cbn [bind].
      rewrite (skipn_nth _ LS t _ EL) in HM. unfold lists in HM. cbn [flat_map fst snd] in HM. fold (lists (skipn (S t) LS)) in HM.
      unfold lst in HM at 1. cbn [app] in HM. front HM q.
      rewrite (num_ok _ _ q _ S_length (len xs) HM (or_introl eq_refl) eq_refl). cbn [bind]. unfold bf in HM. gp HM. front HM ns.
      assert (LT : t < len (sizes XS ++ repeat (N 0) (n - t))). { rewrite app_length, repeat_length. unfold sizes. rewrite map_length. lia. }
      destruct (store_ok _ _ ns _ t (N (len xs)) HM LT) as (m1 & E1 & H1 & _). rewrite E1. cbn [bind]. clear E1 HM LT.
      match type of H1 with heap_is ?M ?F => eapply (heap_perm M F (lst q xs ++ _)) in H1; [|unfold lst; cbn [app]; eapply (@perm_trans _ _ ((q, _) :: _)); [pull|apply perm_skip; chunk]] end.
      destruct (to_array_ok _ _ q xs H1) as (m2 & x & g & E2 & HX & H2). rewrite E2. cbn [bind]. clear E2 H1. rename H2 into HM.
      unfold lst in HM at 1. cbn [app] in HM. gp HM. front HM st.
      assert (LT : t < len (pointers_to XS ++ repeat (P None) (n - t))). { rewrite app_length, repeat_length. unfold pointers_to. rewrite map_length. lia. }
      destruct (store_ok _ _ st _ t (P x) HM LT) as (m3 & E3 & H3 & _). rewrite E3. cbn [bind]. clear E3 HM LT.
      match type of H3 with heap_is ?M ?F => eapply (heap_perm M F (lst q xs ++ _)) in H3; [|unfold lst; cbn [app]; eapply (@perm_trans _ _ ((q, _) :: _)); [pull|apply perm_skip; chunk]] end.
      destruct (empty_list_ok _ _ q xs H3) as (m4 & E4 & H4). rewrite E4. cbn [bind]. clear E4 H3. rename H4 into HM.
      unfold lst in HM at 1. cbn [app] in HM. front HM q. destruct (free_ok _ _ q _ HM) as (m5 & E5 & H5 & _). exists m5. split; [exact E5|].
      exists (XS ++ [(x, map snd xs)]). rewrite (firstn_nth _ LS t _ EL), !map_app, EX. split; [reflexivity|].
      split. { apply Forall_app. split; [exact HF|]. constructor; [|constructor]. unfold fit. cbn [fst snd]. intros ->. destruct HX as [-> _]. reflexivity. }
      replace (n - t) with (S (n - S t)) in H5 by lia.
      rewrite set_tail in H5 by (unfold sizes, pointers_to; rewrite map_length; exact LX).
      rewrite set_tail in H5 by (unfold sizes, pointers_to; rewrite map_length; exact LX).
      assert (G : g = arrays [(x, map snd xs)]). { unfold arrays. cbn [flat_map fst snd]. destruct x as [z|]; [exact HX|apply HX]. }
      unfold arrays at 1. rewrite flat_map_app. fold (arrays XS). fold (arrays [(x, map snd xs)]). rewrite <- G.
      unfold sizes, pointers_to in *. rewrite !map_app. cbn [map fst snd]. rewrite map_length.
      eapply heap_perm; [|exact H5]. fold bf. rewrite <- !app_assoc. perm.
    + rewrite E. cbn [bind]. clear E H. rewrite <- X3 in HH, EX. rewrite firstn_all in EX. rewrite skipn_all, Nat.sub_diag in HH. cbn [repeat lists flat_map app] in HH.
      rewrite !app_nil_r in HH. front HH sn. destruct (free_ok _ _ sn _ HH) as (m1 & E1 & H1 & _). exists m1. eexists. split; [exact E1|].
      assert (LX : len XS = n). { rewrite <- (map_length snd XS), EX, map_length. exact X3. }
      split; [apply (Full file nm d bn bd sy st ns rs gr XS gs n X4 X5 LX HF)|].
      * unfold strings in X6. rewrite flat_map_concat_map in X6. rewrite <- EX in X6. rewrite flat_map_concat_map. exact X6.
      * unfold bf in H1. rewrite ?X3 in H1. eapply heap_perm; [|exact H1]. cbn [app]. rewrite <- !app_assoc. cbn [app]. rewrite <- !app_assoc. perm.
Qed.

Lemma close_ok : forall m f file g, dfile file g -> heap_is m (g ++ f) ->
  exists m', mem_close_data_file m (Some file) = Ok m' /\ heap_is m' f.
Proof.
  intros m f file g D H. destruct D as [nm d bn bd|nm d bn bd sy st ns rs gr XS gs n X1 X2 X3 X4 X5];
    unfold mem_close_data_file, F_name, F_symbols, F_nodes, F_states, F_nstates, F_datarows; cbn [app] in H.
  - gp H. fr H. gp H. cbn [bind]. gp H. cbn [bind]. gp H. cbn [free bind]. gp H. fr H.
    front H file. destruct (free_ok _ _ file _ H) as (m' & E & H' & _). exists m'. auto.
  - gp H. fr H. gp H. gn H. rewrite <- !app_assoc in H. cbn [app] in H.
    match type of H with heap_is _ ((file, ?B) :: _) => set (bf := B) in * end.
    match type of H with heap_is ?M ?F =>
      eapply (heap_perm M F ((sy, ptrs rs) :: ((file, bf) :: (d, bd) :: (ns, sizes XS) :: (st, pointers_to XS) :: arrays XS ++ gs ++ f) ++ gr)) in H; [|cbn [app]; rewrite <- !app_assoc; perm] end.
    rewrite <- (app_nil_r rs) in X2.
    destruct (free_strings sy _ rs _ gr [] X2 H) as (m1 & b1 & E & A1 & H1). rewrite X1 in E. rewrite E. cbn [bind]. rewrite (addresses_nil _ A1), app_nil_r in H1. clear H E A1. rename H1 into H.
    fr H. unfold bf in H. gp H. gn H. fold bf in H.
    match goal with |- context [for_up 0 n ?b ?M] =>
      destruct (for_up_inv memory (fun t m => exists gs', addresses gs' (flat_map snd (skipn t XS)) /\
        heap_is m ((file, bf) :: (d, bd) :: (ns, sizes XS) :: (st, pointers_to XS) :: arrays (skipn t XS) ++ gs' ++ f)) b 0 n M) as (m' & E & gs' & HA & HH) end.
    + lia.
    + exists gs. split; [exact X5|]. exact H.
    + intros t mt Ht (gs' & HA & HM). destruct (nth_error XS t) as [(x, ss)|] eqn:EX; [|apply nth_error_None in EX; lia].
      assert (FT : fit (x, ss)). { rewrite Forall_forall in X4. apply X4. eapply nth_error_In. exact EX. }
      rewrite (skipn_nth _ XS t _ EX) in HA, HM. cbn [flat_map snd] in HA. unfold arrays in HM. cbn [flat_map fst snd] in HM. fold (arrays (skipn (S t) XS)) in HM.
      unfold bf in HM. gp HM. fold bf in HM.
      front HM ns. rewrite (num_ok _ _ ns _ t (len ss) HM (or_introl eq_refl)) by (unfold sizes; rewrite nth_error_map, EX; reflexivity). cbn [bind].
      assert (EP : nth_error (pointers_to XS) t = Some (P x)) by (unfold pointers_to; rewrite nth_error_map, EX; reflexivity).
      destruct x as [x|].
      * cbn [app] in HM.
        match type of HM with heap_is ?M ?F =>
          eapply (heap_perm M F ((st, pointers_to XS) :: (x, ptrs ss) :: ((file, bf) :: (d, bd) :: (ns, sizes XS) :: arrays (skipn (S t) XS) ++ f) ++ gs')) in HM; [|cbn [app]; rewrite <- !app_assoc; perm] end.
        destruct (free_row mt _ st _ x ss gs' _ t HM HA EP) as (mu & g2 & E2 & A2 & H2). rewrite E2. cbn [bind].
        rewrite (ptr_ok mu _ st _ t (Some x) H2 (or_introl eq_refl) EP). cbn [bind]. front H2 x. destruct (free_ok _ _ x _ H2) as (mw & E3 & H3 & _).
        exists mw. split; [exact E3|]. exists g2. split; [exact A2|]. eapply heap_perm; [|exact H3]. cbn [app]. rewrite <- !app_assoc. perm.
      * assert (ss = []) by (apply FT; reflexivity). subst ss. cbn [List.length for_up loop_up Nat.sub bind app] in *. front HM st.
        rewrite (ptr_ok mt _ st _ t None HM (or_introl eq_refl) EP). cbn [bind free]. exists mt. split; [reflexivity|]. exists gs'. split; [exact HA|].
        eapply heap_perm; [|exact HM]. perm.
    + rewrite E. cbn [bind]. rewrite <- X3 in HA, HH. rewrite skipn_all in HA, HH. rewrite (addresses_nil _ HA) in HH. cbn [arrays flat_map app] in HH. clear H E. rename HH into H.
      fr H. unfold bf in H. gp H. fr H. gp H. fr H. front H file. destruct (free_ok _ _ file _ H) as (mu & E & H2 & _). exists mu. split; [exact E|exact H2].
Qed.

Lemma analyse_file_ok : forall m f file nm bn df df' r, analyse_data_file df = Ok (df', r) -> (0 <= r)%Z ->
  heap_is m ((file, [P (Some nm); P None; P None; N 0; P None; P None]) :: (nm, bn) :: f) ->
  exists m' g, mem_analyse_data_file m (Some file) df = Ok (m', df', r) /\ dfile file g /\ heap_is m' (g ++ f) /\
    len (f_datarows df') = f_ndatarows df'.
Proof.
  intros m f file nm bn df df' r E HR H. unfold analyse_data_file in E. step E nd Q1. destruct nd as (nd, ll). step E o Q2.
  destruct o as [p|]; [|injection E as <- <-; lia]. injection E as <- <-.
  unfold mem_analyse_data_file. rewrite Q1. cbn [bind]. al H. rename a into d. unfold F_datarows. st H.
  destruct (analyse_loop_ok _ _ ((nm, bn) :: (d, repeat (N 0) nd) :: f) file nm d _ _ _ None p Q2
              ltac:(apply Unheaded; [reflexivity| |eapply heap_perm; [|exact H]; perm]; cbn [p_state]; destruct (f_first_line_labels df); lia))
    as (mw & sn & E1 & R1 & L1).
  rewrite E1. cbn [bind]. destruct (lists_to_arrays_ok _ _ _ _ _ _ _ _ _ R1) as (mu & g & E2 & D & H2). rewrite E2. cbn [bind].
  exists mu, g. split; [reflexivity|]. split; [exact D|]. split; [exact H2|]. cbn [f_datarows f_ndatarows]. rewrite L1. cbn [p_datarows]. apply repeat_length.
Qed.
