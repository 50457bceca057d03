(** * Proofs about families and observations (C55, C57) *)
From Coq Require Import Permutation String.
From Verif Require Import Base BaseProofs PotentialModel PotentialSpec PotentialProofs
  VariableModel VariableProofs JoinTreeModel
  AssignSpec AssignProofs JoinTreeSpec JoinTreeProofs JoinTreeProofs6 NipModel NipSpec NipProofs NipProofs3.
Import ListNotations.
Open Scope nat_scope.
Local Open Scope res_scope.

(** ** Families *)
Lemma C57_family_lemma : forall card m v, shape_ok card (m_jt m) -> v < length (m_vars m) ->
  family_known m v ->
  exists m' r, find_family m v = Ok (m', r) /\
    (match r with
     | Some k => k < length (cls (m_jt m)) /\ incl (v :: v_parents (var m v)) (c_vars (clq (m_jt m) k))
     | None => forall k, k < length (cls (m_jt m)) -> ~ incl (v :: v_parents (var m v)) (c_vars (clq (m_jt m) k))
     end) /\
    (forall m2 r2, find_family m' v = Ok (m2, r2) -> r2 = r) /\
    m_jt m' = m_jt m.
Proof.
  intros card m v HS Hv HK.
  assert (G : forall m0, m_jt m0 = m_jt m -> v < length (m_vars m0) ->
    v_parents (var m0 v) = v_parents (var m v) -> v_family (var m0 v) = None ->
    exists r, find_clique (m_jt m) (v_parents (var m v) ++ [v]) (length (v_parents (var m v)) + 1) = Ok r /\
      find_family m0 v = Ok (putv m0 v (set_family (var m0 v) r), r)).
  { intros m0 E0 H0 P0 F0. unfold find_family. rewrite rd_var by auto. cbn [bind]. rewrite F0, P0, E0.
    set (ps := v_parents (var m v)) in *.
    match goal with |- context [for_up 0 ?n ?b ?s] =>
      destruct (for_up_inv (list nat) (fun k l => length l = n + 1 /\ firstn k l = firstn k ps) b 0 n s)
        as (l & E & HL & HE) end.
    { lia. }
    { split; auto. apply repeat_length. }
    { intros i l Hi (HL & HE). rewrite (rd_ok _ ps i 0) by lia. cbn [bind]. rewrite wr_ok by lia.
      eexists. split; [reflexivity|]. split; [now rewrite set_nth_length|].
      rewrite (firstn_S_nth _ _ i 0) by (rewrite set_nth_length; lia).
      rewrite (firstn_S_nth _ ps i 0) by lia. rewrite nth_set_nth_eq by lia. f_equal.
      rewrite <- HE. apply (list_ext_nth _ 0).
      - rewrite !firstn_length, set_nth_length. lia.
      - intros j Hj. rewrite firstn_length, set_nth_length in Hj.
        rewrite !nth_firstn_lt by lia. rewrite nth_set_nth by lia. destruct (Nat.eqb_spec j i); auto; lia. }
    rewrite E. cbn [bind]. rewrite wr_ok by lia. cbn [bind].
    assert (Efam : set_nth l (length ps) v = ps ++ [v]).
    { apply (list_ext_nth _ 0).
      - rewrite set_nth_length, app_length. simpl. lia.
      - intros j Hj. rewrite set_nth_length in Hj. rewrite nth_set_nth by lia.
        destruct (Nat.eqb_spec j (length ps)) as [->|].
        + rewrite app_nth2 by lia. now rewrite Nat.sub_diag.
        + rewrite app_nth1 by lia. rewrite <- (nth_firstn_lt _ l (length ps)) by lia.
          rewrite HE. now rewrite nth_firstn_lt by lia. }
    rewrite Efam.
    destruct (find_clique_ok card (m_jt m) (ps ++ [v]) HS) as (r & Er & _).
    rewrite app_length in Er. simpl in Er. rewrite Er. cbn [bind].
    rewrite put_var_ok by auto. cbn [bind]. exists r. auto. }
  destruct (v_family (var m v)) as [k|] eqn:EF.
  - unfold find_family. rewrite rd_var by auto. cbn [bind]. rewrite EF.
    exists m, (Some k). split; auto. split; [now apply HK|]. split; auto.
    intros m2 r2 E2. rewrite rd_var in E2 by auto. cbn [bind] in E2. rewrite EF in E2. now inversion E2.
  - destruct (G m eq_refl Hv eq_refl EF) as (r & Er & E). rewrite E.
    exists (putv m v (set_family (var m v) r)), r. split; auto.
    destruct (find_clique_ok card (m_jt m) (v_parents (var m v) ++ [v]) HS) as (r' & Er' & Hr).
    rewrite app_length in Er'. simpl in Er'. rewrite Er in Er'. inversion Er'; subst r'.
    assert (IC : forall X, incl (v_parents (var m v) ++ [v]) X <-> incl (v :: v_parents (var m v)) X).
    { intros X. split; intros H y Hy; apply H.
      - destruct Hy as [<-|Hy]; apply in_or_app; simpl; auto.
      - apply in_app_or in Hy. simpl in *. tauto. }
    split. { destruct r as [k|].
      - destruct Hr as (A & B & _). split; auto. now apply IC.
      - intros k Hk K. apply (Hr k Hk). now apply IC. }
    split; auto. intros m2 r2 E2.
    set (m1 := putv m v (set_family (var m v) r)) in *.
    assert (V1 : var m1 v = set_family (var m v) r).
    { unfold m1. rewrite var_putv by auto. now rewrite Nat.eqb_refl. }
    assert (L1 : length (m_vars m1) = length (m_vars m)) by apply putv_len.
    destruct r as [k|].
    + unfold find_family in E2. rewrite rd_var in E2 by lia. cbn [bind] in E2. rewrite V1 in E2.
      cbn [v_family set_family] in E2. now inversion E2.
    + destruct (G m1 eq_refl) as (r' & Er1 & E3); [lia|rewrite V1; reflexivity|rewrite V1; reflexivity|].
      rewrite E3 in E2. inversion E2; subst. congruence.
Qed.

(** ** Positions of the family in its clique *)
Lemma memb_firstn_S : forall x (l : list nat) i, i < length l ->
  memb x (firstn (S i) l) = (memb x (firstn i l) || Nat.eqb (nth i l 0) x)%bool.
Proof.
  intros x l i Hi. rewrite (firstn_S_nth _ l i 0) by auto. apply eq_true_iff_eq.
  rewrite orb_true_iff, !memb_in, in_app_iff. simpl. rewrite Nat.eqb_eq. intuition.
Qed.

Lemma filter_full : forall (f : nat -> bool) l, length (filter f l) = length l ->
  forall x, In x l -> f x = true.
Proof.
  intros f l. assert (FL : forall l, length (filter f l) <= length l).
  { intros l0. induction l0; simpl; auto. destruct (f a); simpl; lia. }
  induction l as [|y l IH]; intros H x Hx; [contradiction|]. simpl in *.
  destruct (f y) eqn:M.
  - destruct Hx as [<-|Hx]; auto.
  - specialize (FL l). lia.
Qed.

Lemma count_new : forall (C : list nat) i ps, i < length C -> NoDup ps -> In (nth i C 0) ps ->
  memb (nth i C 0) (firstn i C) = false ->
  length (filter (fun x => memb x (firstn i C)) ps) + 1 =
  length (filter (fun x => memb x (firstn (S i) C)) ps).
Proof.
  intros C i ps Hi NP Hin Hno. induction ps as [|y l IH]; [contradiction|].
  inversion NP as [|? ? N1 N2]; subst. cbn [filter]. rewrite memb_firstn_S by lia.
  destruct (Nat.eq_dec (nth i C 0) y) as [Ey|Ny].
  - rewrite Ey, Nat.eqb_refl, orb_true_r. rewrite Ey in Hno. rewrite Hno. cbn [length].
    rewrite Nat.add_1_r. f_equal. f_equal. apply filter_ext_in. intros x Hx.
    rewrite memb_firstn_S by lia. destruct (Nat.eqb_spec (nth i C 0) x); [congruence|].
    now rewrite orb_false_r.
  - destruct Hin as [K|Hin]; [congruence|].
    destruct (Nat.eqb_spec (nth i C 0) y); [congruence|]. rewrite orb_false_r.
    destruct (memb y (firstn i C)); cbn [length]; rewrite <- IH; auto.
Qed.

Lemma C57_mapping_lemma : forall card m c v, shape_ok card (m_jt m) -> v < length (m_vars m) ->
  c < length (cls (m_jt m)) -> v_fmap (var m v) = None ->
  incl (v :: v_parents (var m v)) (c_vars (clq (m_jt m) c)) -> NoDup (v :: v_parents (var m v)) ->
  exists m' r, find_family_mapping m c v = Ok (m', r) /\
    Forall (fun i => i < length (c_vars (clq (m_jt m) c))) r /\
    map (fun i => nth i (c_vars (clq (m_jt m) c)) 0) r = v :: v_parents (var m v) /\
    find_family_mapping m' c v = Ok (m', r).
Proof.
  intros card m c v HS Hv Hc HF HI HN. unfold find_family_mapping.
  rewrite rd_var by auto. cbn [bind]. rewrite HF. rewrite rd_clq by auto. cbn [bind].
  set (ps := v_parents (var m v)) in *. set (C := c_vars (clq (m_jt m) c)) in *.
  assert (T := shape_clq card _ c HS Hc). assert (Ld := table_dim card _ _ T). fold C in Ld.
  assert (NC : NoDup C) by apply T. rewrite Ld.
  destruct (search_ok v C (length C) (fun i => let* y := rd C i in Ok (equal_variables y v))) as (f & Ef & Hf).
  { auto. }
  { intros j Hj. rewrite (rd_ok _ C j 0) by auto. cbn [bind]. unfold equal_variables. now rewrite Nat.eqb_sym. }
  rewrite Ef. cbn [bind]. rewrite firstn_all in Hf.
  destruct f as [i0|].
  2: { exfalso. apply memb_notin in Hf. apply Hf. apply HI. simpl; auto. }
  destruct Hf as (F1 & F2 & _). rewrite wr_ok by (rewrite repeat_length; lia). cbn [bind].
  set (r0 := set_nth (repeat 0 (length ps + 1)) 0 i0).
  assert (L0 : length r0 = length ps + 1) by (unfold r0; now rewrite set_nth_length, repeat_length).
  assert (R0 : nth 0 r0 0 = i0).
  { unfold r0. rewrite nth_set_nth_eq by (rewrite repeat_length; lia). auto. }
  assert (FIN : forall r, length r = length ps + 1 -> nth 0 r 0 = i0 ->
     (forall j, j < length ps -> nth (j + 1) r 0 < length C /\ nth (nth (j + 1) r 0) C 0 = nth j ps 0) ->
     Forall (fun i => i < length C) r /\ map (fun i => nth i C 0) r = v :: ps).
  { intros r Lr Hr0 Hr. split.
    - apply Forall_forall. intros x Hx. apply (In_nth _ _ 0) in Hx. destruct Hx as (j & Hj & <-).
      destruct j as [|j]; [lia|]. replace (S j) with (j + 1) by lia. apply Hr. lia.
    - apply (list_ext_nth _ 0).
      + rewrite map_length. simpl. lia.
      + intros j Hj. rewrite map_length in Hj. rewrite (nth_map _ _ _ _ _ 0) by auto.
        destruct j as [|j]; [simpl; congruence|]. replace (S j) with (j + 1) at 1 by lia.
        destruct (Hr j) as (_ & ->); [lia|]. reflexivity. }
  assert (RES : exists r, (if Nat.ltb 1 (length ps + 1) then
          let n := length ps + 1 - 1 in
          let* (r, _) :=
            for_up 0 (length C)
              (fun i '(r, p) =>
                 if Nat.eqb p n then Ok (r, p)
                 else
                   let* y := rd C i in
                   let* f := find_up 0 n
                     (fun j => let* pj := rd ps j in Ok (equal_variables y pj)) in
                   match f with
                   | Some j => let* r := wr r (j + 1) i in Ok (r, p + 1)
                   | None => Ok (r, p)
                   end)
              (r0, 0) in
          Ok r
        else Ok r0) = Ok r /\ Forall (fun i => i < length C) r /\ map (fun i => nth i C 0) r = v :: ps).
  { destruct (Nat.ltb_spec 1 (length ps + 1)) as [Hn|Hn].
    - cbv zeta. replace (length ps + 1 - 1) with (length ps) by lia.
      assert (NP : NoDup ps) by (now inversion HN).
      match goal with |- context [for_up 0 ?n ?b ?s] =>
        destruct (for_up_inv (list nat * nat) (fun i '(r, p) =>
           length r = length ps + 1 /\ nth 0 r 0 = i0 /\
           p = length (filter (fun x => memb x (firstn i C)) ps) /\
           forall j, j < length ps -> memb (nth j ps 0) (firstn i C) = true ->
             nth (j + 1) r 0 < length C /\ nth (nth (j + 1) r 0) C 0 = nth j ps 0) b 0 n s)
          as ((r & p) & E & HL & H0 & _ & HE) end.
      { lia. }
      { split; auto. split; auto. split.
        - rewrite filter_all_false; auto.
        - intros j _ H. discriminate. }
      { intros i (r & p) Hi (HL & H0 & HP & HE).
        assert (CNT := fun i => filter_full (fun x => memb x (firstn i C)) ps).
        destruct (Nat.eqb_spec p (length ps)) as [Ep|Np].
        - exists (r, p). split; [reflexivity|]. split; auto. split; auto.
          assert (ALL : forall x, In x ps -> memb x (firstn i C) = true) by (apply CNT; congruence).
          split.
          + rewrite HP. f_equal. apply filter_ext_in. intros x Hx. rewrite memb_firstn_S by lia.
            now rewrite ALL.
          + intros j Hj _. apply HE; auto. apply ALL. now apply nth_In.
        - rewrite (rd_ok _ C i 0) by lia. cbn [bind].
          destruct (search_ok (nth i C 0) ps (length ps)
             (fun j => let* pj := rd ps j in Ok (equal_variables (nth i C 0) pj))) as (f & Ef' & Hf).
          { auto. } { intros j Hj. rewrite (rd_ok _ ps j 0) by auto. reflexivity. }
          rewrite Ef'. cbn [bind]. rewrite firstn_all in Hf. destruct f as [j|].
          + destruct Hf as (Hj & Ej & _). rewrite wr_ok by lia. cbn [bind].
            eexists. split; [reflexivity|]. split; [now rewrite set_nth_length|].
            split. { rewrite nth_set_nth by lia. destruct (Nat.eqb_spec 0 (j + 1)); [lia|auto]. }
            split.
            * rewrite HP.
              assert (Hin : In (nth i C 0) ps) by (rewrite <- Ej; now apply nth_In).
              assert (Hno : memb (nth i C 0) (firstn i C) = false).
              { apply memb_notin. intros K. apply (In_nth _ _ 0) in K. destruct K as (q & Hq & K).
                rewrite firstn_length in Hq. rewrite nth_firstn_lt in K by lia.
                assert (q = i); [|lia]. apply (proj1 (NoDup_nth C 0) NC); auto; lia. }
              apply count_new; auto; lia.
            * intros q Hq Hm. rewrite nth_set_nth by lia. destruct (Nat.eqb_spec (q + 1) (j + 1)).
              -- assert (q = j) by lia. subst q. split; [lia|]. auto.
              -- apply HE; auto. rewrite memb_firstn_S in Hm by lia. apply orb_prop in Hm.
                 destruct Hm as [Hm|Hm]; auto. exfalso. apply Nat.eqb_eq in Hm.
                 assert (q = j); [|lia]. eapply (proj1 (NoDup_nth ps 0) NP); try lia. 
          + eexists. split; [reflexivity|]. split; auto. split; auto. apply memb_notin in Hf. split.
            * rewrite HP. f_equal. apply filter_ext_in. intros x Hx. rewrite memb_firstn_S by lia.
              destruct (Nat.eqb_spec (nth i C 0) x); [congruence|]. now rewrite orb_false_r.
            * intros q Hq Hm. apply HE; auto. rewrite memb_firstn_S in Hm by lia. apply orb_prop in Hm.
              destruct Hm as [Hm|Hm]; auto. exfalso. apply Nat.eqb_eq in Hm. apply Hf. rewrite Hm. now apply nth_In. }
      rewrite E. cbn [bind]. exists r. split; auto. apply FIN; auto.
      intros j Hj. apply HE; auto. apply memb_in. rewrite firstn_all. apply HI. right. now apply nth_In.
    - exists r0. split; auto. apply FIN; auto. intros j Hj. lia. }
  destruct RES as (r & Er & R1 & R2). cbv zeta in Er. cbv zeta. rewrite Er. cbn [bind].
  rewrite put_var_ok by auto. cbn [bind].
  exists (putv m v (set_fmap (var m v) (Some r))), r. split; auto. split; auto. split; auto.
  rewrite rd_var by (rewrite putv_len; auto). cbn [bind]. rewrite var_putv by auto. rewrite Nat.eqb_refl. reflexivity.
Qed.

(** ** Observations *)
Lemma column_of_ok : forall vars v, exists r, column_of vars v = Ok r /\
  match r with
  | Some j => j < length vars /\ nth j vars 0 = v
  | None => ~ In v vars
  end.
Proof.
  intros vars v. unfold column_of.
  match goal with |- context [for_up 0 ?n ?b ?s] =>
    destruct (for_up_inv (option nat) (fun i r => match r with
      | Some j => j < i /\ nth j vars 0 = v
      | None => ~ In v (firstn i vars) end) b 0 n s) as (r & E & H) end.
  { lia. } { simpl. auto. }
  { intros i r Hi H. rewrite (rd_ok _ vars i 0) by lia. cbn [bind]. eexists. split; [reflexivity|].
    unfold equal_variables. destruct (Nat.eqb_spec v (nth i vars 0)) as [->|N]; [split; auto|].
    destruct r as [j|].
    - destruct H. split; auto.
    - rewrite (firstn_S_nth _ vars i 0) by lia. rewrite in_app_iff. simpl. intuition. }
  exists r. split; auto. destruct r; auto. now rewrite firstn_all in H.
Qed.
Lemma column_of_nodup : forall vars j, NoDup vars -> j < length vars ->
  column_of vars (nth j vars 0) = Ok (Some j).
Proof.
  intros vars j HN Hj. destruct (column_of_ok vars (nth j vars 0)) as (r & E & H). rewrite E.
  destruct r as [i|].
  - destruct H. do 2 f_equal. eapply (proj1 (NoDup_nth vars 0) HN); auto.
  - exfalso. apply H. now apply nth_In.
Qed.

Lemma C55_set_lemma : forall card m names ts v nv t s i,
  names_ok card m names -> nth_error names v = Some nv ->
  NoDup (ts_observed ts) -> In v (ts_observed ts) ->
  t < length (ts_data ts) ->
  Forall (fun row => length row = length (ts_observed ts)) (ts_data ts) ->
  position s (states_of nv) = Some i ->
  exists ts', set_observation names ts v (Z.of_nat t) s = Ok (ts', NO_ERROR) /\
    get_observation names ts' v (Z.of_nat t) = Ok (Some s) /\
    ts_observed ts' = ts_observed ts /\ length (ts_data ts') = length (ts_data ts) /\
    Forall (fun row => length row = length (ts_observed ts)) (ts_data ts') /\
    forall t' j, t' < length (ts_data ts) -> j < length (ts_observed ts) ->
      entry ts' t' j = if Nat.eqb t' t && Nat.eqb (nth j (ts_observed ts) 0) v
                       then Z.of_nat i else entry ts t' j.
Proof.
  intros card m names ts v nv t s i HN Hnv ND Hv Ht HR HP.
  apply (In_nth _ _ 0) in Hv. destruct Hv as (j & Hj & <-). set (v := nth j (ts_observed ts) 0) in *.
  assert (Rn : rd names v = Ok nv) by (unfold rd; now rewrite Hnv).
  unfold set_observation. unfold v at 1. rewrite column_of_nodup by auto. cbn [bind].
  rewrite Rn. cbn [bind].
  rewrite (state_index_position card m names v nv s HN Hnv). rewrite HP. cbn [bind].
  destruct (Z.ltb_spec (Z.of_nat i) 0); [lia|]. destruct (Z.ltb_spec (Z.of_nat t) 0); [lia|].
  rewrite Nat2Z.id. rewrite (rd_ok _ (ts_data ts) t []) by auto. cbn [bind].
  assert (LR : forall q, q < length (ts_data ts) -> length (nth q (ts_data ts) []) = length (ts_observed ts)).
  { intros q Hq. rewrite Forall_forall in HR. apply HR. now apply nth_In. }
  rewrite wr_ok by (rewrite LR; auto). cbn [bind]. rewrite wr_ok by auto. cbn [bind].
  set (row := set_nth (nth t (ts_data ts) []) j (Z.of_nat i)).
  eexists. split; [reflexivity|]. split; [|split; [|split; [|split]]]; cbn [ts_observed ts_data].
  - unfold get_observation. cbn [ts_observed ts_data]. unfold v at 1. rewrite column_of_nodup by auto. cbn [bind].
    rewrite set_nth_length. destruct (Z.ltb_spec (Z.of_nat t) 0); [lia|].
    destruct (Z.leb_spec (Z.of_nat (length (ts_data ts))) (Z.of_nat t)); [lia|]. cbn [orb].
    rewrite Rn. cbn [bind]. rewrite Nat2Z.id.
    rewrite (rd_ok _ _ t []) by (rewrite set_nth_length; auto). cbn [bind].
    rewrite nth_set_nth_eq by auto.
    unfold row. rewrite (rd_ok _ _ j 0%Z) by (rewrite set_nth_length, LR; auto). cbn [bind].
    rewrite nth_set_nth_eq by (rewrite LR; auto).
    destruct HN as (_ & HN). destruct (HN v nv Hnv) as (_ & _ & (l & El & Ll)).
    unfold states_of in HP. rewrite El in *. destruct (Z.ltb_spec (Z.of_nat i) 0); [lia|].
    rewrite Nat2Z.id. assert (P := position_spec s l). rewrite HP in P. destruct P as (P1 & P2 & _).
    rewrite (rd_ok _ l i EmptyString) by auto. cbn [bind]. now rewrite P2.
  - reflexivity.
  - apply set_nth_length.
  - apply Forall_forall. intros r Hr. apply (In_nth _ _ []) in Hr. destruct Hr as (q & Hq & <-).
    rewrite set_nth_length in Hq. rewrite nth_set_nth by auto. destruct (Nat.eqb_spec q t) as [->|]; auto.
    unfold row. rewrite set_nth_length. auto.
  - intros t' j' Ht' Hj'. unfold entry. cbn [ts_data]. rewrite nth_set_nth by auto.
    destruct (Nat.eqb_spec t' t) as [->|]; cbn [andb]; auto.
    unfold row. rewrite nth_set_nth by (rewrite LR; auto).
    destruct (Nat.eqb_spec j' j) as [E|N]; destruct (Nat.eqb_spec (nth j' (ts_observed ts) 0) v) as [E2|E2]; auto.
    { exfalso. apply E2. unfold v. now rewrite E. }
    exfalso. apply N. eapply (proj1 (NoDup_nth (ts_observed ts) 0) ND); auto.
Qed.

Lemma C55_reject_lemma : forall card m names ts v nv t s,
  names_ok card m names -> nth_error names v = Some nv ->
  ~ In v (ts_observed ts) \/ ~ In s (states_of nv) ->
  set_observation names ts v t s = Ok (ts, EINVAL).
Proof.
  intros card m names ts v nv t s HN Hnv H. unfold set_observation.
  destruct (column_of_ok (ts_observed ts) v) as (r & E & Hr). rewrite E. cbn [bind].
  assert (Rn : rd names v = Ok nv) by (unfold rd; now rewrite Hnv). rewrite Rn. cbn [bind].
  rewrite (state_index_position card m names v nv s HN Hnv). cbn [bind].
  destruct r as [j|]; auto.
  assert (P := position_spec s (states_of nv)). destruct (position s (states_of nv)) as [i|]; [|reflexivity].
  exfalso. destruct Hr as (R1 & R2), P as (P1 & P2 & _). destruct H as [H|H]; apply H.
  - rewrite <- R2. now apply nth_In.
  - rewrite <- P2. now apply nth_In.
Qed.

Lemma C55_get_reject_lemma : forall names ts v t,
  ~ In v (ts_observed ts) \/ (t < 0)%Z \/ (Z.of_nat (length (ts_data ts)) <= t)%Z ->
  get_observation names ts v t = Ok None.
Proof.
  intros names ts v t H. unfold get_observation.
  destruct (column_of_ok (ts_observed ts) v) as (r & E & Hr). rewrite E. cbn [bind].
  destruct r as [j|]; auto. destruct Hr as (R1 & R2).
  assert (H' : (t < 0)%Z \/ (Z.of_nat (length (ts_data ts)) <= t)%Z).
  { destruct H as [H|H]; auto. exfalso. apply H. rewrite <- R2. now apply nth_In. }
  destruct (Z.ltb_spec t 0); [reflexivity|]. destruct (Z.leb_spec (Z.of_nat (length (ts_data ts))) t); [reflexivity|lia].
Qed.

(** Known defects: writing past the end of the series, reading a missing
    value. *)
Lemma C55_time_lemma : forall card m names ts v nv t s,
  names_ok card m names -> nth_error names v = Some nv ->
  In v (ts_observed ts) -> In s (states_of nv) ->
  (t < 0)%Z \/ (Z.of_nat (length (ts_data ts)) <= t)%Z ->
  set_observation names ts v t s = UB.
Proof.
  intros card m names ts v nv t s HN Hnv Hv Hs Ht. unfold set_observation.
  destruct (column_of_ok (ts_observed ts) v) as (r & E & Hr). rewrite E. cbn [bind].
  assert (Rn : rd names v = Ok nv) by (unfold rd; now rewrite Hnv). rewrite Rn. cbn [bind].
  rewrite (state_index_position card m names v nv s HN Hnv). cbn [bind].
  destruct r as [j|]; [|contradiction].
  assert (P := position_spec s (states_of nv)). destruct (position s (states_of nv)) as [i|]; [|contradiction].
  destruct (Z.ltb_spec (Z.of_nat i) 0); [lia|]. destruct (Z.ltb_spec t 0); auto.
  unfold rd. rewrite (proj2 (nth_error_None (ts_data ts) (Z.to_nat t))) by lia. reflexivity.
Qed.
Lemma C55_missing_lemma : forall card m names ts v nv t j,
  names_ok card m names -> nth_error names v = Some nv ->
  NoDup (ts_observed ts) -> j < length (ts_observed ts) -> nth j (ts_observed ts) 0 = v ->
  t < length (ts_data ts) -> length (nth t (ts_data ts) []) = length (ts_observed ts) ->
  (entry ts t j < 0)%Z ->
  get_observation names ts v (Z.of_nat t) = UB.
Proof.
  intros card m names ts v nv t j HN Hnv ND Hj Ev Ht HL HE. unfold get_observation.
  rewrite <- Ev at 1. rewrite column_of_nodup by auto. cbn [bind].
  destruct (Z.ltb_spec (Z.of_nat t) 0); [lia|].
  destruct (Z.leb_spec (Z.of_nat (length (ts_data ts))) (Z.of_nat t)); [lia|]. cbn [orb].
  assert (Rn : rd names v = Ok nv) by (unfold rd; now rewrite Hnv). rewrite Rn. cbn [bind].
  rewrite Nat2Z.id. rewrite (rd_ok _ _ t []) by auto. cbn [bind].
  rewrite (rd_ok _ _ j 0%Z) by lia. cbn [bind]. fold (entry ts t j).
  destruct HN as (_ & HN). destruct (HN v nv Hnv) as (_ & _ & (l & El & Ll)). rewrite El.
  destruct (Z.ltb_spec (entry ts t j) 0); [reflexivity|lia].
Qed.

(** Entries of an uncertain series. *)
Lemma C55_posterior_lemma : forall ucs j t, NoDup (ucs_variables ucs) -> j < length (ucs_variables ucs) ->
  t < length (ucs_data ucs) -> length (nth t (ucs_data ucs) []) = length (ucs_variables ucs) ->
  get_posterior ucs (nth j (ucs_variables ucs) 0) (Z.of_nat t) = Ok (Some (nth j (nth t (ucs_data ucs) []) [])).
Proof.
  intros ucs j t ND Hj Ht HL. unfold get_posterior. rewrite column_of_nodup by auto. cbn [bind].
  destruct (Z.ltb_spec (Z.of_nat t) 0); [lia|].
  destruct (Z.leb_spec (Z.of_nat (length (ucs_data ucs))) (Z.of_nat t)); [lia|]. cbn [orb].
  rewrite Nat2Z.id. rewrite (rd_ok _ _ t []) by auto. cbn [bind]. now rewrite (rd_ok _ _ j []) by lia.
Qed.
