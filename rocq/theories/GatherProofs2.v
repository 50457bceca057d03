(** * Proofs about get_joint_probability (C39), continued *)
From Coq Require Import Permutation Field.
From Verif Require Import Base BaseProofs PotentialModel PotentialSpec PotentialProofs PotentialProofs2 PotentialProofs3
  VariableModel VariableProofs JoinTreeModel
  AssignSpec AssignProofs JoinTreeSpec JoinTreeProofs JoinTreeProofs2 JoinTreeProofs3 JoinTreeProofs4 JoinTreeProofs5 JoinTreeProofs6 JoinTreeProofs7
  NipModel NipSpec NipProofs NipProofs2 NipProofs3 GatherModel GatherProofs.
Import ListNotations.
Open Scope nat_scope.
Local Open Scope res_scope.
Add Field Qcfield_gather2 : Qcft.

Lemma cardm_card : forall card m v, model_ok card m -> v < length (m_vars m) -> cardm m v = card v.
Proof.
  intros card m v HM Hv. unfold cardm. destruct (mo_var _ _ HM v Hv) as (E & _). rewrite <- E. unfold var.
  destruct (nth_error (m_vars m) v) eqn:N.
  - now rewrite (nth_error_nth _ _ _ N).
  - apply nth_error_None in N. lia.
Qed.
Lemma cardm_pos : forall card m v, model_ok card m -> 0 < cardm m v.
Proof.
  intros card m v HM. destruct (Nat.lt_ge_cases v (length (m_vars m))) as [H|H].
  - rewrite (cardm_card card) by auto. apply (mo_shape _ _ HM).
  - unfold cardm. rewrite (proj2 (nth_error_None _ _)) by auto. lia.
Qed.

(** ** More than one clique: no table is ever returned *)
Lemma nz_incl_filter : forall a b, incl (filter (fun x => memb x b) a) b.
Proof. intros a b x H. apply filter_In in H. now apply memb_in. Qed.

Lemma new_in_nil : forall a b, incl b a -> new_in a b = [].
Proof.
  intros a b H. unfold new_in. apply filter_all_false. intros x Hx. apply H in Hx.
  apply memb_in in Hx. now rewrite Hx.
Qed.

Lemma gather_stuck : forall card cm jt c vars fuel jt' p, shape_ok card jt -> c < length (cls jt) ->
  (forall v, 0 < cm v) -> NoDup vars -> vars <> [] ->
  (forall i, i < length (cls jt) -> i <> c -> c_mark (clq jt i) = false) ->
  c_sepsets (clq jt c) <> [] ->
  gather_joint_probability fuel cm jt c vars [] <> Ok (jt', Some p).
Proof.
  intros card cm jt c vars fuel jt' p HS Hc HP ND HV HM HN H.
  destruct fuel as [|f]; [discriminate|]. cbn [gather_joint_probability] in H.
  assert (LV : 0 < length vars) by (destruct vars; [congruence|simpl; lia]).
  destruct (Nat.eqb_spec (length vars) 0) as [N|_]; [lia|].
  rewrite rd_clq in H by auto. cbn [bind] in H. rewrite mark_clique_ok in H by auto. cbn [bind] in H.
  set (j1 := mk jt c) in *. set (C := c_vars (clq jt c)) in *.
  assert (T := shape_clq card _ c HS Hc). assert (TD := table_dim card _ _ T). fold C in TD.
  assert (NC : NoDup C) by apply T.
  assert (CN : C <> []) by (destruct HS as (_ & HS & _); apply (HS c Hc)).
  rewrite TD in H. rewrite (arr_some vars), (arr_some C) in H by auto.
  rewrite union_ok in H by (auto; lia). cbn [bind] in H.
  set (pv := vars ++ new_in vars C) in *. rewrite Nat2Z.id in H.
  inv_as H ca E2. inv_as H pr0 E3. destruct pr0 as [pr|]; [|discriminate].
  assert (SZ : 0 < size_of_data pr).
  { apply new_potential_dims in E3. apply E3. intros i Hi.
    assert (G : length ca = length pv /\ forall j, j < length pv -> 0 < nth j ca 0).
    { apply (for_up_back _ (fun i l => length l = length pv /\ forall j, j < i -> 0 < nth j l 0)) in E2; auto; try lia.
      - split; [apply repeat_length|lia].
      - intros q l l' Hq (L & G) Eb. inv_as Eb w Ew. rewrite wr_ok in Eb by lia. inversion Eb; subst.
        split; [now rewrite set_nth_length|]. intros j Hj. rewrite nth_set_nth by lia.
        destruct (Nat.eqb_spec j q); auto. apply G. lia. }
    apply G; auto. }
  inv_as H mp0 E4. destruct mp0 as [mp|]; [|discriminate]. inv_as H pe E5. destruct pe as (pr1 & e1).
  apply update_potential_dims in E5. destruct E5 as (_ & D1).
  destruct (is_err e1); [discriminate|].
  destruct (c_sepsets (clq jt c)) as [|s ss] eqn:ES; [congruence|].
  assert (Hs : In s (c_sepsets (clq jt c))) by (rewrite ES; simpl; auto).
  assert (HSc := HS). destruct HSc as (_ & HSc & HSs).
  apply (HSc c Hc) in Hs. destruct Hs as (Ls & Hinc).
  destruct (HSs s Ls) as (_ & TS & F1 & F2 & F12 & _).
  assert (ERR : forall st e,
     (let* sp := rd (sps j1) s in
     each [s_first sp; s_second sp]
       (fun c0 '(jt, prod) =>
          let* marked := clique_marked jt c0 in
          if (marked : bool) then Ok ((jt, prod), NO_ERROR)
          else
            let* mp := mapper (Some pv) (arr (s_vars sp)) (length pv) (dimensionality (s_new sp)) in
            let* (prod, err) := update_potential None (Some (s_new sp)) prod (unarr mp) in
            if is_err err then Ok ((jt, prod), err)
            else
              let* (mi, nmi) := variable_isect (arr (s_vars sp)) (Some vars) (dimensionality (s_new sp)) (length vars) in
              match mi with
              | None => Ok ((jt, prod), ENOMEM)
              | Some mi =>
                  let* (jt, msg) := gather_joint_probability f cm jt c0 vars mi in
                  let* (mv, nm) := variable_union (Some vars) (arr mi) (length vars) (Z.to_nat nmi) in
                  let* mp := mapper (Some pv) mv (length pv) (Z.to_nat nm) in
                  let* (prod, err) := update_potential msg None prod (unarr mp) in
                  Ok ((jt, prod), err)
              end) (j1, pr1)) = Ok (st, e) -> is_err e = true).
  { intros st e E. change (sps j1) with (sps jt) in E. rewrite rd_sep in E by auto. cbn [bind] in E.
    assert (BODY : forall j q c0 st e, c0 < length (cls j) -> c_mark (clq j c0) = false ->
       0 < size_of_data q ->
       (let* marked := clique_marked j c0 in
          if (marked : bool) then Ok ((j, q), NO_ERROR)
          else
            let* mp := mapper (Some pv) (arr (s_vars (sep jt s))) (length pv) (dimensionality (s_new (sep jt s))) in
            let* (prod, err) := update_potential None (Some (s_new (sep jt s))) q (unarr mp) in
            if is_err err then Ok ((j, prod), err)
            else
              let* (mi, nmi) := variable_isect (arr (s_vars (sep jt s))) (Some vars) (dimensionality (s_new (sep jt s))) (length vars) in
              match mi with
              | None => Ok ((j, prod), ENOMEM)
              | Some mi =>
                  let* (jt, msg) := gather_joint_probability f cm j c0 vars mi in
                  let* (mv, nm) := variable_union (Some vars) (arr mi) (length vars) (Z.to_nat nmi) in
                  let* mp := mapper (Some pv) mv (length pv) (Z.to_nat nm) in
                  let* (prod, err) := update_potential msg None prod (unarr mp) in
                  Ok ((jt, prod), err)
              end) = Ok (st, e) -> is_err e = true).
    { clear - LV ND HV TS. intros j q c0 st e Hc0 Hmk Hq E. unfold clique_marked in E.
      rewrite rd_clq in E by auto. cbn [bind] in E. rewrite Hmk in E.
      inv_as E mp E1. inv_as E pe E2. destruct pe as (q1 & e1).
      apply update_potential_dims in E2. destruct E2 as (_ & Q1).
      destruct (is_err e1) eqn:EE; [now inversion E; subst|].
      assert (TD := table_dim card _ _ TS). rewrite TD in E.
      destruct (arr (s_vars (sep jt s))) as [sv|] eqn:EA.
      2: { destruct (s_vars (sep jt s)); [|discriminate]. simpl in E. now inversion E. }
      assert (sv = s_vars (sep jt s)) by (unfold arr in EA; destruct (s_vars (sep jt s)); [discriminate|congruence]).
      subst sv. rewrite isect_ok in E. cbn [bind] in E.
      set (mi := filter (fun x => memb x vars) (s_vars (sep jt s))) in *. cbv zeta in E.
      destruct mi as [|x mi'] eqn:EM; [now inversion E|]. rewrite <- EM in *.
      assert (MN : mi <> []) by congruence.
      assert (LM : 0 < length mi) by (rewrite EM; simpl; lia).
      inv_as E jm E3. destruct jm as (j3 & msg).
      rewrite arr_some in E by auto. rewrite Nat2Z.id in E.
      rewrite union_ok in E; [|lia|auto|apply NoDup_filter, TS]. cbn [bind] in E.
      rewrite new_in_nil in E by apply nz_incl_filter. rewrite app_nil_r, Nat2Z.id in E.
      inv_as E mq E4.
      assert (LQ : length (unarr mq) <= length vars).
      { unfold mapper in E4. destruct (Nat.ltb_spec (length vars) 1); [lia|].
        destruct (Nat.ltb_spec (length pv) (length vars)); [inversion E4; subst; simpl; lia|].
        inv_as E4 mz Ez. inversion E4; subst. cbn [unarr].
        apply (for_up_back _ (fun _ l => length l = length vars)) in Ez; [lia|lia|apply repeat_length|].
        intros i l l' _ Hl Eb. inv_as Eb o Eo. destruct o; [|now inversion Eb; subst].
        now rewrite (wr_len _ _ _ _ _ Eb). }
      inv_as E q3 E5. destruct q3 as (q2 & e2).
      destruct msg as [msg|].
      - exfalso. apply gather_dims in E3; auto.
        apply (update_short msg q1 (unarr mq) q2 e2); auto.
        + unfold dimensionality. lia.
        + lia.
      - simpl in E5. inversion E5; subst. now inversion E; subst. }
    assert (L1 : length (cls j1) = length (cls jt)) by (unfold j1, mk; cbn; apply set_nth_length).
    assert (MK : forall i, i < length (cls jt) -> c_mark (clq j1 i) = if Nat.eqb i c then true else false).
    { intros i Hi. unfold j1. rewrite mk_clq by auto. destruct (Nat.eqb_spec i c); auto. }
    cbn [each] in E.
    match type of E with (let* (_, _) := ?first in _) = _ =>
      assert (FST : first = Ok ((j1, pr1), NO_ERROR) \/
        (forall st e, first = Ok (st, e) -> is_err e = true)) end.
    { destruct (Nat.eq_dec (s_first (sep jt s)) c) as [Ef|Nf].
      - left. unfold clique_marked. rewrite rd_clq by lia. cbn [bind]. rewrite MK by lia.
        now rewrite Ef, Nat.eqb_refl.
      - right. intros st0 e0 E0. eapply BODY; [| | |exact E0]; try lia.
        rewrite MK by lia. destruct (Nat.eqb_spec (s_first (sep jt s)) c); congruence. }
    destruct FST as [FST|FST].
    - rewrite FST in E. cbn [bind is_err] in E.
      destruct (Nat.eq_dec (s_first (sep jt s)) c) as [Ef|Nf].
      + inv_as E r Er. destruct r as (st1 & e1').
        apply BODY in Er; try lia.
        * rewrite Er in E. inversion E; subst. auto.
        * rewrite MK by lia. destruct (Nat.eqb_spec (s_second (sep jt s)) c); congruence.
      + exfalso. apply BODY in FST; [discriminate|lia| |lia].
        rewrite MK by lia. destruct (Nat.eqb_spec (s_first (sep jt s)) c); congruence.
    - inv_as E r Er. destruct r as (st1 & e1'). specialize (FST _ _ eq_refl). rewrite FST in E. inversion E; now subst. }
  inv_as H r Er. destruct r as (st & e). destruct st as (j4 & pr4).
  cbn [each] in Er. inv_as Er r2 Er2. destruct r2 as (st2 & e2). apply ERR in Er2. rewrite Er2 in Er.
  inversion Er; subst. rewrite Er2 in H. discriminate.
Qed.

Lemma tree_sepset : forall jt, is_tree jt -> 2 <= length (cls jt) ->
  exists s, s < length (sps jt) /\ (s_first (sep jt s) = 0 \/ s_second (sep jt s) = 0).
Proof.
  intros jt (ns & es & HT & PN & PE) HL.
  assert (G : forall ns es, tree_of jt ns es -> forall i, In i ns -> 2 <= length ns ->
    exists s, In s es /\ (s_first (sep jt s) = i \/ s_second (sep jt s) = i)).
  { clear. intros ns es HT. induction HT as [r|ns es s i j HT IH Hi Hj Hs J]; intros k Hk HL; [simpl in HL; lia|].
    destruct (Nat.eq_dec k j) as [->|Nj].
    - exists s. split; [now left|]. destruct J as [(A & B)|(A & B)]; auto.
    - destruct Hk as [Hk|Hk]; [congruence|]. destruct (Nat.eq_dec k i) as [->|Ni].
      + exists s. split; [now left|]. destruct J as [(A & B)|(A & B)]; auto.
      + destruct (IH k Hk) as (s' & Hs' & H').
        { destruct ns as [|a [|b ns]]; simpl in *; lia. }
        exists s'. split; [now right|auto]. }
  destruct (G ns es HT 0) as (s & Hs & H).
  - apply (Permutation_in _ (Permutation_sym PN)). apply in_seq. lia.
  - apply Permutation_length in PN. rewrite seq_length in PN. lia.
  - exists s. split; auto. apply (Permutation_in _ PE) in Hs. apply in_seq in Hs. lia.
Qed.

Lemma C39_refuted_lemma : forall card m vars, model_ok card m -> 2 <= length (cls (m_jt m)) ->
  NoDup vars -> vars <> [] ->
  forall m' p, get_joint_probability m vars <> Ok (m', Some p).
Proof.
  intros card m vars HM HL ND HV m' p H. unfold get_joint_probability in H.
  destruct (unmark_all_ok (m_jt m)) as (jt' & E & MO & MK). rewrite E in H. cbn [bind] in H.
  inv_as H r Er. destruct r as (j2 & q). destruct q as [q|].
  - assert (SH := proj1 (marks_only_same _ _ MO)). destruct SH as (L1 & L2 & S1 & S2).
    apply (gather_stuck card) in Er; auto.
    + apply (marks_only_ok card (m_jt m)); auto. apply HM.
    + lia.
    + intros v. now apply (cardm_pos card).
    + intros i Hi _. apply MK. lia.
    + destruct (S1 0) as (_ & -> & _). destruct (tree_sepset _ (mo_tree _ _ HM) HL) as (s & Hs & Hinc).
      assert (K : In s (c_sepsets (clq (m_jt m) 0))).
      { destruct (mo_shape _ _ HM) as (_ & HS & _). apply (HS 0); [lia|]. auto. }
      intros N. rewrite N in K. contradiction.
  - inversion H.
Qed.

(** ** A single clique *)
Lemma prod_perm : forall a b, Permutation a b -> prod a = prod b.
Proof. induction 1; simpl; lia. Qed.

Lemma union_perm : forall vars C, NoDup vars -> NoDup C -> incl vars C -> Permutation (vars ++ new_in vars C) C.
Proof.
  intros vars C NV NC HI. apply NoDup_Permutation; auto.
  - apply NoDup_app_disj; auto.
    + now apply NoDup_filter.
    + intros x H K. apply filter_In in K. destruct K as (_ & K). apply memb_in in H. rewrite H in K. discriminate.
  - intros x. rewrite in_app_iff. unfold new_in. rewrite filter_In. split.
    + intros [H|(H & _)]; auto.
    + intros H. destruct (memb x vars) eqn:E; auto. left. now apply memb_in.
Qed.

Lemma fill_cards : forall (cm : nat -> nat) vs n l, n = length vs -> length l = n ->
  for_up 0 n (fun i l => let* v := rd vs i in wr l i (cm v)) l = Ok (map cm vs).
Proof.
  intros cm vs n l -> HL.
  destruct (for_up_fill nat 0 (fun i => cm (nth i vs 0))
    (fun i l => let* v := rd vs i in wr l i (cm v)) l (length vs)) as (l' & E & L & H); auto.
  { intros i l' Hi Hl. rewrite (rd_ok _ vs i 0) by auto. cbn [bind]. now rewrite wr_ok by lia. }
  rewrite E. f_equal. apply (list_ext_nth _ 0).
  - now rewrite map_length.
  - intros i Hi. rewrite H by lia. now rewrite (nth_map _ _ _ _ _ 0) by lia.
Qed.

Lemma gather_single : forall card jt vars, shape_ok card jt -> length (cls jt) = 1 ->
  NoDup vars -> vars <> [] -> incl vars (c_vars (clq jt 0)) ->
  forall cm, (forall v, In v (c_vars (clq jt 0)) -> cm v = card v) ->
  exists jt' p, gather_joint_probability 1 cm jt 0 vars [] = Ok (jt', Some p) /\ marks_only jt jt' /\
    table card vars p /\
    forall a, valid card a ->
      den vars p a = sumv card (minus (c_vars (clq jt 0)) vars) (phi jt 0) a.
Proof.
  intros card jt vars HS HL ND HV HI cm HC. cbn [gather_joint_probability].
  assert (LV : 0 < length vars) by (destruct vars; [congruence|simpl; lia]).
  destruct (Nat.eqb_spec (length vars) 0) as [N|_]; [lia|].
  assert (Hc : 0 < length (cls jt)) by lia.
  rewrite rd_clq by auto. cbn [bind]. rewrite mark_clique_ok by auto. cbn [bind].
  set (C := c_vars (clq jt 0)) in *.
  assert (T := shape_clq card _ 0 HS Hc). assert (TD := table_dim card _ _ T). fold C in TD, T.
  assert (NC : NoDup C) by apply T. assert (POS : forall v, 0 < card v) by apply HS.
  assert (CN : C <> []) by (destruct HS as (_ & HS & _); apply (HS 0 Hc)).
  rewrite TD. rewrite (arr_some vars), (arr_some C) by auto.
  rewrite union_ok by (auto; lia). cbn [bind]. cbv zeta.
  set (pv := vars ++ new_in vars C) in *. rewrite Nat2Z.id.
  assert (PM : Permutation pv C) by (now apply union_perm).
  assert (NP : NoDup pv) by (apply (Permutation_NoDup (Permutation_sym PM)); auto).
  rewrite (fill_cards cm pv) by (auto; apply repeat_length). cbn [bind].
  assert (CP : map cm pv = map card pv).
  { apply map_ext_in. intros v Hv. apply HC. now apply (Permutation_in _ PM). }
  rewrite CP.
  assert (SO : PotentialProofs.shape_ok (map card pv)).
  { split.
    - apply Forall_forall. intros d Hd. apply in_map_iff in Hd. destruct Hd as (v & <- & _). apply POS.
    - rewrite (prod_perm _ (map card C)) by (now apply Permutation_map).
      destruct T as (_ & (_ & _ & W) & D). now rewrite <- D. }
  assert (FF : firstn (length pv) (map card pv) = map card pv).
  { rewrite <- (map_length card pv). apply firstn_all. }
  destruct (new_potential_ok (map card pv) (length pv) None) as (pr & E & W & D & DA); [now rewrite FF|now rewrite map_length|exact I|].
  rewrite FF in D, DA.
  rewrite E. cbn [bind].
  assert (TP : table card pv pr) by (split; auto).
  assert (PN : pv <> []) by (intros K; rewrite K in PM; apply Permutation_nil in PM; congruence).
  destruct (mapper_vars pv C) as (mp & Em & Lm & Hlm & HF & Hm); auto.
  { intros x Hx. now apply (Permutation_in _ (Permutation_sym PM)). }
  rewrite !arr_some in Em by auto. rewrite Em. cbn [bind].
  destruct mp as [mp|]; [|simpl in Lm; destruct C; [congruence|discriminate]]. cbn [unarr] in *.
  destruct (update_potential_ok (Some (c_p (clq jt 0))) None pr mp) as (pr1 & E1 & D1 & W1 & H1); auto.
  { left. discriminate. }
  { cbn. split; [apply T|]. rewrite D. split; [now rewrite map_length|]. rewrite Hm. symmetry. apply T. }
  { exact I. }
  { unfold dimensionality. rewrite D, map_length. lia. }
  rewrite E1. cbn [bind is_err].
  assert (SE : c_sepsets (clq jt 0) = []).
  { destruct (c_sepsets (clq jt 0)) as [|s l] eqn:ES; auto. exfalso.
    destruct HS as (_ & HSc & HSs). assert (K : In s (c_sepsets (clq jt 0))) by (rewrite ES; simpl; auto).
    apply (HSc 0 Hc) in K. destruct K as (K & _). destruct (HSs s K) as (_ & _ & A & B & N & _). lia. }
  rewrite SE. cbn [each bind is_err].
  assert (T1 : table card pv pr1) by (split; [auto|split; [auto|congruence]]).
  assert (DEN : forall a, valid card a -> den pv pr1 a = phi jt 0 a).
  { intros a Ha. unfold den at 1. rewrite H1 by (rewrite D; now apply valid_ix_map). cbn [option_map absorb1].
    rewrite Hm. unfold phi, den. fold C. unfold cell at 1. rewrite DA, D.
    rewrite nth_repeat_lt; [ring|]. apply flat_lt. now apply valid_ix_map. }
  assert (MO := mk_marks_only jt 0 Hc).
  cbn [length]. rewrite !Nat.add_0_r.
  assert (LP : length pv = length C) by (now apply Permutation_length).
  destruct (Nat.eqb_spec (length pv) (length vars)) as [EL|NL].
  - exists (mk jt 0), pr1. split; auto. split; auto.
    assert (EN : new_in vars C = []).
    { apply length_zero_iff_nil. unfold pv in EL. rewrite app_length in EL. lia. }
    assert (EP : pv = vars) by (unfold pv; now rewrite EN, app_nil_r). rewrite EP in *.
    split; auto. intros a Ha.
    assert (EMN : minus C vars = []).
    { destruct (minus C vars) as [|x l] eqn:EMN; auto. exfalso.
      assert (K : In x (minus C vars)) by (rewrite EMN; simpl; auto). apply minus_in in K. destruct K as (K & N).
      apply N. now apply (Permutation_in _ (Permutation_sym PM)). }
    rewrite EMN. cbn [sumv]. now apply DEN.
  - assert (LQ : length vars <= length pv) by (unfold pv; rewrite app_length; lia).
    assert (FC : for_up 0 (length vars) (fun i l => let* v := rd vars i in wr l i (cm v)) (map card pv) = Ok (map card pv)).
    { match goal with |- for_up 0 ?n ?b ?s = _ =>
        destruct (for_up_inv (list nat) (fun _ l => l = map card pv) b 0 n s) as (l & El & Hl) end; auto.
      - lia.
      - intros i l Hi ->. rewrite (rd_ok _ vars i 0) by lia. cbn [bind]. rewrite wr_ok by (rewrite map_length; lia).
        eexists. split; [reflexivity|]. apply (list_ext_nth _ 0).
        + now rewrite set_nth_length.
        + intros j Hj. rewrite set_nth_length, map_length in Hj. rewrite nth_set_nth by (rewrite map_length; lia).
          destruct (Nat.eqb_spec j i) as [->|]; auto. rewrite (nth_map _ _ _ _ _ 0) by lia.
          unfold pv. rewrite app_nth1 by lia. rewrite HC; auto. apply HI. apply nth_In. lia.
      - rewrite El. now subst. }
    rewrite FC. cbn [bind]. cbn [for_up Nat.sub loop_up].
    assert (FN : firstn (length vars) (map card pv) = map card vars).
    { unfold pv. rewrite map_app. rewrite <- (map_length card vars). rewrite firstn_app, firstn_all, Nat.sub_diag. simpl.
      apply app_nil_r. }
    assert (SV : PotentialProofs.shape_ok (map card vars)).
    { split.
      - apply Forall_forall. intros d Hd. apply in_map_iff in Hd. destruct Hd as (v & <- & _). apply POS.
      - destruct SO as (SO1 & SO2). unfold pv in SO2, SO1. rewrite map_app in SO2, SO1.
        assert (PA : forall a b, prod (a ++ b) = prod a * prod b).
        { clear. induction a; intros; simpl; [lia|]. rewrite IHa. lia. }
        rewrite PA in SO2. apply Forall_app in SO1. destruct SO1 as (_ & SO1).
        assert (0 < prod (map card (new_in vars C))).
        { clear -SO1. induction SO1; simpl; [lia|]. nia. }
        nia. }
    unfold for_up. cbn [Nat.sub loop_up bind].
    destruct (new_potential_ok (map card pv) (length vars) None) as (su & E2 & W2 & D2 & _);
      [now rewrite FN|rewrite map_length; lia|exact I|].
    rewrite E2. cbn [bind].
    destruct (marginalise_table card pv vars pr1 su (seq 0 (length vars))) as (su1 & E3 & T3 & H3); auto.
    { split; auto. split; auto. congruence. }
    { intros x Hx. unfold pv. apply in_or_app. auto. }
    { apply Forall_forall. intros x Hx. apply in_seq in Hx. lia. }
    { intros b. unfold sel. unfold pv. rewrite map_app. apply (list_ext_nth _ 0).
      - now rewrite !map_length, seq_length.
      - intros i Hi. rewrite map_length, seq_length in Hi.
        rewrite (nth_map _ _ _ _ _ 0) by (rewrite seq_length; lia). rewrite seq_nth by lia. simpl.
        rewrite app_nth1 by (rewrite map_length; lia). reflexivity. }
    rewrite E3. cbn [bind is_err]. exists (mk jt 0), su1. split; auto. split; auto. split; auto.
    intros a Ha. rewrite H3 by auto.
    rewrite (sumv_perm card (minus pv vars) (minus C vars)); [|now apply minus_perm|apply (dep_ext pv), den_dep].
    apply sumv_ext; auto.
Qed.

Lemma C39_partial_lemma : forall card m vars, model_ok card m -> length (cls (m_jt m)) = 1 ->
  NoDup vars -> vars <> [] -> (forall v, In v vars -> v < length (m_vars m)) ->
  exists m' p, get_joint_probability m vars = Ok (m', Some p) /\ table card vars p /\
    (forall a, valid card a ->
      den vars p a = (sumv card (minus (seq 0 (length (m_vars m))) vars) (joint (m_jt m)) a /
                      sum_all card m (joint (m_jt m)))%Qc) /\
    same_model m m' /\ (forall a, valid card a -> joint (m_jt m') a = joint (m_jt m) a).
Proof.
  intros card m vars HM HL ND HV HI. unfold get_joint_probability.
  destruct (unmark_all_ok (m_jt m)) as (jt1 & E & MO & MK). rewrite E. cbn [bind].
  assert (SH := marks_only_same _ _ MO). destruct SH as (SH & PH & PS).
  assert (L1 : length (cls jt1) = 1) by (destruct SH; congruence). rewrite L1.
  assert (S1 : shape_ok card jt1) by (apply (marks_only_ok card (m_jt m)); auto; apply HM).
  assert (C1 : c_vars (clq jt1 0) = c_vars (clq (m_jt m) 0)) by (destruct SH as (_ & _ & SH & _); apply SH).
  set (C := c_vars (clq (m_jt m) 0)) in *.
  assert (H0 : 0 < length (cls (m_jt m))) by lia.
  assert (T := shape_clq card _ 0 (mo_shape _ _ HM) H0). fold C in T.
  assert (PC : Permutation C (seq 0 (length (m_vars m)))).
  { apply NoDup_Permutation; [apply T|apply seq_NoDup|]. intros v. rewrite in_seq. split.
    - intros Hv. assert (v < length (m_vars m)) by (apply (mo_scope _ _ HM 0 v); auto). lia.
    - intros Hv. destruct (mo_var _ _ HM v) as (_ & _ & (k & Hk & Hin) & _); [lia|].
      assert (k = 0) by lia. subst. apply Hin. simpl; auto. }
  destruct (gather_single card jt1 vars S1 L1 ND HV) with (cm := cardm m) as (j2 & p & E2 & MO2 & TP & HP).
  { intros v Hv. rewrite C1. apply (Permutation_in _ (Permutation_sym PC)). apply in_seq. apply HI in Hv. lia. }
  { intros v Hv. rewrite C1 in Hv. apply (Permutation_in _ PC) in Hv. apply in_seq in Hv. apply (cardm_card card); auto. lia. }
  rewrite E2. cbn [bind]. rewrite normalise_potential_ok. cbn [bind].
  set (q := mkPot (dims p) (normalised (data p))).
  assert (TQ : table card vars q).
  { destruct TP as (A & (B1 & B2 & B3) & D). split; auto. split; auto. split; auto. split; auto.
    unfold q. cbn [data dims]. now rewrite normalised_length. }
  assert (NS : sps (m_jt m) = []).
  { destruct (sps (m_jt m)) as [|s l] eqn:ES; auto. exfalso. destruct (mo_shape _ _ HM) as (_ & _ & HS).
    destruct (HS 0) as (_ & _ & A & B & N & _); [rewrite ES; simpl; lia|]. lia. }
  assert (JT : forall a, joint (m_jt m) a = phi (m_jt m) 0 a).
  { intros a. unfold joint. rewrite HL, NS. cbn [length seq map qprod]. field. intros K; inversion K. }
  assert (VZ := zero_valid card m HM).
  assert (TOT : total p = sum_all card m (joint (m_jt m))).
  { rewrite (total_sumv card vars p (fun _ => 0)) by auto. unfold sum_all.
    rewrite (sumv_ext card vars _ (sumv card (minus C vars) (phi (m_jt m) 0))); auto.
    2: { intros b Hb. rewrite HP by auto. rewrite C1. apply sumv_ext; auto. }
    rewrite <- sumv_app.
    rewrite (sumv_perm card (vars ++ minus C vars) (seq 0 (length (m_vars m)))).
    - apply sumv_ext; auto.
    - rewrite <- PC. symmetry. apply split_perm; auto; [apply T|]. intros v Hv.
      apply (Permutation_in _ (Permutation_sym PC)). apply in_seq. apply HI in Hv. lia.
    - apply (dep_ext C). apply den_dep. }
  exists (set_jt m j2), q. split; auto. split; auto. split; [|split].
  - intros a Ha.
    rewrite (sumv_perm card (minus (seq 0 (length (m_vars m))) vars) (minus C vars));
      [|apply minus_perm; now symmetry|apply joint_is_ext].
    rewrite (sumv_ext card (minus C vars) (joint (m_jt m)) (phi (m_jt m) 0)) by auto.
    assert (HP' : den vars p a = sumv card (minus C vars) (phi (m_jt m) 0) a).
    { rewrite HP by auto. rewrite C1. apply sumv_ext; auto. }
    rewrite <- HP', <- TOT.
    assert (PL : length (data p) = prod (dims p)) by apply TP.
    rewrite total_data by auto. unfold den, cell, q. cbn [dims data]. rewrite nth_normalised.
    destruct (qzero (qsum (data p))) eqn:Z.
    + apply qzero_true in Z. rewrite Z.
      assert (DZ : den vars p a = 0%Qc).
      { assert (TZ : sumv card vars (den vars p) (fun _ => 0) = 0%Qc).
        { rewrite <- (total_sumv card vars p (fun _ => 0)) by auto. rewrite total_data by auto. auto. }
        rewrite (sumv_dep_arg card vars vars (den vars p) (fun _ => 0) a) in TZ;
          [|apply den_dep|tauto].
        apply (sumv_zero_inv card vars); auto.
        - apply (dep_ext vars), den_dep.
        - intros b Hb. rewrite HP by auto. apply sumv_nonneg; auto. intros b' Hb'. rewrite PH.
          apply (phi_nonneg card); auto; try apply HM. }
      unfold den, cell in DZ. rewrite DZ. unfold Qcdiv. rewrite Qcinv_0. ring.
    + reflexivity.
  - apply same_model_jt. destruct MO2 as (A & B & D). destruct MO as (A' & B' & D').
    assert (M2 : marks_only (m_jt m) j2).
    { split; [congruence|]. split; [congruence|]. intros i Hi. destruct (D' i Hi) as (b & Eb).
      destruct (D i) as (b' & Eb'); [lia|]. exists b'. rewrite Eb', Eb. reflexivity. }
    apply (marks_only_same _ _ M2).
  - intros a Ha. cbn [m_jt set_jt]. destruct (marks_only_same _ _ MO2) as (SH2 & PH2 & PS2).
    destruct (shape_len _ _ SH), (shape_len _ _ SH2).
    apply joint_ext; try congruence; intros; rewrite ?PH2, ?PS2; auto.
Qed.
