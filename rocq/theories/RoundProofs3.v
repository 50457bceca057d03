(** * Rounded arithmetic: potentials

    Here every result is rounded ([rt] below); RoundProofs9 carries the results
    over to a rounding that may fail. *)
From Coq Require Import ZArith QArith Qcanon Field Lia Permutation.
From Verif Require Import Base BaseProofs PotentialModel PotentialSpec PotentialProofs PotentialProofs2
  PotentialProofs3 RoundModel RoundSpec RoundProofs.
Import ListNotations.
Open Scope nat_scope.
Local Open Scope res_scope.

Add Field QcfieldRound3 : Qcft.

Section Total.
Variable u : Qc.
Variable fl : Qc -> Qc.
Hypothesis Hu0 : (0 <= u)%Qc.
Hypothesis Hu1 : (u < 1)%Qc.
Hypothesis Hfl : forall x, (0 <= x)%Qc -> near u 1 x (fl x).
Definition rt (x : Qc) : res Qc := Ok (fl x).

Lemma near_fl : forall k x y, near u k x y -> near u (S k) x (fl y).
Proof. intros k x y H. replace (S k) with (k + 1) by lia. eapply near_trans; eauto. apply Hfl. eapply near_nonneg; eauto. Qed.
Lemma near_fl_add : forall k x y s, near u k x y -> (0 <= s)%Qc -> near u (S k) (x + s) (fl (y + s)).
Proof. intros. apply near_fl. apply near_add; auto. now apply near_refl. Qed.
Lemma nonneg_nth : forall p i, nonneg p -> (0 <= nth i (data p) 0)%Qc.
Proof.
  intros p i H. destruct (Nat.lt_ge_cases i (length (data p))) as [L|L].
  - unfold nonneg in H. rewrite Forall_forall in H. apply H. now apply nth_In.
  - rewrite nth_overflow by auto. discriminate.
Qed.
Lemma filter_all : forall A (f : A -> bool) l, (forall x, f x = true) -> filter f l = l.
Proof. intros A f l H. induction l as [|a l IH]; auto. cbn [filter]. now rewrite H, IH. Qed.

Lemma r_general_marginalise_ok : forall src dst m, wf src -> nonneg src -> wf dst ->
  map_ok m (dims src) (dims dst) -> dimensionality dst <= dimensionality src ->
  exists dst', r_general_marginalise rt src dst m = Ok (dst', NO_ERROR) /\
    dims dst' = dims dst /\ wf dst' /\
    forall ix, valid_ix (dims dst) ix -> near u (length (data src)) (marg src m ix) (cell dst' ix).
Proof.
  intros src dst m HS HP HD (HM & HSel) Hdim. unfold r_general_marginalise.
  destruct (Nat.ltb_spec (dimensionality src) (dimensionality dst)); [lia|].
  assert (Hmarg : forall ix, marg src m ix =
     qsum (map (fun k => nth k (data src) 0%Qc)
       (filter (fun k => ix_eqb (sel m (unflat (dims src) k)) ix) (seq 0 (length (data src)))))).
  { intros ix. unfold marg. rewrite (wf_data_length src HS). rewrite all_ix_unflat.
    rewrite !qsum_filter, map_map. apply qsum_map_ext. intros k Hk. apply in_seq in Hk.
    now rewrite cell_unflat by (auto; lia). }
  destruct (Nat.eqb_spec (dimensionality dst) 0) as [Hz|Hz].
  - unfold dimensionality in Hz. apply length_zero_iff_nil in Hz.
    assert (Hl : length (data dst) = 1) by (rewrite (wf_data_length dst HD), Hz; reflexivity).
    rewrite wr_ok by lia. cbn [bind].
    destruct (for_up_inv (list Qc)
      (fun i d => length d = 1 /\ near u i (qsum (map (fun k => nth k (data src) 0%Qc) (seq 0 i))) (nth 0 d 0%Qc))
      (fun i d => let* x := rd d 0 in let* s := rd (data src) i in let* y := rt (x + s)%Qc in wr d 0 y)
      0 (size_of_data src) (set_nth (data dst) 0 0%Qc)) as (d & E & HL & Hd).
    + lia.
    + rewrite set_nth_length. split; auto. rewrite nth_set_nth_eq by lia. apply near_refl; auto. discriminate.
    + intros i d Hi (HL & Hd). unfold size_of_data in Hi.
      rewrite (rd_ok _ d 0 0%Qc) by lia. cbn [bind]. rewrite (rd_ok _ _ i 0%Qc) by lia. cbn [bind rt].
      rewrite wr_ok by lia. eexists; split; [reflexivity|]. rewrite set_nth_length. split; auto.
      rewrite nth_set_nth_eq by lia. rewrite seq_S, map_app, qsum_app. cbn [map qsum]. rewrite Qcplus_0_r. apply near_fl_add; auto. now apply nonneg_nth.
    + rewrite E. cbn [bind]. eexists; split; [reflexivity|]. simpl. split; auto.
      split; [apply wf_same_shape; auto; congruence|].
      intros ix Hix. rewrite Hz in Hix. inversion Hix; subst. unfold cell. simpl. rewrite Hz. simpl.
      rewrite Hmarg. unfold size_of_data in Hd.
      assert (m = []).
      { rewrite Hz in HSel. destruct m; auto. discriminate. }
      subst m. rewrite filter_all; auto.
  - rewrite uniform_ok. cbn [bind].
    set (dst0 := mkPot (dims dst) (repeat 0%Qc (length (data dst)))).
    match goal with |- context [for_up 0 _ ?b _] => set (body := b) end.
    destruct (for_up_inv potential
      (fun i q => dims q = dims dst /\ wf q /\ forall ix, valid_ix (dims dst) ix ->
         near u i (qsum (map (fun k => nth k (data src) 0%Qc)
            (filter (fun k => ix_eqb (sel m (unflat (dims src) k)) ix) (seq 0 i)))) (cell q ix))
      body 0 (size_of_data src) dst0) as (q & E & Hdq & Hwq & Hq).
    + lia.
    + split; [reflexivity|]. split.
      * apply wf_same_shape; auto. now rewrite repeat_length.
      * intros ix Hix. cbn [seq filter map qsum]. apply near_eq; auto; [discriminate|]. symmetry. unfold cell, dst0; simpl. apply nth_repeat_lt.
        rewrite (wf_data_length dst HD). now apply flat_lt.
    + intros i q Hi (Hdq & Hwq & Hq). unfold body. unfold size_of_data in Hi.
      assert (Hsrcpos : Forall (fun d => 0 < d) (dims src)) by (destruct HS; auto).
      rewrite inverse_mapping_ok; auto; try lia;
        [|unfold size_of_data; lia|apply temp_index_length; lia].
      cbn [bind].
      assert (Hdimq : dimensionality q = dimensionality dst) by (unfold dimensionality; congruence).
      assert (Hlm : length m = dimensionality dst).
      { unfold dimensionality. rewrite <- HSel. now rewrite sel_length. }
      rewrite choose_ok; [|rewrite temp_index_length; lia|lia|rewrite unflat_length; auto].
      cbn [bind].
      assert (HV : valid_ix (dims q) (sel m (unflat (dims src) i))).
      { rewrite Hdq, <- HSel. apply sel_valid; auto. now apply unflat_valid. }
      rewrite get_pointer_ok by (auto using wf_shape). cbn [bind].
      pose proof (flat_lt _ _ HV) as Hlt. rewrite <- (wf_data_length q Hwq) in Hlt.
      rewrite (rd_ok _ _ _ 0%Qc) by auto. cbn [bind].
      rewrite (rd_ok _ (data src) i 0%Qc) by lia. cbn [bind rt].
      rewrite wr_ok by auto. cbn [bind]. eexists; split; [reflexivity|].
      split; [auto|]. split; [apply wf_same_shape; auto; now rewrite set_nth_length|].
      intros ix Hix. specialize (Hq ix Hix). rewrite seq_S, filter_app, map_app, qsum_app. cbn [filter Nat.add].
      unfold cell at 1. cbn [dims data]. rewrite Hdq in HV.
      destruct (list_eq_dec Nat.eq_dec (sel m (unflat (dims src) i)) ix) as [Eq|Nq].
      * subst ix. rewrite ix_eqb_refl. cbn [map qsum]. rewrite nth_set_nth_eq by auto. rewrite Qcplus_0_r. apply near_fl_add; auto. now apply nonneg_nth.
      * assert (Ef : ix_eqb (sel m (unflat (dims src) i)) ix = false)
          by (destruct (ix_eqb _ _) eqn:Z; auto; apply ix_eqb_true in Z; contradiction).
        rewrite Ef. cbn [map qsum]. rewrite nth_set_nth_neq.
        -- rewrite Qcplus_0_r. apply near_le with i; auto.
        -- intros C. apply Nq. rewrite Hdq in C. symmetry. eapply flat_inj; eauto.
    + rewrite E. cbn [bind]. exists q. split; auto. split; auto. split; auto.
      intros ix Hix. rewrite Hmarg. now apply Hq.
Qed.

Lemma r_total_marginalise_ok : forall src dest v, wf src -> nonneg src -> v < dimensionality src ->
  nth v (dims src) 0 <= length dest ->
  exists dest', r_total_marginalise rt src dest (Z.of_nat v) = Ok (dest', NO_ERROR) /\
    length dest' = length dest /\
    (forall i, i < nth v (dims src) 0 -> near u (length (data src)) (marg src [v] [i]) (nth i dest' 0%Qc)) /\
    (forall i, nth v (dims src) 0 <= i -> nth i dest' 0%Qc = nth i dest 0%Qc).
Proof.
  intros src dest v HS HP Hv HL. unfold r_total_marginalise.
  destruct (Z.ltb_spec (Z.of_nat v) 0); [lia|].
  destruct (Z.leb_spec (Z.of_nat (dimensionality src)) (Z.of_nat v)); [lia|]. cbn [orb].
  rewrite Nat2Z.id. rewrite card_array_rd by auto. cbn [bind].
  set (cv := nth v (dims src) 0) in *.
  destruct (for_up_inv (list Qc) (fun i d => length d = length dest /\
     (forall j, j < i -> nth j d 0%Qc = 0%Qc) /\ (forall j, i <= j -> nth j d 0%Qc = nth j dest 0%Qc))
     (fun i d => wr d i 0%Qc) 0 cv dest) as (d0 & E0 & HL0 & H01 & H02).
  { lia. } { repeat split; auto; intros; lia. }
  { intros i d Hi (A & B & C). rewrite wr_ok by lia. eexists; split; [reflexivity|].
    rewrite set_nth_length. repeat split; auto; intros j Hj; rewrite nth_set_nth by lia;
      destruct (Nat.eqb_spec j i); auto; try lia; [apply B; lia|apply C; lia]. }
  rewrite E0. cbn [bind].
  assert (Hpos : Forall (fun d => 0 < d) (dims src)) by (destruct HS; auto).
  match goal with |- context [for_up 0 _ ?b _] => set (body := b) end.
  destruct (for_up_inv (list Qc * nat)
    (fun i '(d, _) => length d = length dest /\
      (forall j, j < cv -> near u i (qsum (map (fun k => nth k (data src) 0%Qc)
          (filter (fun k => Nat.eqb (nth v (unflat (dims src) k) 0) j) (seq 0 i)))) (nth j d 0%Qc)) /\
      (forall j, cv <= j -> nth j d 0%Qc = nth j dest 0%Qc))
    body 0 (size_of_data src) (d0, 0)) as ((d, ind) & E & HLd & H1 & H2).
  { lia. } { split; [exact HL0|]. split; [|exact H02]. intros j Hj. apply near_eq; auto; [discriminate|]. symmetry. now apply H01. }
  { intros i (d, ind) Hi (A & B & C). unfold body, size_of_data in *.
    destruct (partial_inverse_ok src i v ind HS ltac:(lia) Hv) as (x & fl0 & Ei).
    unfold size_of_data in Ei. rewrite Ei. cbn [bind].
    set (w := nth v (unflat (dims src) i) 0).
    assert (Hw : w < cv).
    { unfold w, cv. apply valid_ix_nth; auto. now apply unflat_valid. }
    rewrite (rd_ok _ d w 0%Qc) by lia. cbn [bind].
    rewrite (rd_ok _ (data src) i 0%Qc) by lia. cbn [bind rt].
    rewrite wr_ok by lia. cbn [bind]. eexists; split; [reflexivity|].
    cbv beta iota; rewrite set_nth_length. split; [exact A|]. split.
    - intros j Hj. specialize (B j Hj). rewrite seq_S, filter_app, map_app, qsum_app. cbn [filter Nat.add]. fold w.
      rewrite nth_set_nth by lia. rewrite (Nat.eqb_sym j w).
      destruct (Nat.eqb_spec w j) as [Ew|]; cbn [map qsum]; rewrite Qcplus_0_r.
      + rewrite Ew. apply near_fl_add; auto. now apply nonneg_nth.
      + apply near_le with i; auto.
    - intros j Hj. rewrite nth_set_nth by lia. destruct (Nat.eqb_spec j w); [lia|auto]. }
  rewrite E. cbn [bind]. exists d. split; [reflexivity|]. split; [exact HLd|]. split; [|exact H2].
  intros i Hi. match goal with |- near _ _ ?x _ => replace x with (qsum (map (fun k => nth k (data src) 0%Qc)
          (filter (fun k => Nat.eqb (nth v (unflat (dims src) k) 0) i) (seq 0 (size_of_data src))))); [now apply H1|] end.
  symmetry. unfold marg. rewrite all_ix_unflat, <- (wf_data_length src HS).
  rewrite !qsum_filter, map_map. apply qsum_map_ext. intros k Hk. apply in_seq in Hk.
  unfold size_of_data in Hk. rewrite cell_unflat by (auto; rewrite <- (wf_data_length src HS); lia).
  assert (Eb : ix_eqb (sel [v] (unflat (dims src) k)) [i] = Nat.eqb (nth v (unflat (dims src) k) 0) i).
  { simpl. destruct (Nat.eqb_spec (nth v (unflat (dims src) k) 0) i) as [->|N].
    - apply ix_eqb_refl.
    - destruct (ix_eqb _ _) eqn:Z; auto. apply ix_eqb_true in Z. congruence. }
  now rewrite Eb.
Qed.

(** What one target cell becomes. *)
Definition r_absorb1 (num den : option Qc) (x : Qc) : Qc :=
  let x1 := match num with Some y => fl (x * y) | None => x end in
  match den with
  | Some z => if qzero z then 0%Qc else fl (x1 / z)
  | None => x1
  end.
Lemma r_update_divide_ok : forall x y, r_update_divide rt x y = Ok (if qzero y then 0%Qc else fl (x / y)).
Proof.
  intros x y. unfold r_update_divide. destruct (qzero y) eqn:E; auto.
  apply qzero_false in E. now rewrite qdiv_ok.
Qed.
Lemma r_update_potential_ok : forall num den target m,
  wf target -> (num <> None \/ den <> None) ->
  opt_wf num m (dims target) -> opt_wf den m (dims target) ->
  length m <= dimensionality target ->
  exists t', r_update_potential rt num den target m = Ok (t', NO_ERROR) /\
    dims t' = dims target /\ wf t' /\
    forall ix, valid_ix (dims target) ix ->
      cell t' ix = r_absorb1 (option_map (fun q => cell q (sel m ix)) num)
                           (option_map (fun q => cell q (sel m ix)) den) (cell target ix).
Proof.
  intros num den target m HT Hne HN HD Hdim.
  assert (Hlen : forall q, num = Some q \/ den = Some q -> wf q /\ map_ok m (dims target) (dims q) /\ dimensionality q = length m).
  { intros q [->| ->]; simpl in *; [destruct HN as (A & B & C)|destruct HD as (A & B & C)];
      (split; [auto|split; [split; auto|]]); unfold dimensionality; rewrite <- C; apply sel_length. }
  assert (Hpos : Forall (fun d => 0 < d) (dims target)) by (destruct HT; auto).
  unfold r_update_potential.
  set (bad := match num, den with
      | Some n, Some d => negb (Nat.eqb (dimensionality n) (dimensionality d))
          || Nat.ltb (dimensionality target) (dimensionality n)
      | _, _ => false end).
  assert (Hbad : bad = false).
  { unfold bad. destruct num as [n|]; destruct den as [d|]; auto.
    destruct (Hlen n) as (_ & _ & E1); auto. destruct (Hlen d) as (_ & _ & E2); auto.
    rewrite E1, E2, Nat.eqb_refl. simpl. apply Nat.ltb_ge. lia. }
  set (nvars := match num, den with
        | Some n, _ => dimensionality n
        | None, Some d => dimensionality d
        | None, None => 0 end).
  assert (Hnv : nvars = length m).
  { unfold nvars. destruct num as [n|]; [apply Hlen; auto|]. destruct den as [d|]; [apply Hlen; auto|].
    destruct Hne; congruence. }
  assert (Hgoal : forall (r : res (potential * code)),
    (r = if bad then Ok (target, EINVAL) else
      if Nat.eqb nvars 0 then
        let* d :=
          for_up 0 (size_of_data target)
            (fun i d =>
               let* d1 :=
                 match num with
                 | Some n => let* x := rd d i in let* y := rd (data n) 0 in let* t := rt (x * y)%Qc in wr d i t
                 | None => Ok d
                 end in
               match den with
               | Some dn => let* y := rd (data dn) 0 in let* x := rd d1 i in
                   let* z := r_update_divide rt x y in wr d1 i z
               | None => Ok d1
               end) (data target) in
        Ok (mkPot (dims target) d, NO_ERROR)
      else
        let* d :=
          for_up 0 (size_of_data target)
            (fun i d =>
               let* tix := inverse_mapping target i (temp_index target) in
               let* six := choose_potential_indices tix (repeat 0 (Nat.max 1 nvars)) m nvars in
               let* d1 :=
                 match num with
                 | Some n =>
                     let* k := get_potential_pointer n six in
                     let* y := rd (data n) k in
                     let* x := rd d i in
                     let* t := rt (x * y)%Qc in wr d i t
                 | None => Ok d
                 end in
               match den with
               | Some dn =>
                   let* k := get_potential_pointer dn six in
                   let* y := rd (data dn) k in
                   let* x := rd d1 i in
                   let* z := r_update_divide rt x y in
                   wr d1 i z
               | None => Ok d1
               end)
            (data target) in
        Ok (mkPot (dims target) d, NO_ERROR)) ->
    exists t', r = Ok (t', NO_ERROR) /\ dims t' = dims target /\ wf t' /\
    forall ix, valid_ix (dims target) ix ->
      cell t' ix = r_absorb1 (option_map (fun q => cell q (sel m ix)) num)
                           (option_map (fun q => cell q (sel m ix)) den) (cell target ix)).
  { intros r ->. rewrite Hbad.
    set (g := fun ix x => r_absorb1 (option_map (fun q => cell q (sel m ix)) num)
                           (option_map (fun q => cell q (sel m ix)) den) x).
    destruct (Nat.eqb_spec nvars 0) as [Hz|Hz].
    - assert (m = []) by (apply length_zero_iff_nil; lia). subst m.
      destruct (table_pointwise target g (fun i d =>
               let* d1 :=
                 match num with
                 | Some n => let* x := rd d i in let* y := rd (data n) 0 in let* t := rt (x * y)%Qc in wr d i t
                 | None => Ok d
                 end in
               match den with
               | Some dn => let* y := rd (data dn) 0 in let* x := rd d1 i in
                   let* z := r_update_divide rt x y in wr d1 i z
               | None => Ok d1
               end) HT) as (d & E & _ & HW & H).
      + intros k d Hk HL Hn.
        assert (R : forall q, num = Some q \/ den = Some q -> rd (data q) 0 = Ok (cell q [])).
        { intros q Hq. destruct (Hlen q Hq) as (A & (B1 & B2) & C). unfold cell.
          rewrite (rd_ok _ _ 0 0%Qc).
          - now destruct (dims q).
          - rewrite (wf_data_length q A). apply prod_pos. destruct A; auto. }
        unfold g, r_absorb1. destruct num as [n|]; cbn [bind option_map].
        * rewrite (rd_ok _ d k 0%Qc) by lia. cbn [bind rt]. rewrite (R n) by auto. cbn [bind rt].
          rewrite wr_ok by lia. cbn [bind rt]. rewrite Hn. destruct den as [dn|]; cbn [bind option_map]; auto.
          rewrite (R dn) by auto. cbn [bind rt]. rewrite (rd_ok _ _ k 0%Qc) by (rewrite set_nth_length; lia).
          cbn [bind rt]. rewrite nth_set_nth_eq by lia. rewrite r_update_divide_ok. cbn [bind rt].
          rewrite wr_ok by (rewrite set_nth_length; lia). now rewrite set_nth_twice.
        * destruct den as [dn|]; [|destruct Hne; congruence]. cbn [option_map].
          rewrite (R dn) by auto. cbn [bind rt]. rewrite (rd_ok _ _ k 0%Qc) by lia. cbn [bind rt].
          rewrite r_update_divide_ok. cbn [bind rt]. rewrite wr_ok by lia. now rewrite Hn.
      + rewrite E. cbn [bind rt]. eexists; split; [reflexivity|]. simpl. auto.
    - match goal with |- context [for_up 0 _ ?b _] => set (body := b) end.
      destruct (table_pointwise target g body HT) as (d & E & _ & HW & H).
      + intros k d Hk HL Hn. unfold body.
        rewrite inverse_mapping_ok; auto; [|unfold size_of_data; rewrite (wf_data_length target HT); auto
          |apply temp_index_length; lia].
        cbn [bind rt]. 
        assert (HMl : Forall (fun k0 => k0 < length (dims target)) m).
        { destruct num as [n|]; [destruct (Hlen n) as (_ & (A & _) & _); auto|].
          destruct den as [n|]; [destruct (Hlen n) as (_ & (A & _) & _); auto|]. destruct Hne; congruence. }
        rewrite choose_ok; [|rewrite repeat_length; lia|auto|now rewrite unflat_length]. cbn [bind rt].
        assert (R : forall q, num = Some q \/ den = Some q ->
           (let* k' := get_potential_pointer q (sel m (unflat (dims target) k)) in rd (data q) k')
             = Ok (cell q (sel m (unflat (dims target) k)))).
        { intros q Hq. destruct (Hlen q Hq) as (A & (B1 & B2) & C).
          apply (get_value_ok q); auto. rewrite <- B2. apply sel_valid; auto. now apply unflat_valid. }
        assert (R' : forall q (f : Qc -> res (list Qc)), num = Some q \/ den = Some q ->
           (let* k' := get_potential_pointer q (sel m (unflat (dims target) k)) in
            let* y := rd (data q) k' in f y) = f (cell q (sel m (unflat (dims target) k)))).
        { intros q f Hq. specialize (R q Hq).
          destruct (get_potential_pointer q _) as [k'| |]; cbn [bind rt] in *; try discriminate.
          now rewrite R. }
        unfold g, r_absorb1. destruct num as [n|]; cbn [bind option_map].
        * rewrite R' by auto.
          rewrite (rd_ok _ d k 0%Qc) by lia. cbn [bind rt].
          rewrite wr_ok by lia. cbn [bind rt]. rewrite Hn. destruct den as [dn|]; cbn [bind option_map]; auto.
          rewrite R' by auto. rewrite (rd_ok _ _ k 0%Qc) by (rewrite set_nth_length; lia).
          cbn [bind rt]. rewrite nth_set_nth_eq by lia. rewrite r_update_divide_ok. cbn [bind rt].
          rewrite wr_ok by (rewrite set_nth_length; lia). now rewrite set_nth_twice.
        * destruct den as [dn|]; [|destruct Hne; congruence]. cbn [option_map].
          rewrite R' by auto. rewrite (rd_ok _ _ k 0%Qc) by lia. cbn [bind rt].
          rewrite r_update_divide_ok. cbn [bind rt]. rewrite wr_ok by lia. now rewrite Hn.
      + rewrite E. cbn [bind rt]. eexists; split; [reflexivity|]. simpl. auto. }
  destruct num as [n|]; [|destruct den as [d|]].
  - apply Hgoal. reflexivity.
  - apply Hgoal. reflexivity.
  - destruct Hne; congruence.
Qed.

Definition r_evid1 (num : Qc) (den : option Qc) (x : Qc) : Qc :=
  match den with
  | Some z => if qzero z then fl (x * num) else fl (fl (x * num) / z)
  | None => fl (x * num)
  end.
Lemma r_update_evidence_ok : forall num den target v, wf target -> v < dimensionality target ->
  nth v (dims target) 0 <= length num ->
  (match den with Some d => nth v (dims target) 0 <= length d | None => True end) ->
  exists t', r_update_evidence rt num den target v = Ok t' /\ dims t' = dims target /\ wf t' /\
    forall ix, valid_ix (dims target) ix ->
      cell t' ix = r_evid1 (nth (nth v ix 0) num 0%Qc)
                     (option_map (fun d => nth (nth v ix 0) d 0%Qc) den) (cell target ix).
Proof.
  intros num den target v HT Hv Hn Hd. unfold r_update_evidence.
  assert (Hpos : Forall (fun d => 0 < d) (dims target)) by (destruct HT; auto).
  match goal with |- context [for_up 0 _ ?b _] => set (body := b) end.
  destruct (table_pointwise target (fun ix x => r_evid1 (nth (nth v ix 0) num 0%Qc)
                     (option_map (fun d => nth (nth v ix 0) d 0%Qc) den) x) body HT)
    as (d & E & _ & HW & H).
  - intros k d Hk HL Hnk. unfold body.
    rewrite inverse_mapping_ok; auto; [|unfold size_of_data; rewrite (wf_data_length target HT); auto
          |apply temp_index_length; lia].
    cbn [bind rt]. rewrite (rd_ok _ _ v 0) by (rewrite unflat_length; auto). cbn [bind rt].
    pose proof (valid_ix_nth _ _ v (unflat_valid (dims target) k Hpos) Hv) as Hs.
    set (s := nth v (unflat (dims target) k) 0) in *.
    rewrite (rd_ok _ d k 0%Qc) by lia. cbn [bind rt]. rewrite (rd_ok _ num s 0%Qc) by lia. cbn [bind rt].
    rewrite wr_ok by lia. cbn [bind rt]. rewrite Hnk. destruct den as [dn|]; cbn [option_map r_evid1]; auto.
    rewrite (rd_ok _ dn s 0%Qc) by lia. cbn [bind rt].
    destruct (qzero (nth s dn 0%Qc)) eqn:Z; auto.
    rewrite (rd_ok _ _ k 0%Qc) by (rewrite set_nth_length; lia). cbn [bind rt].
    rewrite nth_set_nth_eq by lia. apply qzero_false in Z. rewrite qdiv_ok by auto. cbn [bind rt].
    rewrite wr_ok by (rewrite set_nth_length; lia). now rewrite set_nth_twice.
  - rewrite E. cbn [bind rt]. eexists; split; [reflexivity|]. simpl. auto.
Qed.

Lemma r_normalise_array_at_ok : forall l off n, off + n <= length l ->
  (forall i, i < n -> (0 <= nth (off + i) l 0)%Qc) ->
  exists l', r_normalise_array_at rt l off n = Ok l' /\ length l' = length l /\
    let s := qsum (map (fun i => nth (off + i) l 0%Qc) (seq 0 n)) in
    (exists s', near u n s s' /\ forall i, i < n -> nth (off + i) l' 0%Qc =
        if qzero s' then nth (off + i) l 0%Qc else fl (nth (off + i) l 0 / s')%Qc) /\
    (forall k, k < off \/ off + n <= k -> nth k l' 0%Qc = nth k l 0%Qc).
Proof.
  intros l off n HL HP. unfold r_normalise_array_at.
  destruct (for_up_inv Qc (fun i s => near u i (qsum (map (fun i => nth (off + i) l 0%Qc) (seq 0 i))) s)
     (fun i sum => let* x := rd l (off + i) in rt (sum + x)%Qc) 0 n 0%Qc) as (s & E & Hs).
  { lia. } { apply near_refl; auto. discriminate. }
  { intros i s Hi Hs. rewrite (rd_ok _ l _ 0%Qc) by lia. cbn [bind]. eexists; split; [reflexivity|].
    rewrite seq_S, map_app, qsum_app. cbn [map qsum Nat.add]. rewrite Qcplus_0_r. apply near_fl_add; auto. apply HP. lia. }
  rewrite E. cbn [bind]. cbv zeta.
  destruct (qzero s) eqn:Z.
  - exists l. split; auto. split; auto. split; auto. exists s. rewrite Z. auto.
  - apply qzero_false in Z.
    match goal with |- context [for_up 0 _ ?b _] => set (body := b) end.
    destruct (for_up_inv (list Qc) (fun i l' => length l' = length l /\
       (forall j, j < i -> nth (off + j) l' 0%Qc = fl (nth (off + j) l 0 / s)%Qc) /\
       (forall k, k < off \/ off + i <= k -> nth k l' 0%Qc = nth k l 0%Qc)) body 0 n l)
      as (l' & E' & H1 & H2 & H3).
    + lia.
    + repeat split; auto. intros; lia.
    + intros i l' Hi (H1 & H2 & H3). unfold body. rewrite (rd_ok _ l' _ 0%Qc) by lia. cbn [bind].
      rewrite qdiv_ok by auto. cbn [bind rt]. rewrite wr_ok by lia. eexists; split; [reflexivity|].
      rewrite set_nth_length. repeat split; auto.
      * intros j Hj. rewrite nth_set_nth by lia. destruct (Nat.eqb_spec (off + j) (off + i)).
        -- replace j with i by lia. rewrite H3 by lia. reflexivity.
        -- apply H2; lia.
      * intros k Hk. rewrite nth_set_nth by lia. destruct (Nat.eqb_spec k (off + i)); [lia|].
        apply H3; lia.
    + exists l'. split; auto. split; auto. split; auto. exists s. apply qzero_false in Z. rewrite Z. auto.
Qed.

Lemma absorb1_near : forall num den x, (0 <= x)%Qc ->
  (forall y, num = Some y -> (0 <= y)%Qc) -> (forall y, den = Some y -> (0 <= y)%Qc) ->
  near u ((match num with Some _ => 1 | None => 0 end) + (match den with Some _ => 1 | None => 0 end))
    (absorb1 num den x) (r_absorb1 num den x).
Proof.
  intros num den x Hx Hn Hd. unfold absorb1, r_absorb1.
  assert (K : near u (match num with Some _ => 1 | None => 0 end)
     (match num with Some y => (x * y)%Qc | None => x end) (match num with Some y => fl (x * y)%Qc | None => x end)).
  { destruct num as [y|]; [apply Hfl; apply Qc_mul_nonneg; auto|now apply near_refl]. }
  destruct den as [z|]; [|now rewrite Nat.add_0_r].
  destruct (qzero z); [apply near_refl; auto; discriminate|]. rewrite Nat.add_1_r. apply near_fl.
  apply near_div_r; auto.
Qed.
Lemma evid1_near : forall num den x, (0 <= x)%Qc -> (0 <= num)%Qc -> (forall y, den = Some y -> (0 <= y)%Qc) ->
  near u (1 + (match den with Some _ => 1 | None => 0 end)) (evid1 num den x) (r_evid1 num den x).
Proof.
  intros num den x Hx Hn Hd. unfold evid1, r_evid1.
  assert (K : near u 1 (x * num)%Qc (fl (x * num)%Qc)) by (apply Hfl; now apply Qc_mul_nonneg).
  destruct den as [z|]; [|exact K]. destruct (qzero z).
  - apply near_le with 1; auto.
  - cbn [Nat.add]. apply near_fl. apply near_div_r; auto.
Qed.

(** Normalising: a common positive factor and one rounding per entry. *)
Lemma r_normalise_array_ok : forall l, Forall (fun x => (0 <= x)%Qc) l ->
  exists l', r_normalise_array rt l (length l) = Ok l' /\ length l' = length l /\
    (exists c, (0 < c)%Qc /\ forall i, near u 1 (c * nth i l 0)%Qc (nth i l' 0%Qc)) /\
    (forall i, near u (S (length l)) (nth i (normalised l) 0%Qc) (nth i l' 0%Qc)).
Proof.
  intros l HP.
  assert (HN : forall i, (0 <= nth i l 0)%Qc).
  { intros i. destruct (Nat.lt_ge_cases i (length l)) as [L|L]; [rewrite Forall_forall in HP; apply HP; now apply nth_In|].
    rewrite nth_overflow by auto. discriminate. }
  destruct (r_normalise_array_at_ok l 0 (length l)) as (l' & E & HL & (s & Hs & H) & H'); [lia|intros; apply HN|].
  exists l'. split; [exact E|]. split; [exact HL|]. cbn [Nat.add] in *. rewrite map_nth_seq in Hs.
  pose proof (near_zero u Hu0 Hu1 _ _ _ Hs) as HZ. destruct (near_nonneg u Hu0 Hu1 _ _ _ Hs) as (_ & Ps).
  assert (O : forall i, length l <= i -> nth i l 0%Qc = 0%Qc /\ nth i l' 0%Qc = 0%Qc).
  { intros i Hi. split; apply nth_overflow; lia. }
  assert (Q : forall i, near u (S (length l)) (nth i (normalised l) 0%Qc) (nth i l' 0%Qc)).
  { intros i. rewrite nth_normalised. destruct (Nat.lt_ge_cases i (length l)) as [L|L].
    - rewrite H by auto. destruct (qzero s) eqn:Z.
      + apply qzero_true in Z. apply HZ in Z. rewrite Z. change (qzero 0%Qc) with true. cbv iota. now apply near_refl.
      + apply qzero_false in Z. assert (Z' : qsum l <> 0%Qc) by tauto. apply qzero_false in Z'. rewrite Z'.
        apply near_fl. apply (near_div u Hu0 Hu1 0 (length l)); auto. now apply near_refl.
    - destruct (O i L) as (-> & ->). replace (if qzero (qsum l) then 0%Qc else (0 / qsum l)%Qc) with 0%Qc; [apply near_refl; auto; discriminate|].
      destruct (qzero (qsum l)); [reflexivity|]. unfold Qcdiv. now rewrite Qcmult_0_l. }
  split; [|exact Q].
  destruct (qzero s) eqn:Z.
  - exists 1%Qc. split; [reflexivity|]. intros i. rewrite Qcmult_1_l. destruct (Nat.lt_ge_cases i (length l)) as [L|L].
    + rewrite H by auto. now apply near_refl.
    + destruct (O i L) as (-> & ->). apply near_refl; auto; discriminate.
  - apply qzero_false in Z. exists (/ s)%Qc. split.
    + apply Qc_inv_pos. destruct (Qcle_lt_or_eq _ _ Ps); auto. congruence.
    + intros i. destruct (Nat.lt_ge_cases i (length l)) as [L|L].
      * rewrite H by auto. replace (/ s * nth i l 0)%Qc with (nth i l 0 / s)%Qc by (unfold Qcdiv; ring). apply Hfl. now apply Qc_div_nonneg.
      * destruct (O i L) as (-> & ->). replace (/ s * 0)%Qc with 0%Qc by ring. apply near_refl; auto; discriminate.
Qed.

End Total.
