(** * Proofs about nip_create_potential *)
From Coq Require Import Permutation Sorted.
From Verif Require Import Base BaseProofs PotentialModel PotentialSpec PotentialProofs AssignSpec
  AssignProofs VariableModel VariableProofs JoinTreeModel GatherProofs GraphTheory ReorderProofs.
Import ListNotations.
Open Scope nat_scope.
Local Open Scope res_scope.

Lemma nth_ordered : forall vars ro j, NoDup vars -> length ro = length vars ->
  (forall j, j < length vars -> nth (rank vars j) ro 0 = j) -> j < length vars ->
  nth (rank vars j) (ordered vars ro) 0 = nth j vars 0.
Proof.
  intros vars ro j ND L I Hj. unfold ordered. assert (R := rank_lt vars j Hj).
  rewrite (nth_map _ _ _ _ _ 0) by (rewrite seq_length; auto). rewrite seq_nth by auto. cbn [plus].
  now rewrite I.
Qed.

Lemma map_card_pos : forall (card : nat -> nat) vs, (forall v, 0 < card v) -> Forall (fun d => 0 < d) (map card vs).
Proof. intros card vs H. apply Forall_forall. intros x Hx. apply in_map_iff in Hx. destruct Hx as (v & <- & _). auto. Qed.

(** The table with the reordered dimensions. *)
Lemma create_potential_ok : forall card vars dat, NoDup vars -> (forall v, 0 < card v) ->
  (Z.of_nat (prod (map card vars)) <= INT_MAX)%Z ->
  match dat with Some l => prod (map card vars) <= length l | None => True end ->
  exists vs p, Permutation vs vars /\ StronglySorted lt vs /\
    create_potential card vars (length vars) dat = Ok (Some p) /\ table card vs p /\
    forall a, valid card a -> den vs p a =
      match dat with
      | Some l => nth (flat (map card vars) (map a vars)) l 0%Qc
      | None => 1%Qc
      end.
Proof.
  intros card vars dat ND HC HM HL. unfold create_potential.
  destruct (reordering_ok vars ND) as (ind & ro & E & Hind & L & I). rewrite E. cbn [bind].
  assert (PM := ordered_perm vars ro ND L I). assert (SM := ordered_sorted vars ro ND L I).
  assert (RI := reorder_inv vars ro ND L I).
  assert (LO : length (ordered vars ro) = length vars) by (unfold ordered; now rewrite map_length, seq_length).
  assert (NO := fun j => nth_ordered vars ro j ND L I).
  assert (ON : forall k, k < length vars -> nth k (ordered vars ro) 0 = nth (nth k ro 0) vars 0).
  { intros k Hk. unfold ordered. rewrite (nth_map _ _ _ _ _ 0) by (rewrite seq_length; auto).
    now rewrite seq_nth by auto. }
  set (vs := ordered vars ro) in *. assert (CP := map_card_pos card vs HC).
  assert (CP2 := map_card_pos card vars HC).
  assert (PR : prod (map card vs) = prod (map card vars)) by (apply prod_perm, Permutation_map, PM).
  match goal with |- context [for_up 0 (length vars) ?b0 (?s0, 1)] =>
    destruct (for_up_inv (list nat * nat)
      (fun t '(ca, sz) => length ca = length vars /\ sz = prod (firstn t (map card vs)) /\
         forall j, j < t -> nth j ca 0 = card (nth j vs 0)) b0 0 (length vars) (s0, 1))
      as ([ca sz] & E2 & L1 & -> & Q)
  end.
  - lia.
  - rewrite repeat_length. split; auto. split; auto. intros j Hj. lia.
  - intros i [ca sz] Hi (L1 & -> & Q). rewrite (rd_ok _ _ _ 0) by lia. cbn [bind].
    destruct (RI i) as [R1 R2]; [lia|]. rewrite (rd_ok _ _ _ 0) by lia. cbn [bind].
    rewrite wr_ok by lia. cbn [bind]. rewrite <- ON by lia.
    assert (FS := prod_firstn_S (map card vs) i). rewrite map_length, LO in FS.
    rewrite (nth_map _ _ _ _ _ 0) in FS by lia.
    assert (FL := prod_firstn_le (map card vs) (S i) CP).
    rewrite imul_ok by (rewrite <- FS by lia; lia). cbn [bind].
    eexists; split; [reflexivity|]. cbv beta iota. rewrite set_nth_length. split; auto.
    split; [now rewrite FS by lia|].
    intros j Hj. rewrite nth_set_nth by lia. destruct (Nat.eqb_spec j i) as [->|N]; auto. apply Q. lia.
  - rewrite E2. cbn [bind].
    assert (ca = map card vs) as ->.
    { apply (list_ext_nth _ 0); [rewrite map_length; lia|]. intros j Hj.
      rewrite (nth_map _ _ _ _ _ 0) by lia. apply Q. lia. }
    rewrite firstn_all2 by (rewrite map_length; lia).
    assert (NL : new_potential (map card vs) (Z.of_nat (length vars)) None =
       Ok (Some (mkPot (map card vs) (repeat 1%Qc (prod (map card vs)))))).
    { rewrite <- LO, <- (map_length card vs). apply new_potential_none; auto. lia. }
    rewrite NL. cbn [bind]. clear NL E2 Q L1.
    set (p1 := mkPot (map card vs) (repeat 1%Qc (prod (map card vs)))).
    assert (W1 : wf p1). { split; [auto|]. split; [apply repeat_length|]. cbn. lia. }
    assert (NDS : NoDup vs) by (eapply Permutation_NoDup; [symmetry; exact PM|auto]).
    destruct dat as [l|].
    + match goal with |- context [for_up 0 (prod (map card vs)) ?b0 ?s0] =>
        destruct (for_up_inv (list Qc * list nat)
          (fun t '(d, ix) => length d = prod (map card vs) /\ length ix = length vars /\
             forall j, j < t -> nth j d 0%Qc =
               nth (flat (map card vars) (map (fun i => nth (rank vars i) (unflat (map card vs) j) 0)
                                            (seq 0 (length vars)))) l 0%Qc)
          b0 0 (prod (map card vs)) s0)
          as ([d ix] & E2 & L1 & L2 & Q)
      end.
      * lia.
      * cbn. rewrite !repeat_length. split; auto. split; auto. intros j Hj. lia.
      * intros i [d ix] Hi (L1 & L2 & Q).
        rewrite inverse_mapping_ok; [|auto| |].
        2:{ unfold size_of_data, p1. cbn. rewrite repeat_length. lia. }
        2:{ unfold dimensionality, p1. cbn. rewrite map_length. lia. }
        cbn [bind]. change (dims p1) with (map card vs). set (u := unflat (map card vs) i).
        assert (VU : valid_ix (map card vs) u) by (now apply unflat_valid).
        assert (LU : length u = length vars) by (unfold u; rewrite unflat_length, map_length; auto).
        set (w := map (fun i => nth (rank vars i) u 0) (seq 0 (length vars))).
        assert (LW : length w = length vars) by (unfold w; now rewrite map_length, seq_length).
        assert (NW : forall j, j < length vars -> nth j w 0 = nth (rank vars j) u 0).
        { intros j Hj. unfold w. rewrite (nth_map _ _ _ _ _ 0) by (rewrite seq_length; auto).
          now rewrite seq_nth by auto. }
        assert (VW : valid_ix (map card vars) w).
        { apply valid_ix_intro; [rewrite map_length; auto|]. intros j Hj. rewrite map_length in Hj.
          rewrite NW by lia. rewrite (nth_map _ _ _ _ _ 0) by lia. rewrite <- NO by lia.
          assert (RL := rank_lt vars j ltac:(lia)).
          assert (Z := valid_ix_nth _ _ (rank vars j) VU).
          rewrite map_length, LO in Z. specialize (Z RL). rewrite (nth_map _ _ _ _ _ 0) in Z by lia. exact Z. }
        match goal with |- context [for_up 0 (length vars) ?b0 (0, 1)] =>
          destruct (for_up_inv (nat * nat)
            (fun t '(index, ct) => index = flat (firstn t (map card vars)) (firstn t w) /\
                                   ct = prod (firstn t (map card vars))) b0 0 (length vars) (0, 1))
            as ([index ct] & E3 & -> & ->)
        end.
        -- lia.
        -- cbn. auto.
        -- intros j [index ct] Hj (-> & ->).
           assert (RL := rank_lt vars j ltac:(lia)).
           rewrite (rd_ok _ ind j 0) by (rewrite Hind, map_length, seq_length; lia). cbn [bind].
           assert (NI : nth j ind 0 = rank vars j).
           { rewrite Hind. rewrite (nth_map _ _ _ _ _ 0) by (rewrite seq_length; lia). now rewrite seq_nth by lia. }
           rewrite NI. rewrite (rd_ok _ u _ 0) by lia. cbn [bind]. rewrite <- NW by lia.
           assert (Hlt : flat (firstn (S j) (map card vars)) (firstn (S j) w) < prod (firstn (S j) (map card vars)))
             by (apply flat_lt, valid_firstn; auto).
           assert (Hle : prod (firstn (S j) (map card vars)) <= prod (map card vars)) by (apply prod_firstn_le; auto).
           assert (HS := prod_firstn_S (map card vars) j). rewrite map_length in HS. specialize (HS ltac:(lia)).
           rewrite flat_firstn_S in Hlt by (rewrite ?map_length; lia).
           rewrite imul_ok by lia. cbn [bind]. rewrite iadd_ok by lia. cbn [bind].
           rewrite (rd_ok _ _ _ 0) by (rewrite map_length; lia). cbn [bind].
           rewrite (nth_map _ _ _ _ _ 0) by lia. rewrite NO by lia.
           rewrite (nth_map _ _ _ _ _ 0) in HS by lia.
           rewrite imul_ok by (rewrite <- HS; lia). cbn [bind].
           eexists; split; [reflexivity|]. cbv beta iota. rewrite flat_firstn_S by (rewrite ?map_length; lia).
           rewrite HS. auto.
        -- rewrite E3. cbn [bind]. rewrite !firstn_all2 by (rewrite ?map_length; lia).
           assert (FLT := flat_lt _ _ VW).
           rewrite (rd_ok _ l _ 0%Qc) by lia. cbn [bind]. rewrite wr_ok by lia. cbn [bind].
           eexists; split; [reflexivity|]. cbv beta iota. rewrite set_nth_length. split; auto. split; [lia|].
           intros j Hj. rewrite nth_set_nth by lia. destruct (Nat.eqb_spec j i) as [->|N]; auto. apply Q. lia.
      * rewrite E2. cbn [bind]. exists vs. eexists. split; auto. split; auto. split; [reflexivity|].
        split. { split; auto. split; [|reflexivity]. split; [auto|]. split; [auto|]. cbn. lia. }
        intros a Ha. unfold den, cell. cbn [dims data].
        assert (VA := valid_ix_map card vs a Ha). rewrite Q by (now apply flat_lt).
        rewrite unflat_flat by auto. f_equal. f_equal.
        apply (list_ext_nth _ 0); [rewrite !map_length, seq_length; auto|].
        intros j Hj. rewrite map_length, seq_length in Hj.
        rewrite (nth_map _ _ _ _ _ 0) by (rewrite seq_length; auto). rewrite seq_nth by auto. cbn [plus].
        assert (RL := rank_lt vars j Hj).
        rewrite !(nth_map _ _ _ _ _ 0) by lia. now rewrite NO.
    + exists vs, p1. split; auto. split; auto. split; auto. split.
      { split; auto. }
      intros a Ha. unfold den, cell, p1. cbn [dims data]. apply nth_repeat_lt. apply flat_lt. now apply valid_ix_map.
Qed.
