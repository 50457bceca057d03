(** * Proofs about the reordering of variables in nipjointree.c *)
From Coq Require Import Permutation Sorted.
From Verif Require Import Base BaseProofs PotentialModel PotentialSpec PotentialProofs AssignSpec
  AssignProofs VariableModel VariableProofs JoinTreeModel GatherProofs GraphTheory.
Import ListNotations.
Open Scope nat_scope.
Local Open Scope res_scope.

(** Number of variables with a smaller identifier. *)
Definition rank (vars : list nat) (j : nat) : nat :=
  length (filter (fun v => Nat.ltb v (nth j vars 0)) vars).

Lemma filter_length_le : forall {A} (f : A -> bool) l, length (filter f l) <= length l.
Proof. intros A f l. induction l as [|x l IH]; cbn; [lia|]. destruct (f x); cbn; lia. Qed.

Lemma filter_length_lt : forall {A} (f : A -> bool) l x, In x l -> f x = false ->
  length (filter f l) < length l.
Proof.
  intros A f l x. induction l as [|y l IH]; intros Hx Hf; [destruct Hx|]. cbn.
  destruct Hx as [->|Hx].
  - rewrite Hf. assert (Q := filter_length_le f l). lia.
  - specialize (IH Hx Hf). destruct (f y); cbn; lia.
Qed.

Lemma filter_length_mono : forall {A} (f g : A -> bool) l, (forall x, f x = true -> g x = true) ->
  length (filter f l) <= length (filter g l).
Proof.
  intros A f g l Q. induction l as [|x l IH]; cbn; [lia|].
  destruct (f x) eqn:F; [rewrite (Q x F); cbn; lia|]. destruct (g x); cbn; lia.
Qed.

Lemma filter_length_mono_lt : forall {A} (f g : A -> bool) l x, (forall x, f x = true -> g x = true) ->
  In x l -> f x = false -> g x = true -> length (filter f l) < length (filter g l).
Proof.
  intros A f g l x Q. induction l as [|y l IH]; intros Hx Hf Hg; [destruct Hx|]. cbn.
  destruct Hx as [->|Hx].
  - rewrite Hf, Hg. assert (W := filter_length_mono f g l Q). cbn. lia.
  - specialize (IH Hx Hf Hg). destruct (f y) eqn:F; [rewrite (Q y F); cbn; lia|].
    destruct (g y); cbn; lia.
Qed.

Lemma rank_lt : forall vars j, j < length vars -> rank vars j < length vars.
Proof.
  intros vars j Hj. unfold rank. apply filter_length_lt with (nth j vars 0).
  - apply nth_In; auto.
  - apply Nat.ltb_irrefl.
Qed.

Lemma rank_mono : forall vars i j, i < length vars -> nth i vars 0 < nth j vars 0 ->
  rank vars i < rank vars j.
Proof.
  intros vars i j Hi L. unfold rank. apply filter_length_mono_lt with (nth i vars 0).
  - intros x Hx. apply Nat.ltb_lt in Hx. apply Nat.ltb_lt. lia.
  - apply nth_In; auto.
  - apply Nat.ltb_irrefl.
  - apply Nat.ltb_lt; auto.
Qed.

Lemma rank_inj : forall vars i j, NoDup vars -> i < length vars -> j < length vars ->
  rank vars i = rank vars j -> i = j.
Proof.
  intros vars i j ND Hi Hj E. destruct (Nat.lt_trichotomy (nth i vars 0) (nth j vars 0)) as [L|[L|L]].
  - apply (rank_mono vars i j Hi) in L. lia.
  - apply (NoDup_nth vars 0); auto.
  - apply (rank_mono vars j i Hj) in L. lia.
Qed.

Lemma rank_onto : forall vars k, NoDup vars -> k < length vars ->
  exists j, j < length vars /\ rank vars j = k.
Proof.
  intros vars k ND Hk.
  assert (P : Permutation (map (rank vars) (seq 0 (length vars))) (seq 0 (length vars))).
  { apply NoDup_Permutation_bis.
    - apply NoDup_map_on; [|apply seq_NoDup]. intros x y Hx Hy E. apply in_seq in Hx, Hy.
      apply (rank_inj vars); auto; lia.
    - now rewrite map_length.
    - intros x Hx. apply in_map_iff in Hx. destruct Hx as (j & <- & Hj). apply in_seq in Hj.
      apply in_seq. assert (Q := rank_lt vars j). lia. }
  assert (Q : In k (map (rank vars) (seq 0 (length vars)))).
  { apply Permutation_in with (1 := Permutation_sym P). apply in_seq. lia. }
  apply in_map_iff in Q. destruct Q as (j & E & Hj). apply in_seq in Hj. exists j. split; auto; lia.
Qed.

Lemma reordering_ok : forall vars, NoDup vars -> exists ind ro,
  reordering vars (length vars) = Ok (ind, ro) /\
  ind = map (rank vars) (seq 0 (length vars)) /\ length ro = length vars /\
  forall j, j < length vars -> nth (rank vars j) ro 0 = j.
Proof.
  intros vars ND. unfold reordering.
  match goal with |- context [for_up 0 (length vars) ?b0 (repeat 0 (length vars))] =>
    destruct (for_up_inv (list nat)
      (fun t ind => length ind = length vars /\ forall j, j < length vars ->
         nth j ind 0 = length (filter (fun v => Nat.ltb v (nth j vars 0)) (firstn t vars)))
      b0 0 (length vars) (repeat 0 (length vars))) as (ind & E & L & I)
  end.
  - lia.
  - split; [apply repeat_length|]. intros j Hj. now rewrite nth_repeat_lt.
  - intros i ind Hi (L & I). rewrite (rd_ok _ _ _ 0) by lia. cbn [bind].
    assert (FS : firstn (S i) vars = firstn i vars ++ [nth i vars 0]).
    { destruct Hi as [_ Hi]. clear -Hi. revert i Hi.
      induction vars as [|x vars IH]; intros [|i] Hi; cbn in *; try lia; auto. f_equal. apply IH; lia. }
    match goal with |- context [for_up 0 (length vars) ?b0 ind] =>
      destruct (for_up_inv (list nat)
        (fun t ind' => length ind' = length vars /\ forall j, j < length vars ->
           nth j ind' 0 = nth j ind 0 +
             (if (Nat.ltb j t && Nat.ltb (nth i vars 0) (nth j vars 0))%bool then 1 else 0))
        b0 0 (length vars) ind) as (ind2 & E2 & L2 & I2)
    end.
    + lia.
    + split; auto.
    + intros j ind' Hj (L' & I'). rewrite (rd_ok _ _ _ 0) by lia. cbn [bind].
      destruct (Nat.ltb (nth i vars 0) (nth j vars 0)) eqn:B.
      * rewrite (rd_ok _ _ _ 0) by lia. cbn [bind]. rewrite wr_ok by lia.
        eexists; split; [reflexivity|]. split; [now rewrite set_nth_length|].
        intros k Hk. rewrite nth_set_nth by lia. destruct (Nat.eqb_spec k j) as [->|N].
        -- rewrite I' by auto. rewrite B. rewrite (proj2 (Nat.ltb_ge j j)), (proj2 (Nat.ltb_lt j (S j))) by lia.
           cbn. lia.
        -- rewrite I' by auto. f_equal. destruct (Nat.ltb_spec k j), (Nat.ltb_spec k (S j)); auto; lia.
      * eexists; split; [reflexivity|]. split; auto. intros k Hk. rewrite I' by auto. f_equal.
        destruct (Nat.eq_dec k j) as [->|N].
        -- rewrite B, !andb_false_r. reflexivity.
        -- destruct (Nat.ltb_spec k j), (Nat.ltb_spec k (S j)); auto; lia.
    + exists ind2. split; auto. split; auto. intros j Hj. rewrite I2, I by auto.
      rewrite FS, filter_app, app_length. cbn [filter].
      rewrite (proj2 (Nat.ltb_lt j (length vars))) by auto. cbn [andb].
      destruct (Nat.ltb (nth i vars 0) (nth j vars 0)); auto.
  - rewrite E. cbn [bind].
    assert (IE : ind = map (rank vars) (seq 0 (length vars))).
    { apply (list_ext_nth _ 0); [now rewrite map_length, seq_length|]. intros j Hj. rewrite L in Hj.
      rewrite (nth_map _ _ _ _ _ 0) by (now rewrite seq_length). rewrite seq_nth by auto.
      rewrite I by auto. now rewrite firstn_all. }
    match goal with |- context [for_up 0 (length vars) ?b0 (repeat 0 (length vars))] =>
      destruct (for_up_inv (list nat)
        (fun t ro => length ro = length vars /\ forall j, j < t -> nth (rank vars j) ro 0 = j)
        b0 0 (length vars) (repeat 0 (length vars))) as (ro & E2 & L2 & I2)
    end.
    + lia.
    + split; [apply repeat_length|]. intros j Hj. lia.
    + intros i ro Hi (L' & I'). rewrite (rd_ok _ _ _ 0) by lia. cbn [bind].
      assert (Q : nth i ind 0 = rank vars i).
      { rewrite IE, (nth_map _ _ _ _ _ 0) by (rewrite seq_length; lia). now rewrite seq_nth by lia. }
      rewrite Q. assert (RL : rank vars i < length vars) by (apply rank_lt; lia).
      rewrite wr_ok by lia. eexists; split; [reflexivity|]. split; [now rewrite set_nth_length|].
      intros j Hj. rewrite nth_set_nth by lia.
      destruct (Nat.eqb_spec (rank vars j) (rank vars i)) as [EQ|N].
      * symmetry. apply (rank_inj vars); auto; lia.
      * apply I'. destruct (Nat.eq_dec j i) as [->|]; [congruence|lia].
    + rewrite E2. cbn [bind]. exists ind, ro. auto.
Qed.

Lemma reorder_inv : forall vars ro, NoDup vars -> length ro = length vars ->
  (forall j, j < length vars -> nth (rank vars j) ro 0 = j) ->
  forall k, k < length vars -> nth k ro 0 < length vars /\ rank vars (nth k ro 0) = k.
Proof.
  intros vars ro ND L I k Hk. destruct (rank_onto vars k ND Hk) as (j & Hj & <-).
  rewrite I by auto. auto.
Qed.

(** The variables in ascending order of their identifiers. *)
Definition ordered (vars ro : list nat) : list nat :=
  map (fun k => nth (nth k ro 0) vars 0) (seq 0 (length vars)).

Lemma ordered_perm : forall vars ro, NoDup vars -> length ro = length vars ->
  (forall j, j < length vars -> nth (rank vars j) ro 0 = j) -> Permutation (ordered vars ro) vars.
Proof.
  intros vars ro ND L I. assert (RI := reorder_inv vars ro ND L I).
  apply NoDup_Permutation_bis.
  - unfold ordered. apply NoDup_map_on; [|apply seq_NoDup]. intros x y Hx Hy E.
    apply in_seq in Hx, Hy. destruct (RI x) as [X1 X2]; [lia|]. destruct (RI y) as [Y1 Y2]; [lia|].
    apply (NoDup_nth vars 0) in E; auto. congruence.
  - unfold ordered. rewrite map_length, seq_length. lia.
  - intros x Hx. apply in_map_iff in Hx. destruct Hx as (k & <- & Hk). apply in_seq in Hk.
    apply nth_In. apply RI. lia.
Qed.

Lemma sorted_intro : forall l, (forall i j, i < j < length l -> nth i l 0 < nth j l 0) ->
  StronglySorted lt l.
Proof.
  induction l as [|x l IH]; intros Q; constructor.
  - apply IH. intros i j Hij. apply (Q (S i) (S j)). cbn. lia.
  - apply Forall_forall. intros y Hy. apply (In_nth _ _ 0) in Hy. destruct Hy as (j & Hj & <-).
    apply (Q 0 (S j)). cbn. lia.
Qed.

Lemma ordered_sorted : forall vars ro, NoDup vars -> length ro = length vars ->
  (forall j, j < length vars -> nth (rank vars j) ro 0 = j) -> StronglySorted lt (ordered vars ro).
Proof.
  intros vars ro ND L I. assert (RI := reorder_inv vars ro ND L I).
  apply sorted_intro. unfold ordered. rewrite map_length, seq_length. intros i j Hij.
  rewrite !(nth_map _ _ _ _ _ 0) by (rewrite seq_length; lia). rewrite !seq_nth by lia. cbn [plus].
  destruct (RI i) as [I1 I2]; [lia|]. destruct (RI j) as [J1 J2]; [lia|].
  destruct (Nat.lt_trichotomy (nth (nth i ro 0) vars 0) (nth (nth j ro 0) vars 0)) as [Q|[Q|Q]]; auto.
  - apply (NoDup_nth vars 0) in Q; auto. rewrite Q in I2. lia.
  - apply rank_mono in Q; auto. lia.
Qed.

Lemma sorted_nodup : forall l, StronglySorted lt l -> NoDup l.
Proof.
  induction 1 as [|x l S IH F]; constructor; auto. intros Q.
  rewrite Forall_forall in F. apply F in Q. lia.
Qed.

(** Sorted lists with the same elements are equal. *)
Lemma sorted_unique : forall l m, StronglySorted lt l -> StronglySorted lt m ->
  (forall x, In x l <-> In x m) -> l = m.
Proof.
  induction l as [|x l IH]; intros m SL SM Q.
  - destruct m as [|y m]; auto. exfalso. apply (Q y). left; auto.
  - destruct m as [|y m]; [exfalso; apply (Q x); left; auto|].
    inversion SL as [|? ? SL1 FL]; subst. inversion SM as [|? ? SM1 FM]; subst.
    rewrite Forall_forall in FL, FM.
    assert (x = y).
    { destruct (proj1 (Q x) (or_introl eq_refl)) as [->|Hx]; auto.
      destruct (proj2 (Q y) (or_introl eq_refl)) as [->|Hy]; auto.
      apply FM in Hx. apply FL in Hy. lia. }
    subst y. f_equal. apply IH; auto. intros z. split; intros Hz.
    + destruct (proj1 (Q z) (or_intror Hz)) as [<-|]; auto. apply FL in Hz. lia.
    + destruct (proj2 (Q z) (or_intror Hz)) as [<-|]; auto. apply FM in Hz. lia.
Qed.

(** ** Tables of ones *)
Definition ones (card : nat -> nat) (vs : list nat) : potential :=
  mkPot (map card vs) (repeat 1%Qc (prod (map card vs))).

Lemma new_potential_none : forall cs, (Z.of_nat (prod cs) <= INT_MAX)%Z -> Forall (fun d => 0 < d) cs ->
  new_potential cs (Z.of_nat (length cs)) None = Ok (Some (mkPot cs (repeat 1%Qc (prod cs)))).
Proof.
  intros cs HM HP.
  destruct (new_potential_ok cs (length cs) None) as (p & E & W & D & X).
  - rewrite firstn_all. split; auto.
  - lia.
  - exact I.
  - rewrite firstn_all in D, X. rewrite E. f_equal. f_equal. destruct p as [dp xp]. cbn in *.
    now subst.
Qed.

Lemma new_potential_fits : forall cs p,
  new_potential cs (Z.of_nat (length cs)) None = Ok p -> (Z.of_nat (prod cs) <= INT_MAX)%Z.
Proof.
  intros cs p H. unfold new_potential in H. destruct (Z.ltb_spec (Z.of_nat (length cs)) 0); [lia|].
  rewrite Nat2Z.id in H. inv_bind H. destruct x as (ds & ca). clear H.
  apply (for_up_back _ (fun i '(d, c) => d = prod (firstn i cs) /\ (Z.of_nat d <= INT_MAX)%Z)) in E.
  - destruct E as [-> E]. now rewrite firstn_all in E.
  - lia.
  - cbn. split; auto. unfold INT_MAX. lia.
  - intros i (d & c) (d' & c') Hi (H1 & H2) Eb. inv_as Eb x E1. inv_as Eb y E2. inv_as Eb z E3.
    inversion Eb; subst.
    assert (x = nth i cs 0). { rewrite (rd_ok _ _ _ 0) in E1 by lia. now inversion E1. }
    subst x. unfold imul in E2. destruct (_ <=? _)%Z eqn:B in E2; inversion E2; subst.
    apply Z.leb_le in B. split; [|lia].
    assert (FS : firstn (S i) cs = firstn i cs ++ [nth i cs 0]).
    { destruct Hi as [_ Hi]. clear -Hi. revert i Hi.
      induction cs as [|x vars IH]; intros [|i] Hi; cbn in *; try lia; auto. f_equal. apply IH; lia. }
    rewrite FS, prod_app. cbn. lia.
Qed.

(** ** nip_new_clique *)
Lemma new_clique_shape : forall card vars, NoDup vars -> exists cv,
  Permutation cv vars /\ StronglySorted lt cv /\
  new_clique card vars (length vars) =
    (let* p := new_potential (map card cv) (Z.of_nat (length cv)) None in
     let* o := new_potential (map card cv) (Z.of_nat (length cv)) None in
     match p, o with
     | Some p, Some o => Ok (Some (mkClique cv p o [] false))
     | _, _ => Ok None
     end).
Proof.
  intros card vars ND. unfold new_clique.
  destruct (reordering_ok vars ND) as (ind & ro & E & _ & L & I). rewrite E. cbn [bind].
  exists (ordered vars ro). split; [apply ordered_perm; auto|]. split; [apply ordered_sorted; auto|].
  assert (RI := reorder_inv vars ro ND L I).
  assert (LO : length (ordered vars ro) = length vars) by (unfold ordered; now rewrite map_length, seq_length).
  match goal with |- context [for_up 0 (length vars) ?b0 ?s0] =>
    destruct (for_up_inv (list nat * list nat)
      (fun t '(cv, ca) => length cv = length vars /\ length ca = length vars /\
         forall j, j < t -> nth j cv 0 = nth j (ordered vars ro) 0 /\
                            nth j ca 0 = card (nth j (ordered vars ro) 0)) b0 0 (length vars) s0)
      as ([cv ca] & E2 & L1 & L2 & Q)
  end.
  - lia.
  - rewrite !repeat_length. split; auto. split; auto. intros j Hj. lia.
  - intros i [cv ca] Hi (L1 & L2 & Q). rewrite (rd_ok _ _ _ 0) by lia. cbn [bind].
    destruct (RI i) as [R1 R2]; [lia|]. rewrite (rd_ok _ _ _ 0) by lia. cbn [bind].
    rewrite wr_ok by lia. cbn [bind]. rewrite wr_ok by lia. cbn [bind].
    eexists; split; [reflexivity|]. cbv beta iota. rewrite !set_nth_length. split; auto. split; auto.
    intros j Hj. rewrite !nth_set_nth by lia.
    assert (O : nth i (ordered vars ro) 0 = nth (nth i ro 0) vars 0).
    { unfold ordered. rewrite (nth_map _ _ _ _ _ 0) by (rewrite seq_length; lia). now rewrite seq_nth by lia. }
    destruct (Nat.eqb_spec j i) as [->|N]; [now rewrite O|]. apply Q. lia.
  - rewrite E2. cbn [bind].
    assert (cv = ordered vars ro) as ->.
    { apply (list_ext_nth _ 0); [lia|]. intros j Hj. apply Q. lia. }
    assert (ca = map card (ordered vars ro)) as ->.
    { apply (list_ext_nth _ 0); [rewrite map_length; lia|]. intros j Hj.
      rewrite (nth_map _ _ _ _ _ 0) by lia. apply Q. lia. }
    rewrite LO. reflexivity.
Qed.

Lemma prod_perm : forall l m, Permutation l m -> prod l = prod m.
Proof.
  intros l m P. induction P as [|x l m P IH|x y l|l m k P IH Q IQ]; cbn; auto; try lia.
Qed.

Lemma map_pos : forall card vs, (forall v : nat, 0 < card v) -> Forall (fun d => 0 < d) (map card vs).
Proof. intros card vs H. apply Forall_forall. intros d Hd. apply in_map_iff in Hd. destruct Hd as (v & <- & _). auto. Qed.

Lemma ones_table : forall card vs, (forall v, 0 < card v) -> NoDup vs ->
  (Z.of_nat (prod (map card vs)) <= INT_MAX)%Z -> table card vs (ones card vs).
Proof.
  intros card vs HC ND HM. split; [auto|]. split; [|reflexivity]. split; [apply map_pos; auto|].
  split; [apply repeat_length|exact HM].
Qed.

Lemma new_clique_ok : forall card vars, (forall v, 0 < card v) -> NoDup vars ->
  (Z.of_nat (prod (map card vars)) <= INT_MAX)%Z ->
  exists cv, Permutation cv vars /\ StronglySorted lt cv /\
    new_clique card vars (length vars) =
    Ok (Some (mkClique cv (ones card cv) (ones card cv) [] false)).
Proof.
  intros card vars HC ND HM. destruct (new_clique_shape card vars ND) as (cv & P & S & E).
  exists cv. split; auto. split; auto. rewrite E.
  replace (length cv) with (length (map card cv)) by apply map_length.
  rewrite new_potential_none.
  - reflexivity.
  - now rewrite (prod_perm _ _ (Permutation_map card P)).
  - apply map_pos; auto.
Qed.

Lemma new_clique_fits : forall card vars c, NoDup vars ->
  new_clique card vars (length vars) = Ok c -> (Z.of_nat (prod (map card vars)) <= INT_MAX)%Z.
Proof.
  intros card vars c ND H. destruct (new_clique_shape card vars ND) as (cv & P & S & E).
  rewrite E in H. inv_as H p Ep.
  replace (length cv) with (length (map card cv)) in Ep by apply map_length.
  apply new_potential_fits in Ep. now rewrite (prod_perm _ _ (Permutation_map card P)) in Ep.
Qed.
