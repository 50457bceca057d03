(** * Proofs about nip_create_sepsets *)
From Coq Require Import Permutation Relations Sorted.
From Verif Require Import Base BaseProofs PotentialModel PotentialSpec AssignSpec VariableModel
  VariableProofs HeapModel HeapSpec HeapProofs JoinTreeModel JoinTreeSpec
  GraphModel GraphSpec GraphTheory GraphProofs2 GraphProofs3 GraphProofs4 ReorderProofs.
Import ListNotations.
Open Scope nat_scope.
Local Open Scope res_scope.

Definition no_clique : clique := mkClique [] (mkPot [] []) (mkPot [] []) [] false.

Lemma Forall2_at : forall {A B} (R : A -> B -> Prop) l k d e, Forall2 R l k ->
  length k = length l /\ forall i, i < length l -> R (nth i l d) (nth i k e).
Proof.
  intros A B R l k d e H. induction H as [|x y l k H1 H2 [L IH]]; cbn.
  - split; auto. intros i Hi. inversion Hi.
  - split; [auto|]. intros [|i] Hi; auto. apply IH. lia.
Qed.

Section Sepsets.
Variables (card : nat -> nat) (out : list clique) (Ks : list (list nat)).
Hypothesis HC : forall v, 0 < card v.
Hypothesis HF : Forall2 (fresh card) out Ks.
Hypothesis HN : forall K, In K Ks -> K <> [] /\ NoDup K /\ fits card K.
Notation m := (length out).

Definition cv (i : nat) : list nat := c_vars (nth i out no_clique).

Lemma len_eq : length Ks = m.
Proof. apply (Forall2_at _ _ _ no_clique [] HF). Qed.

Lemma fresh_at : forall i, i < m -> fresh card (nth i out no_clique) (nth i Ks []).
Proof. apply (Forall2_at _ _ _ no_clique [] HF). Qed.

Lemma cv_in : forall i v, i < m -> In v (cv i) <-> In v (nth i Ks []).
Proof. intros i v Hi. destruct (fresh_at i Hi) as (c & E & _ & Q). unfold cv. rewrite E. apply Q. Qed.

Lemma cv_clique : forall i, i < m ->
  nth i out no_clique = mkClique (cv i) (ones card (cv i)) (ones card (cv i)) [] false.
Proof. intros i Hi. destruct (fresh_at i Hi) as (c & E & _ & Q). unfold cv. rewrite E. reflexivity. Qed.

Lemma cv_sorted : forall i, i < m -> StronglySorted lt (cv i).
Proof. intros i Hi. destruct (fresh_at i Hi) as (c & E & S & Q). unfold cv. rewrite E. exact S. Qed.

Lemma cv_nodup : forall i, i < m -> NoDup (cv i).
Proof. intros. apply sorted_nodup, cv_sorted; auto. Qed.

Lemma Ks_at : forall i, i < m -> In (nth i Ks []) Ks.
Proof. intros i Hi. apply nth_In. now rewrite len_eq. Qed.

Lemma cv_perm : forall i, i < m -> Permutation (cv i) (nth i Ks []).
Proof.
  intros i Hi. apply NoDup_Permutation; [apply cv_nodup; auto|apply HN, Ks_at; auto|].
  intros v. apply cv_in; auto.
Qed.

Lemma cv_nonempty : forall i, i < m -> cv i <> [].
Proof.
  intros i Hi Q. assert (P := cv_perm i Hi). rewrite Q in P. apply Permutation_nil in P.
  exact (proj1 (HN _ (Ks_at i Hi)) P).
Qed.

Lemma cv_fits : forall i, i < m -> (Z.of_nat (prod (map card (cv i))) <= INT_MAX)%Z.
Proof.
  intros i Hi. rewrite (prod_perm _ _ (Permutation_map card (cv_perm i Hi))).
  apply (HN _ (Ks_at i Hi)).
Qed.

Lemma prod_filter : forall (f : nat -> bool) l, prod (map card (filter f l)) <= prod (map card l).
Proof.
  intros f l. induction l as [|x l IH]; cbn; [lia|]. assert (Q := HC x).
  destruct (f x); cbn; nia.
Qed.

(** The sepset between two cliques. *)
Definition sv (a b : nat) : list nat := filter (fun x => memb x (cv b)) (cv a).
Definition sp (a b : nat) : sepset := mkSepset (sv a b) (ones card (sv a b)) (ones card (sv a b)) a b.

Lemma sv_nodup : forall a b, a < m -> NoDup (sv a b).
Proof. intros. apply NoDup_filter, cv_nodup; auto. Qed.

Lemma sv_fits : forall a b, a < m -> (Z.of_nat (prod (map card (sv a b))) <= INT_MAX)%Z.
Proof.
  intros a b Ha. assert (Q := cv_fits a Ha).
  assert (W := prod_filter (fun x => memb x (cv b)) (cv a)). unfold sv. lia.
Qed.

Lemma new_sepset_ok : forall a b, a < m -> b < m ->
  new_sepset card (mkJT out []) a b = Ok (Some (sp a b)).
Proof.
  intros a b Ha Hb. unfold new_sepset. cbn [cls].
  rewrite (rd_ok _ _ _ no_clique) by auto. cbn [bind].
  rewrite (rd_ok _ _ _ no_clique) by auto. cbn [bind].
  rewrite (cv_clique a), (cv_clique b) by auto. cbn [c_vars c_p].
  assert (A : forall l, l <> [] -> arr l = Some l) by (intros [|]; [congruence|auto]).
  rewrite !A by (apply cv_nonempty; auto). unfold dimensionality, ones. cbn [dims].
  rewrite !map_length, isect_ok. cbn [bind].
  fold (sv a b). destruct (Z.ltb_spec (Z.of_nat (length (sv a b))) 0); [lia|].
  rewrite Nat2Z.id.
  assert (U : unarr (match sv a b with [] => None | _ => Some (sv a b) end) = sv a b).
  { destruct (sv a b); reflexivity. }
  rewrite U.
  match goal with |- context [for_up 0 (length (sv a b)) ?b0 ?s0] =>
    destruct (for_up_inv (list nat) (fun t l => length l = length (sv a b) /\
       forall i, i < t -> nth i l 0 = card (nth i (sv a b) 0)) b0 0 (length (sv a b)) s0)
      as (l & E & L & Q) end.
  - lia.
  - rewrite repeat_length. split; auto. intros; lia.
  - intros i l Hi (L & Q). rewrite (rd_ok _ _ _ 0) by lia. cbn [bind]. rewrite wr_ok by lia.
    eexists; split; [reflexivity|]. rewrite set_nth_length. split; auto.
    intros k Hk. rewrite nth_set_nth by lia. destruct (Nat.eqb_spec k i) as [->|]; auto. apply Q; lia.
  - rewrite E. cbn [bind].
    assert (l = map card (sv a b)) as ->.
    { apply (list_ext_nth _ 0); [now rewrite map_length|]. intros i Hi.
      rewrite (nth_map _ _ _ _ _ 0) by lia. apply Q. lia. }
    replace (Z.of_nat (length (sv a b))) with (Z.of_nat (length (map card (sv a b)))) by (now rewrite map_length).
    rewrite new_potential_none; [|apply sv_fits; auto|apply map_pos; auto]. reflexivity.
Qed.

(** ** All pairs of cliques in the heap *)
Definition pairs (t : nat) : list (nat * nat) :=
  flat_map (fun i => map (fun j => (i, j)) (seq (S i) (m - S i))) (seq 0 t).

Lemma pairs_S : forall t, pairs (S t) = pairs t ++ map (fun j => (t, j)) (seq (S t) (m - S t)).
Proof. intros t. unfold pairs. rewrite seq_S, flat_map_app. cbn. now rewrite app_nil_r. Qed.

Lemma pairs_length : forall t, t <= m -> 2 * length (pairs t) + t * t + t = 2 * t * m.
Proof.
  induction t as [|t IH]; intros Ht; [reflexivity|].
  rewrite pairs_S, app_length, map_length, seq_length. specialize (IH ltac:(lia)). nia.
Qed.

Lemma pairs_half : 0 < m -> length (pairs (m - 1)) = m * (m - 1) / 2.
Proof.
  intros Hm. assert (Q := pairs_length (m - 1) ltac:(lia)).
  apply Nat.div_unique with 0; [lia|]. nia.
Qed.

Lemma pairs_in : forall a b, In (a, b) (pairs (m - 1)) <-> a < b < m.
Proof.
  intros a b. unfold pairs. rewrite in_flat_map. split.
  - intros (i & Hi & Q). apply in_seq in Hi. apply in_map_iff in Q. destruct Q as (j & Q & Hj).
    inversion Q; subst. apply in_seq in Hj. lia.
  - intros Q. exists a. split; [apply in_seq; lia|]. apply in_map_iff. exists b. split; auto.
    apply in_seq. lia.
Qed.

Definition spp (e : nat * nat) : sepset := sp (fst e) (snd e).
Notation k1 := sepset_primary_cost.
Notation k2 := sepset_secondary_cost.

Lemma build_sepset_heap_one : m <= 1 -> build_sepset_heap card (mkJT out []) m = Ok None.
Proof.
  intros Hm. unfold build_sepset_heap.
  rewrite imul_ok by (unfold INT_MAX; nia). cbn [bind].
  replace (m * (m - 1)) with 0 by nia. reflexivity.
Qed.

Lemma build_sepset_heap_ok : 2 <= m -> (Z.of_nat (m * (m - 1)) <= INT_MAX)%Z ->
  exists h M, build_sepset_heap card (mkJT out []) m = Ok (Some h) /\ stores k1 k2 h M /\
    is_heap h /\ Permutation M (map spp (pairs (m - 1))).
Proof.
  intros Hm HI. unfold build_sepset_heap. rewrite imul_ok by lia. cbn [bind].
  assert (PH := pairs_half ltac:(lia)).
  assert (PL := pairs_length (m - 1) ltac:(lia)).
  destruct (new_heap_ok k1 k2 (m * (m - 1) / 2)) as (h0 & E0 & S0 & A0 & F0 & U0).
  { rewrite <- PH. nia. }
  rewrite E0.
  match goal with |- context [for_up 0 (m - 1) ?b0 ?s0] =>
    destruct (for_up_inv (heap sepset) (fun t h => stores k1 k2 h (map spp (pairs t)) /\
       h_alloc h = m * (m - 1) / 2 /\ h_heapified h = false) b0 0 (m - 1) s0)
      as (h1 & E1 & S1 & A1 & F1) end.
  - lia.
  - auto.
  - intros i h Hi (S1 & A1 & F1).
    match goal with |- context [for_up (S i) m ?b0 h] =>
      destruct (for_up_inv (heap sepset) (fun t h => stores k1 k2 h
          (map spp (pairs i ++ map (fun j => (i, j)) (seq (S i) (t - S i)))) /\
        h_alloc h = m * (m - 1) / 2 /\ h_heapified h = false) b0 (S i) m h)
        as (h2 & E2 & S2 & A2 & F2) end.
    + lia.
    + rewrite Nat.sub_diag. cbn [seq map]. rewrite app_nil_r. auto.
    + intros j h2 Hj (S2 & A2 & F2). rewrite new_sepset_ok by lia. cbn [bind].
      destruct (insert_ok k1 k2 h2 _ (sp i j) true S2) as (h3 & E3 & S3 & A3 & F3 & _).
      { rewrite A2, <- PH, map_length, app_length, map_length, seq_length.
        assert (Q1 := pairs_length i ltac:(lia)). nia. }
      rewrite E3. cbn [bind]. eexists; split; [reflexivity|]. split; [|split; [lia|auto]].
      replace (S j - S i) with (S (j - S i)) by lia. rewrite seq_S, (map_app (fun j => (i, j))), app_assoc, (map_app spp).
      cbn [map]. replace (S i + (j - S i)) with j by lia. exact S3.
    + rewrite E2. exists h2. split; auto. split; auto. rewrite pairs_S. exact S2.
  - rewrite E1. cbn [bind].
    destruct (build_ok k1 k2 h1 _ S1 F1) as (h2 & M2 & E2 & S2 & P2 & H2 & _).
    rewrite E2. cbn [bind]. eauto 10.
Qed.

(** ** The tree under construction *)
Record tree_inv (jt : jtree) (E : list (nat * nat)) : Prop := mkTI {
  ti_len : length (cls jt) = m;
  ti_cl : forall i, i < m -> c_vars (clq jt i) = cv i /\ c_p (clq jt i) = ones card (cv i) /\
            c_orig (clq jt i) = ones card (cv i);
  ti_sps : sps jt = map spp (rev E);
  ti_range : forall a b, In (a, b) E -> a < b < m;
  ti_nodup : forall i, i < m -> NoDup (c_sepsets (clq jt i));
  ti_lists : forall i s, i < m -> (In s (c_sepsets (clq jt i)) <->
               s < length (sps jt) /\ (s_first (sep jt s) = i \/ s_second (sep jt s) = i))
}.

Lemma start_inv : tree_inv (mkJT out []) [].
Proof.
  constructor; cbn [cls sps rev map]; auto.
  - intros i Hi. unfold clq. cbn [cls]. change (mkClique [] (mkPot [] []) (mkPot [] []) [] false) with no_clique.
    rewrite cv_clique by auto. auto.
  - intros a b [].
  - intros i Hi. unfold clq. cbn [cls]. change (mkClique [] (mkPot [] []) (mkPot [] []) [] false) with no_clique.
    rewrite cv_clique by auto. constructor.
  - intros i s Hi. unfold clq. cbn [cls]. change (mkClique [] (mkPot [] []) (mkPot [] []) [] false) with no_clique.
    rewrite cv_clique by auto. cbn. split; [tauto|]. lia.
Qed.

Lemma remark_inv : forall jt E ms, tree_inv jt E -> tree_inv (remark jt ms) E.
Proof.
  intros jt E ms [t1 t2 t3 t4 t5 t6].
  assert (CQ : forall i, i < m -> clq (remark jt ms) i = set_mark (clq jt i) (nth i ms false)).
  { intros i Hi. unfold clq at 1. cbn [remark cls].
    rewrite (nth_map _ _ _ _ _ 0) by (rewrite seq_length; lia). rewrite seq_nth by lia. reflexivity. }
  constructor; auto.
  - now rewrite remark_length.
  - intros i Hi. rewrite CQ by auto. apply t2; auto.
  - intros i Hi. rewrite CQ by auto. apply t5; auto.
  - intros i s Hi. rewrite CQ by auto. apply t6; auto.
Qed.

Lemma sep_at : forall jt E, tree_inv jt E -> forall s, s < length (sps jt) ->
  exists a b, In (a, b) E /\ sep jt s = sp a b.
Proof.
  intros jt E T s Hs. unfold sep. rewrite (ti_sps _ _ T) in *. rewrite map_length in Hs.
  rewrite (nth_map _ _ _ _ _ (0, 0)) by auto.
  destruct (nth s (rev E) (0, 0)) as [a b] eqn:Q. exists a, b. split; auto.
  apply in_rev. rewrite <- Q. apply nth_In; auto.
Qed.

Lemma sep_of : forall jt E, tree_inv jt E -> forall a b, In (a, b) E ->
  exists s, s < length (sps jt) /\ sep jt s = sp a b.
Proof.
  intros jt E T a b H. apply in_rev in H. apply (In_nth _ _ (0, 0)) in H.
  destruct H as (s & Hs & Q). exists s. unfold sep. rewrite (ti_sps _ _ T). split.
  - now rewrite map_length.
  - rewrite (nth_map _ _ _ _ _ (0, 0)) by auto. now rewrite Q.
Qed.

Lemma inv_link : forall jt E, tree_inv jt E -> forall x y, x < length (cls jt) ->
  (link E x y <-> exists s, In s (c_sepsets (clq jt x)) /\ joins jt s x y).
Proof.
  intros jt E T x y Hx. rewrite (ti_len _ _ T) in Hx. split.
  - intros [Q|Q]; destruct (sep_of jt E T _ _ Q) as (s & Hs & EQ); exists s; unfold joins;
      rewrite (ti_lists _ _ T x s Hx), EQ; cbn; auto.
  - intros (s & Hs & J). apply (ti_lists _ _ T x s Hx) in Hs. destruct Hs as [Hs _].
    destruct (sep_at jt E T s Hs) as (a & b & Q & EQ). unfold joins in J. rewrite EQ in J. cbn in J.
    destruct J as [[-> ->]|[-> ->]]; [left|right]; auto.
Qed.

Lemma inv_ends : forall jt E, tree_inv jt E -> forall x s, x < length (cls jt) ->
  In s (c_sepsets (clq jt x)) ->
  s < length (sps jt) /\ s_first (sep jt s) < length (cls jt) /\
  s_second (sep jt s) < length (cls jt) /\
  (s_first (sep jt s) = x \/ s_second (sep jt s) = x).
Proof.
  intros jt E T x s Hx Hs. rewrite (ti_len _ _ T) in *. apply (ti_lists _ _ T x s Hx) in Hs.
  destruct Hs as [Hs Q]. split; auto.
  destruct (sep_at jt E T s Hs) as (a & b & HI & EQ). apply (ti_range _ _ T) in HI.
  rewrite EQ in *. cbn in *. lia.
Qed.

Lemma confirm_ok : forall jt E a b, tree_inv jt E -> a < b < m ->
  exists jt', confirm_sepset (mkJT (cls jt) (sps jt ++ [sp a b])) (length (sps jt)) = Ok jt' /\
    tree_inv jt' ((a, b) :: E).
Proof.
  intros jt E a b T Hab. unfold confirm_sepset. cbn [sps cls].
  rewrite (rd_ok _ _ _ (sp 0 0)) by (rewrite app_length; cbn; lia). cbn [bind].
  rewrite app_nth2, Nat.sub_diag by lia. cbn [nth s_first s_second sp].
  assert (LM := ti_len _ _ T).
  rewrite (rd_ok _ _ _ no_clique) by lia. cbn [bind]. unfold put_clique at 1. cbn [cls sps].
  rewrite wr_ok by lia. cbn [bind cls sps].
  rewrite (rd_ok _ _ _ no_clique) by (rewrite set_nth_length; lia). cbn [bind].
  rewrite nth_set_nth by lia. destruct (Nat.eqb_spec b a); [lia|].
  unfold put_clique. cbn [cls sps]. rewrite wr_ok by (rewrite set_nth_length; lia). cbn [bind].
  eexists; split; [reflexivity|].
  set (k := length (sps jt)).
  assert (CQ : forall i, i < m -> clq (mkJT (set_nth (set_nth (cls jt) a
      (set_sepsets (nth a (cls jt) no_clique) (k :: c_sepsets (nth a (cls jt) no_clique)))) b
      (set_sepsets (nth b (cls jt) no_clique) (k :: c_sepsets (nth b (cls jt) no_clique))))
      (sps jt ++ [sp a b])) i =
      if (Nat.eqb i a || Nat.eqb i b)%bool then set_sepsets (clq jt i) (k :: c_sepsets (clq jt i)) else clq jt i).
  { intros i Hi. unfold clq. cbn [cls]. rewrite !nth_set_nth by (rewrite ?set_nth_length; lia).
    destruct (Nat.eqb_spec i a) as [N1|N1], (Nat.eqb_spec i b) as [N2|N2]; cbn [orb]; auto; [lia|..].
    - now rewrite N1.
    - now rewrite N2. }
  assert (SP : forall s, s < k -> sep (mkJT (set_nth (set_nth (cls jt) a
      (set_sepsets (nth a (cls jt) no_clique) (k :: c_sepsets (nth a (cls jt) no_clique)))) b
      (set_sepsets (nth b (cls jt) no_clique) (k :: c_sepsets (nth b (cls jt) no_clique))))
      (sps jt ++ [sp a b])) s = sep jt s).
  { intros s Hs. unfold sep. cbn [sps]. rewrite app_nth1 by auto. reflexivity. }
  constructor.
  - cbn [cls]. now rewrite !set_nth_length.
  - intros i Hi. rewrite CQ by auto. destruct (Nat.eqb i a || Nat.eqb i b)%bool; apply (ti_cl _ _ T); auto.
  - cbn [sps rev]. rewrite map_app, <- (ti_sps _ _ T). reflexivity.
  - intros x y [Q|Q]; [inversion Q; subst; auto|]. apply (ti_range _ _ T); auto.
  - intros i Hi. rewrite CQ by auto. destruct (Nat.eqb i a || Nat.eqb i b)%bool; [|apply (ti_nodup _ _ T); auto].
    cbn. constructor; [|apply (ti_nodup _ _ T); auto].
    intros Q. apply (ti_lists _ _ T i k Hi) in Q. unfold k in Q. lia.
  - intros i s Hi. rewrite CQ by auto. cbn [sps]. rewrite app_length. cbn [length]. fold k.
    destruct (Nat.eq_dec s k) as [->|NS].
    + assert (SK : sep (mkJT (set_nth (set_nth (cls jt) a
        (set_sepsets (nth a (cls jt) no_clique) (k :: c_sepsets (nth a (cls jt) no_clique)))) b
        (set_sepsets (nth b (cls jt) no_clique) (k :: c_sepsets (nth b (cls jt) no_clique))))
        (sps jt ++ [sp a b])) k = sp a b).
      { unfold sep. cbn [sps]. unfold k. now rewrite app_nth2, Nat.sub_diag by lia. }
      rewrite SK. cbn [sp s_first s_second].
      destruct (Nat.eqb_spec i a) as [N1|N1], (Nat.eqb_spec i b) as [N2|N2]; cbn [orb set_sepsets c_sepsets In].
      * lia.
      * split; auto. intros _. split; [lia|auto].
      * split; auto. intros _. split; [lia|auto].
      * split; [|lia]. intros Q. apply (ti_lists _ _ T i k Hi) in Q. unfold k in Q. lia.
    + assert (Q0 : In s (c_sepsets (if (Nat.eqb i a || Nat.eqb i b)%bool
        then set_sepsets (clq jt i) (k :: c_sepsets (clq jt i)) else clq jt i)) <-> In s (c_sepsets (clq jt i))).
      { destruct (Nat.eqb i a || Nat.eqb i b)%bool; [|tauto]. cbn. intuition congruence. }
      rewrite Q0, (ti_lists _ _ T i s Hi). fold k.
      destruct (Nat.lt_ge_cases s k) as [L|L].
      * rewrite SP by auto. intuition lia.
      * intuition lia.
Qed.

(** ** The loop *)
Variables (K : nat -> list nat) (kap : nat -> nat).
Hypothesis HK : forall i, i < m -> K (kap i) = nth i Ks [].

Lemma common_sv : forall c d, c < m -> d < m -> common K kap c d = length (sv c d).
Proof.
  intros c d Hc Hd. unfold common, sv. rewrite !HK by auto. symmetry.
  assert (P := cv_perm c Hc).
  transitivity (length (filter (fun x => memb x (cv d)) (nth c Ks []))).
  - clear -P. induction P; cbn; auto.
    + destruct (memb x (cv d)); cbn; lia.
    + destruct (memb x (cv d)), (memb y (cv d)); cbn; lia.
    + lia.
  - f_equal. apply filter_ext. intros x. change (existsb (Nat.eqb x) (nth d Ks [])) with (memb x (nth d Ks [])).
    destruct (memb x (cv d)) eqn:B; symmetry.
    + apply memb_in. apply memb_in in B. apply cv_in in B; auto.
    + apply memb_notin. apply memb_notin in B. rewrite <- cv_in; auto.
Qed.

Lemma common_sym : forall c d, c < m -> d < m -> common K kap c d = common K kap d c.
Proof.
  intros c d Hc Hd. rewrite !common_sv by auto. apply Permutation_length.
  apply NoDup_Permutation; [apply sv_nodup; auto..|].
  intros x. unfold sv. rewrite !filter_In, !memb_in. tauto.
Qed.

Lemma key_common : forall a b c d, a < m -> b < m -> c < m -> d < m ->
  key_le k1 k2 (sp a b) (sp c d) -> common K kap c d <= common K kap a b.
Proof.
  intros a b c d Ha Hb Hc Hd Q. rewrite !common_sv by auto.
  unfold key_le, sepset_primary_cost, sepset_secondary_cost, dimensionality in Q. cbn in Q.
  rewrite !map_length in Q. lia.
Qed.

Lemma sepsets_loop_ok : forall fuel h jt E M,
  stores k1 k2 h M -> is_heap h -> h_size h < fuel ->
  (forall s, In s M -> exists a b, a < b < m /\ s = sp a b) ->
  (forall a b, a < b < m -> conn E a b \/ In (sp a b) M) ->
  tree_inv jt E -> greedy K m kap E -> length E <= m - 1 -> 0 < m ->
  exists jt' E', create_sepsets_loop fuel m (length E) h jt = Ok (jt', NO_ERROR) /\
    tree_inv jt' E' /\ greedy K m kap E' /\ length E' = m - 1.
Proof.
  induction fuel as [|fuel IH]; intros h jt E M SM HH HL HM HP T G LE Hm; [lia|].
  cbn [create_sepsets_loop].
  destruct (Nat.ltb_spec (length E) (m - 1)) as [LT|GE]; cbn [negb].
  2:{ exists jt, E. split; [auto|]. split; [auto|]. split; [auto|]. lia. }
  destruct M as [|s M].
  { exfalso. assert (Q : m <= S (length E)); [|lia]. apply connected_edges.
    intros x y Hx Hy. destruct (Nat.lt_trichotomy x y) as [L|[->|L]].
    - destruct (HP x y) as [Q|[]]; auto.
    - apply conn_refl.
    - apply conn_sym. destruct (HP y x) as [Q|[]]; auto. }
  destruct (extract_ok k1 k2 h s M SM HH) as (h1 & M1 & E1 & S1 & P1 & H1 & A1 & F1 & U1 & MIN).
  rewrite E1. cbn [bind].
  destruct (HM s (or_introl eq_refl)) as (a & b & Hab & ->). cbn [sp s_first s_second].
  assert (SZ : S (h_size h1) = h_size h).
  { destruct S1 as [Q1 _], SM as [Q2 _]. rewrite Q1, Q2, (Permutation_length P1). reflexivity. }
  assert (HM1 : forall s, In s M1 -> exists a b, a < b < m /\ s = sp a b).
  { intros s Hs. apply HM. right. apply Permutation_in with M1; auto. }
  destruct (connected_ok jt E b (inv_link jt E T) (inv_ends jt E T) a) as (ms & c & EC & QC).
  { rewrite (ti_len _ _ T). lia. }
  rewrite unmark_ok in EC |- *. cbn [bind] in EC |- *. rewrite (ti_len _ _ T) in EC.
  rewrite (ti_len _ _ T). rewrite EC. cbn [bind].
  assert (T1 := remark_inv jt E ms T).
  destruct c.
  - assert (CAB : conn E a b) by (apply QC; auto).
    apply (IH h1 _ E M1); auto; [lia|].
    intros x y Hxy. destruct (HP x y Hxy) as [Q|[Q|Q]]; auto.
    + injection Q; intros; subst. auto.
    + right. apply Permutation_in with M; auto using Permutation_sym.
  - assert (NAB : ~ conn E a b) by (intros Q; apply QC in Q; discriminate Q).
    destruct (confirm_ok (remark jt ms) E a b T1 Hab) as (jt2 & E2 & T2).
    change (mkSepset (sv a b) (ones card (sv a b)) (ones card (sv a b)) a b) with (sp a b) in *.
    rewrite E2. cbn [bind].
    change (S (length E)) with (length ((a, b) :: E)).
    apply (IH h1 _ _ M1); auto; [lia| |].
    + intros x y Hxy. destruct (HP x y Hxy) as [Q|[Q|Q]].
      * left. eapply conn_mono; [|exact Q]. intros z; right; auto.
      * injection Q; intros; subst. left. apply conn_link. left; auto.
      * right. apply Permutation_in with M; auto using Permutation_sym.
    + constructor; auto; try lia.
      assert (G1 : forall c d, c < d < m -> ~ conn E c d -> common K kap c d <= common K kap a b).
      { intros c d Hcd NC. destruct (HP c d Hcd) as [Q|[Q|Q]]; [contradiction| |].
        - injection Q; intros; subst. auto.
        - apply key_common; try lia. apply MIN; auto. }
      intros c d Hc Hd NC. destruct (Nat.lt_trichotomy c d) as [L|[->|L]].
      * apply G1; auto; lia.
      * exfalso. apply NC, conn_refl.
      * rewrite common_sym by auto. apply G1; [lia|]. intros Q. apply NC, conn_sym; auto.
Qed.

Lemma create_sepsets_ok : 0 < m -> (Z.of_nat (m * (m - 1)) <= INT_MAX)%Z ->
  exists jt e E, create_sepsets card (mkJT out []) m = Ok (jt, e) /\
    (e = NO_ERROR \/ (e = ENOMEM /\ m = 1)) /\ (2 <= m -> e = NO_ERROR) /\
    tree_inv jt E /\ greedy K m kap E /\ length E = m - 1.
Proof.
  intros Hm HI. unfold create_sepsets. destruct (Nat.lt_ge_cases 1 m) as [L|L].
  - destruct (build_sepset_heap_ok ltac:(lia) HI) as (h & M & E1 & S1 & H1 & P1).
    rewrite E1. cbn [bind].
    destruct (sepsets_loop_ok (S (h_size h)) h (mkJT out []) [] M) as (jt & E & E2 & T & G & LE); auto.
    + intros s Hs. apply (Permutation_in _ P1) in Hs. apply in_map_iff in Hs.
      destruct Hs as ([a b] & <- & Hs). apply pairs_in in Hs. exists a, b. auto.
    + intros a b Hab. right. apply Permutation_in with (1 := Permutation_sym P1).
      apply in_map_iff. exists (a, b). split; auto. apply pairs_in; auto.
    + apply start_inv.
    + constructor.
    + cbn; lia.
    + exists jt, NO_ERROR, E. repeat (split; [auto|]). exact LE.
  - rewrite build_sepset_heap_one by lia. cbn [bind].
    exists (mkJT out []), ENOMEM, []. split; auto. split; [right; split; auto; lia|].
    split; [lia|]. split; [apply start_inv|]. split; [constructor|]. cbn; lia.
Qed.

End Sepsets.
