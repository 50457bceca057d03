(** * Memory of the sepsets of a new join tree (for C91) *)
From Coq Require Import Permutation.
From Verif Require Import Base BaseProofs PotentialModel VariableModel VariableProofs JoinTreeModel HeapModel HeapSpec HeapProofs HeapProofs2 GraphModel GraphSpec GraphProofs GraphProofs2 GraphProofs5 MemoryModel MemorySpec MemoryProofs MemoryProofs2 MemoryProofs3 MemoryProofs4 MemoryProofs5 MemoryProofs6 MemoryProofs7 MemoryProofs8 MemoryProofs9 MemoryModel3 MemoryProofs19 MemoryProofs20 MemoryProofs21 MemoryProofs22 MemoryProofs23.
Import ListNotations.
Open Scope nat_scope.
Local Open Scope res_scope.

Definition item : Type := (nat * candidate) * fp.
(** The values of a candidate, and its pair of cliques. *)
Definition sval (x : nat * candidate) : sepset := snd (snd x).
Definition zs (z : item) : sepset := sval (fst z).
Definition ends (s : sepset) : nat * nat := (s_first s, s_second s).

Lemma insert_sval : forall H M c L' h' e hi, hok skey1 skey2 H M -> length M < h_alloc (mh H) ->
  heap_insert (fun x => skey1 (snd x)) (fun x => skey2 (snd x)) true true (mh H) (hi, c) = Ok (NO_ERROR, L') ->
  heap_insert sepset_primary_cost sepset_secondary_cost true true (hmap sval (mh H)) (snd c) = Ok (e, h') -> h' = hmap sval L'.
Proof.
  intros H M c L' h' e hi S LT E1 E2. assert (SZ : h_size (mh H) = length M) by exact (proj1 S).
  assert (X := insert_map sval sepset_primary_cost sepset_secondary_cost (mh H) (hi, c) ltac:(lia)). change (sval (hi, c)) with (snd c) in X. rewrite X in E2.
  change (fun x : nat * candidate => sepset_primary_cost (sval x)) with (fun x : nat * candidate => skey1 (snd x)) in E2.
  change (fun x : nat * candidate => sepset_secondary_cost (sval x)) with (fun x : nat * candidate => skey2 (snd x)) in E2.
  rewrite E1 in E2. cbn in E2. injection E2 as _ <-. reflexivity.
Qed.

Lemma new_sepset_ends : forall card jt a b s, JoinTreeModel.new_sepset card jt a b = Ok (Some s) -> s_first s = a /\ s_second s = b.
Proof.
  intros card jt a b s E. unfold JoinTreeModel.new_sepset in E. binv E ca. binv E cb. binv E p. destruct p as [vars size]. destruct (size <? 0)%Z; [discriminate E|].
  binv E l. binv E o. destruct o; [|discriminate E]. injection E as <-. auto.
Qed.

Section Sepsets.
Variables (card : nat -> nat) (vs cl : list nat) (base : nat) (out : list clique).
Notation num := (length out).
Notation jt0 := (mkJT out []).
Definition pos (k : nat) : nat := base + (num - 1 - k).

Definition cand_ok (z : item) : Prop :=
  exists p, fst (snd (fst z)) = Some p /\
    sep p (nth (pos (s_first (zs z))) cl 0) (nth (pos (s_second (zs z))) cl 0) (snd z) /\
    s_first (zs z) < s_second (zs z) < num /\
    JoinTreeModel.new_sepset card jt0 (s_first (zs z)) (s_second (zs z)) = Ok (Some (zs z)).

(** The cliques of the array and their variables exist. *)
Definition there (w : world) (t : tree) : Prop :=
  forall k, k < num -> exists mem, nth (pos k) (t_members t) None = Some mem /\ forallb (exists_var w) mem = true.

Lemma pos_ne : forall a b, a < b < num -> pos a <> pos b.
Proof. intros. unfold pos. lia. Qed.

(** What is in the heap, the memory around it, and the tree. *)
Definition held (m : memory) (w : world) (t : tree) (H : mheap candidate) (Z : list item) (L : list nat) (f : fp) : Prop :=
  hok skey1 skey2 H (map fst Z) /\ Forall cand_ok Z /\
  inv m vs cl (w_vars w) t (led (hblocks H (map fst Z) ++ L) ++ concat (map snd Z) ++ f) /\ rep w cl t /\ there w t.

Lemma new_candidate : forall m w t rest i j s, inv m vs cl (w_vars w) t rest -> there w t -> i < j < num ->
  JoinTreeModel.new_sepset card jt0 i j = Ok (Some s) ->
  exists m' p g, MemoryModel.new_sepset m (Some (nth (pos i) cl 0)) (Some (nth (pos j) cl 0)) = Ok (m', Some p) /\
    (forall hi, cand_ok ((hi, (Some p, s)), g)) /\ inv m' vs cl (w_vars w) t (g ++ rest).
Proof.
  intros m w t rest i j s INV TH Hij ES.
  destruct (TH i ltac:(lia)) as (ma & MA & VA). destruct (TH j ltac:(lia)) as (mb & MB & VB).
  assert (LA := inv_member_lt _ _ _ _ _ _ _ _ INV MA). assert (LB := inv_member_lt _ _ _ _ _ _ _ _ INV MB).
  assert (INV' := INV). destruct INV as (HV & (K1 & K2 & K3 & HC) & HE & H).
  assert (XA := HC _ LA). rewrite MA in XA. destruct XA as (FA & QA & SA). assert (XB := HC _ LB). rewrite MB in XB. destruct XB as (FB & QB & SB).
  destruct (live_members vs (w_vars w) (t_vars t) ma HV VA) as (A1 & _ & _). destruct (live_members vs (w_vars w) (t_vars t) mb HV VB) as (B1 & _ & _).
  assert (IV : incl (concat (t_vars t)) (blocks_of t ++ rest)) by (intros x Hx; apply in_or_app; left; apply in_or_app; left; exact Hx).
  assert (IC : forall k, k < length cl -> incl (nth k (t_cliques t) []) (blocks_of t ++ rest)).
  { intros k Lk x Hx. apply in_or_app. left. apply in_or_app. right. apply in_or_app. left. apply in_concat. exists (nth k (t_cliques t) []).
    split; [apply nth_In; lia|exact Hx]. }
  destruct (MemoryProofs5.new_sepset_ok m _ _ _ _ _ _ _ _ _ QA QB H (IC _ LA) (IC _ LB)) as (m1 & p & gs & E1 & SP & H1).
  { eapply Forall_impl; [|exact A1]. intros v. apply has_var_incl. exact IV. }
  { eapply Forall_impl; [|exact B1]. intros v. apply has_var_incl. exact IV. }
  exists m1, p, gs. split; [exact E1|]. destruct (new_sepset_ends _ _ _ _ _ ES) as (F1 & F2). split.
  - intros hi. exists p. unfold zs, sval. cbn [fst snd]. rewrite F1, F2. auto.
  - destruct INV' as (I1 & I2 & I3 & _). do 3 (split; [assumption|]). eapply heap_perm; [|exact H1]. perm.
Qed.

Lemma m_build_sepset_heap_ok : forall m w t ptrs L f h, inv m vs cl (w_vars w) t (led L ++ f) -> rep w cl t -> there w t ->
  (forall k, k < num -> rd ptrs k = Ok (Some (nth (pos k) cl 0))) ->
  build_sepset_heap card jt0 num = Ok h ->
  match h with
  | None => exists m', m_build_sepset_heap card m jt0 ptrs num = Ok (m', None) /\ inv m' vs cl (w_vars w) t (led L ++ f)
  | Some h => exists m' H Z, m_build_sepset_heap card m jt0 ptrs num = Ok (m', Some H) /\ hmap sval (mh H) = h /\ held m' w t H Z L f /\
      is_heap (mh H) /\ Permutation (map (fun z => ends (zs z)) Z) (pairs out (num - 1))
  end.
Proof.
  intros m w t ptrs L f h INV R TH PT E. unfold build_sepset_heap in E. unfold m_build_sepset_heap. binv E p. cbn [bind].
  assert (HP : p = num * (num - 1)). { unfold imul in K. match type of K with (if ?c then _ else _) = _ => destruct c; [injection K as <-; reflexivity|discriminate] end. }
  assert (O := inv_owns _ _ _ _ _ _ _ INV).
  destruct (Nat.eq_dec (p / 2) 0) as [Z0|Z0].
  { rewrite Z0 in *. cbn [new_heap] in E. unfold new_heap in E. cbn in E. injection E as <-. exists m. split; [reflexivity|exact INV]. }
  destruct (m_new_heap_ok skey1 skey2 m (p / 2) L _ ltac:(lia) O) as (m1 & H1 & E1 & S1 & O1 & N1 & A1 & F1). rewrite E1.
  assert (X := new_map sval (p / 2)). rewrite N1 in X. cbn [option_map] in X. rewrite X in E. binv E h1. binv E h2. injection E as <-.
  assert (num <> 0). { intros Q. rewrite Q in HP. cbn in HP. rewrite HP in Z0. apply Z0. reflexivity. }
  assert (PH := pairs_half out ltac:(lia)). assert (PL := pairs_length out (num - 1) ltac:(lia)).
  pose (inside := fun (P : list (nat * nat)) (h : heap sepset) (mH : memory * mheap candidate) => let '(m, H) := mH in
     exists Z, hmap sval (mh H) = h /\ held m w t H Z L f /\ map (fun z => ends (zs z)) Z = P /\ h_alloc (mh H) = p / 2 /\ h_heapified (mh H) = false).
  match type of K0 with for_up _ _ ?b ?s0 = Ok ?r => match goal with |- context [for_up 0 (num - 1) ?B ?T0] =>
    destruct (for_up_sim _ _ (fun i => inside (pairs out i)) b B 0 (num - 1) s0 T0 r) as (T & ET & RT) end end; [lia| | |exact K0|].
  - exists []. split; [reflexivity|]. split; [|split; [reflexivity|auto]]. split; [exact S1|]. split; [constructor|]. split; [|auto]. cbn [map concat app]. eapply owns_inv; eassumption.
  - intros i h3 mH3 h4 Hi IN3 E3.
    match type of E3 with for_up _ _ ?b ?s0 = Ok ?r => match goal with |- exists t', for_up _ _ ?B ?T0 = _ /\ _ =>
      destruct (for_up_sim _ _ (fun j => inside (pairs out i ++ map (fun j => (i, j)) (seq (S i) (j - S i)))) b B (S i) num s0 T0 r) as (T & ET & RT) end end; [lia| | |exact E3|].
    + rewrite Nat.sub_diag. cbn [seq map]. rewrite app_nil_r. exact IN3.
    + intros j h5 [m5 H5] h6 Hj (Z & <- & (S5 & C5 & I5 & R5 & T5) & EP & A5 & F5) E5. binv E5 s. destruct s as [s|]; [|discriminate E5]. binv E5 q. destruct q as [e h7]. injection E5 as <-.
      cbn [bind]. rewrite (PT i ltac:(lia)), (PT j ltac:(lia)). cbn [bind].
      destruct (new_candidate m5 w t _ i j s I5 TH ltac:(lia) K2) as (m6 & a & g & E6 & C6 & I6). rewrite E6. cbn [bind].
      assert (LT : length (map fst Z) < h_alloc (mh H5)).
      { rewrite map_length, <- (map_length (fun z => ends (zs z))), EP, A5, HP, <- PH, app_length, map_length, seq_length. assert (Q1 := pairs_length out i ltac:(lia)). nia. }
      destruct (m_insert_ok skey1 skey2 m6 H5 (map fst Z) (Some a, s) L (blocks_of t ++ concat (map snd Z ++ [g]) ++ f) S5 LT) as (m7 & H7 & hi & E7 & S7 & O7 & A7 & F7 & N7).
      { assert (O6 : owns m6 (hblocks H5 (map fst Z) ++ L) (blocks_of t ++ g ++ concat (map snd Z) ++ f)).
        { apply (inv_owns _ vs cl (w_vars w)). eapply inv_perm; [exact I6|]. perm. }
        eapply owns_frame; [exact O6|]. apply Permutation_app_head. rewrite concat_app. cbn [concat]. rewrite app_nil_r. perm. }
      rewrite E7. eexists. split; [reflexivity|]. cbv beta iota. exists (Z ++ [((hi, (Some a, s)), g)]). split; [|split; [|split; [|split; [congruence|exact F7]]]].
      * symmetry. eapply (insert_sval H5 (map fst Z) (Some a, s)); [exact S5|exact LT|exact N7|exact K3].
      * split; [rewrite map_app; exact S7|]. split; [apply Forall_app; split; [exact C5|constructor; [apply C6|constructor]]|]. split; [|auto]. rewrite !map_app. cbn [map fst snd]. eapply owns_inv; [exact I6|exact O7].
      * rewrite map_app. cbn [map]. rewrite EP. unfold zs, sval. cbn [fst snd]. destruct (new_sepset_ends _ _ _ _ _ K2) as (F1' & F2'). unfold ends. rewrite F1', F2'.
        replace (S j - S i) with (S (j - S i)) by lia. rewrite seq_S, map_app, app_assoc. cbn [map]. replace (S i + (j - S i)) with j by lia. reflexivity.
    + exists T. split; [exact ET|]. cbv beta. rewrite pairs_S. exact RT.
  - rewrite ET. destruct T as [m3 H3]. cbn [bind]. destruct RT as (Z & <- & (S3 & C3 & I3 & R3 & T3) & EP & A3 & F3).
    destruct (m_build_ok skey1 skey2 m3 H3 (map fst Z) L _ S3 (inv_owns _ _ _ _ _ _ _ I3)) as (m4 & H4 & M4 & E4 & S4 & P4 & O4 & N4 & IH4). rewrite E4. cbn [bind].
    rewrite build_map, N4 in K1. cbn in K1. injection K1 as <-.
    destruct (Permutation_map_inv _ _ P4) as (Z4 & EZ & PZ). subst M4.
    exists m4, H4, Z4. split; [reflexivity|]. split; [reflexivity|]. split; [|split; [exact (IH4 F3)|]].
    + split; [exact S4|]. split; [eapply Permutation_Forall; [exact PZ|exact C3]|]. split; [|auto]. eapply owns_inv; [exact I3|].
      eapply owns_frame; [exact O4|]. apply Permutation_app_head, Permutation_app_tail, concat_perm, Permutation_map. exact PZ.
    + eapply perm_trans; [apply Permutation_map; apply Permutation_sym; exact PZ|]. rewrite EP. apply Permutation_refl.
Qed.

(** ** The loop *)
Definition conn (s : sepset) : call := Connect (pos (s_first s)) (pos (s_second s)).
Definition skey (s : sepset) : Z := sepset_primary_cost s.

Lemma m_loop_ok : forall fuel inserted m H jt w t Z L f jt' e,
  held m w t H Z L f -> create_sepsets_loop fuel num inserted (hmap sval (mh H)) jt = Ok (jt', e) ->
  exists m' H' w' t' new lost Z', m_create_sepsets_loop fuel num inserted m H jt = Ok (m', H', jt', e) /\
    held m' w' t' H' Z' L (concat (map snd lost) ++ f) /\ Forall cand_ok lost /\
    sps jt' = sps jt ++ new /\ map c_vars (cls jt') = map c_vars (cls jt) /\ map c_p (cls jt') = map c_p (cls jt) /\ meanings w (map conn new) = Some w' /\
    Permutation (map zs Z) (new ++ map zs lost ++ map zs Z') /\ (e <> NO_ERROR -> Z' = []) /\
    (is_heap (mh H) -> e = NO_ERROR -> inserted < num - 1 -> exists s, In s new /\
       (forall x, In x new \/ In x (map zs lost) -> (skey x <= skey s)%Z) /\ (forall y, In y (map zs Z') -> (skey s <= skey y)%Z)) /\
    (~ inserted < num - 1 -> new = [] /\ lost = []).
Proof.
  induction fuel as [|fuel IH]; intros inserted m H jt w t Z L f jt' e HD E; cbn [create_sepsets_loop m_create_sepsets_loop] in *;
    destruct (Nat.ltb_spec inserted (num - 1)) as [LT|GE]; cbn [negb] in *; try discriminate E.
  1,3: injection E as <- <-; exists m, H, w, t, [], [], Z; split; [reflexivity|]; split; [exact HD|]; split; [constructor|]; split; [rewrite app_nil_r; reflexivity|]; split; [reflexivity|]; split; [reflexivity|]; split; [reflexivity|]; split; [apply Permutation_refl|]; split; [congruence|]; split; [lia|auto].
  destruct HD as (S0 & C0 & I0 & R0 & T0). assert (O0 := inv_owns _ _ _ _ _ _ _ I0). destruct Z as [|z Z].
  - destruct (m_extract_none skey1 skey2 m H _ _ S0 O0) as (E1 & F1). rewrite extract_map, F1 in E. cbn [rmap bind option_map fst snd] in E. injection E as <- <-. rewrite E1. cbn [bind].
    exists m, (with_heap H (mh H)), w, t, [], [], []. split; [reflexivity|]. split; [split; [exact S0|auto]|]. split; [constructor|]. split; [rewrite app_nil_r; reflexivity|]. do 4 (split; [reflexivity|]). split; [reflexivity|]. split; [discriminate|lia].
  - destruct (m_extract_ok skey1 skey2 m H (fst z) (map fst Z) _ _ S0 O0) as (m1 & H1 & M1 & E1 & S1 & P1 & O1 & F1 & MIN). rewrite extract_map, F1 in E. cbn [rmap bind option_map fst snd] in E. rewrite E1. cbn [bind].
    change (sval (fst z)) with (zs z) in E. destruct (Permutation_map_inv _ _ P1) as (Z1 & EZ & PZ). subst M1. inversion C0 as [|? ? CZ CZ0]; subst.
    assert (C1 : Forall cand_ok Z1) by (eapply Permutation_Forall; [exact PZ|exact CZ0]).
    destruct z as [[hi [ap s]] g]. cbn [fst snd] in *. change (zs (hi, (ap, s), g)) with s in *.
    destruct CZ as (p & EP & SP & RG & NS). unfold zs, sval in EP, SP, RG, NS. cbn [fst snd] in EP, SP, RG, NS. subst ap.
    binv E j1. cbn [bind]. binv E q. destruct q as [j2 b]. assert (K2 := kept_trans _ _ _ (unmark_kept _ _ K) (connected_kept _ _ _ _ _ _ K0)).
    cbn [bind]. destruct K2 as (KS & KV & KP).
    destruct b.
    + (* already connected: lost *)
      assert (HD1 : held m1 w t H1 Z1 L (g ++ f)).
      { split; [exact S1|]. split; [exact C1|]. split; [|auto]. eapply owns_inv; [exact I0|]. eapply owns_frame; [exact O1|]. cbn [map snd concat]. apply Permutation_app_head.
        apply (@perm_trans _ _ (g ++ concat (map snd Z) ++ f)); [perm|]. apply (@perm_trans _ _ (g ++ concat (map snd Z1) ++ f)); [|perm]. apply Permutation_app_head, Permutation_app_tail, concat_perm, Permutation_map. exact PZ. }
      destruct (IH inserted m1 H1 j2 w t Z1 L (g ++ f) jt' e HD1 E) as (m' & H' & w' & t' & new & lost & Z' & E' & HD' & CL & SS & VV & VP & MM & PP & EE & KK & _).
      exists m', H', w', t', new, (((hi, (Some p, s)), g) :: lost), Z'. split; [exact E'|]. split; [|split; [|split; [|split; [|split; [|split; [exact MM|split; [|split; [exact EE|split; [|lia]]]]]]]]].
      * destruct HD' as (D1 & D2 & D3 & D4 & D5). split; [exact D1|]. split; [exact D2|]. split; [|auto]. eapply inv_perm; [exact D3|]. cbn [map snd concat]. perm.
      * constructor; [|exact CL]. exists p. auto.
      * congruence.
      * congruence.
      * congruence.
      * cbn [map]. change (zs (hi, (Some p, s), g)) with s. eapply perm_trans; [apply perm_skip; apply Permutation_map; exact PZ|]. eapply perm_trans; [apply perm_skip; exact PP|]. cbn [app]. apply Permutation_middle.
      * intros IH0 EN _. destruct (MIN IH0) as (IH1 & LE). destruct (KK IH1 EN LT) as (s1 & I1 & Q1 & Q2). exists s1. split; [exact I1|]. split; [|exact Q2].
        intros x [Hx|[Hx|Hx]]; [apply Q1; auto| |apply Q1; auto]. change (zs (hi, (Some p, s), g)) with s in Hx. subst x.
        assert (IZ : In s1 (map zs Z1)). { eapply Permutation_in; [apply Permutation_sym; exact PP|]. apply in_or_app. auto. }
        apply in_map_iff in IZ. destruct IZ as (z1 & <- & IZ). apply (LE (fst z1)). apply in_map. eapply Permutation_in; [apply Permutation_sym; exact PZ|exact IZ].
    + (* confirmed *)
      binv E j3.
      assert (I1 : inv m1 vs cl (w_vars w) t (g ++ led (hblocks H1 (map fst Z1) ++ L) ++ concat (map snd Z1) ++ f)).
      { eapply inv_perm; [eapply owns_inv; [exact I0|]; exact O1|]. cbn [map snd concat].
        apply (@perm_trans _ _ (g ++ led (hblocks H1 (map fst Z1) ++ L) ++ concat (map snd Z) ++ f)); [perm|]. apply Permutation_app_head, Permutation_app_head, Permutation_app_tail, concat_perm, Permutation_map. exact PZ. }
      destruct (T0 (s_first s) ltac:(lia)) as (ma & MA & VA). destruct (T0 (s_second s) ltac:(lia)) as (mb & MB & VB).
      destruct (run_confirm m1 vs cl w t _ (pos (s_first s)) (pos (s_second s)) p g I1 R0 ltac:(congruence) ltac:(congruence) (pos_ne _ _ RG) SP) as (m3 & t3 & E3 & I3 & R3 & TM).
      rewrite E3. cbn [bind]. try rewrite K1. cbn [bind]. apply confirm_kept in K1. destruct K1 as (KS3 & KV3 & KP3). cbn [sps cls] in KS3, KV3, KP3.
      set (w3 := with_neighbour (pos (s_second s)) (pos (s_first s)) (with_neighbour (pos (s_first s)) (pos (s_second s)) w)) in *.
      assert (ME : meaning w (conn s) = Some w3).
      { unfold conn. cbn [meaning]. destruct R0 as (_ & R0). rewrite !R0, MA, MB, VA, VB. destruct (Nat.eqb_spec (pos (s_first s)) (pos (s_second s))) as [Q|Q]; [destruct (pos_ne _ _ RG Q)|]. reflexivity. }
      assert (HD1 : held m3 w3 t3 H1 Z1 L f).
      { split; [exact S1|]. split; [exact C1|]. split; [exact I3|]. split; [exact R3|]. intros k Hk. rewrite TM. exact (T0 k Hk). }
      destruct (IH (S inserted) m3 H1 j3 w3 t3 Z1 L f jt' e HD1 E) as (m' & H' & w' & t' & new & lost & Z' & E' & HD' & CL & SS & VV & VP & MM & PP & EE & KK & NN).
      exists m', H', w', t', (s :: new), lost, Z'. split; [exact E'|]. split; [exact HD'|]. split; [exact CL|]. split; [|split; [|split; [|split; [|split; [|split; [exact EE|split; [|lia]]]]]]].
      * rewrite SS, KS3, KS, <- app_assoc. reflexivity.
      * congruence.
      * congruence.
      * cbn [map meanings]. rewrite ME. exact MM.
      * cbn [map app]. change (zs (hi, (Some p, s), g)) with s. apply perm_skip. eapply perm_trans; [apply Permutation_map; exact PZ|exact PP].
      * intros IH0 EN _. destruct (MIN IH0) as (IH1 & LE).
        assert (LE1 : forall x, In x (map zs Z1) -> (skey s <= skey x)%Z).
        { intros x Hx. apply in_map_iff in Hx. destruct Hx as (z1 & <- & IZ). apply (LE (fst z1)). apply in_map. eapply Permutation_in; [apply Permutation_sym; exact PZ|exact IZ]. }
        destruct (Nat.lt_ge_cases (S inserted) (num - 1)) as [L1|L1].
        -- destruct (KK IH1 EN L1) as (s1 & Is1 & Q1 & Q2). exists s1. split; [right; exact Is1|]. split; [|exact Q2].
           intros x [[Hx|Hx]|Hx]; [|apply Q1; auto|apply Q1; auto]. subst x. apply LE1. eapply Permutation_in; [apply Permutation_sym; exact PP|]. apply in_or_app. auto.
        -- destruct (NN ltac:(lia)) as (-> & ->). exists s. split; [left; reflexivity|]. split.
           ++ intros x [[Hx|[]]|[]]. subst x. lia.
           ++ intros y Hy. apply LE1. eapply Permutation_in; [apply Permutation_sym; exact PP|]. exact Hy.
Qed.

Lemma m_create_sepsets_ok : forall m w t ptrs L f jt e, inv m vs cl (w_vars w) t (led L ++ f) -> rep w cl t -> there w t ->
  (forall k, k < num -> rd ptrs k = Ok (Some (nth (pos k) cl 0))) ->
  create_sepsets card jt0 num = Ok (jt, e) ->
  exists m' w' t' lost rest, m_create_sepsets card m jt0 ptrs num = Ok (m', jt, e) /\
    inv m' vs cl (w_vars w') t' (led L ++ concat (map snd lost) ++ f) /\ rep w' cl t' /\ Forall cand_ok lost /\
    map c_vars (cls jt) = map c_vars out /\ map c_p (cls jt) = map c_p out /\ meanings w (map conn (sps jt)) = Some w' /\
    (num <= 1 -> lost = []) /\
    (2 <= num -> Permutation (pairs out (num - 1)) (map ends (sps jt ++ map zs lost ++ rest)) /\ (e = NO_ERROR ->
       exists s, In s (sps jt) /\ (forall x, In x (sps jt) \/ In x (map zs lost) -> (skey x <= skey s)%Z) /\ (forall y, In y rest -> (skey s <= skey y)%Z /\
         JoinTreeModel.new_sepset card jt0 (s_first y) (s_second y) = Ok (Some y)))).
Proof.
  intros m w t ptrs L f jt e INV R TH PT E. unfold create_sepsets in E. unfold m_create_sepsets. binv E h.
  assert (B := m_build_sepset_heap_ok m w t ptrs L f h INV R TH PT K). destruct h as [h|].
  - destruct B as (m1 & H1 & Z1 & E1 & <- & HD & HP & PP). rewrite E1. cbn [bind].
    destruct (m_loop_ok (S (h_size (mh H1))) 0 m1 H1 jt0 w t Z1 L f jt e HD E) as (m2 & H2 & w2 & t2 & new & lost & Z2 & E2 & HD2 & CL & SS & VV & VP & MM & P2 & EE & KK & NN).
    rewrite E2. cbn [bind]. cbn [sps app cls] in SS, VV, VP. rewrite SS in *. destruct HD2 as (S2 & C2 & I2 & R2 & T2).
    assert (PALL : Permutation (pairs out (num - 1)) (map ends (new ++ map zs lost ++ map zs Z2))).
    { eapply perm_trans; [apply Permutation_sym; exact PP|]. rewrite <- (map_map zs ends). apply Permutation_map. exact P2. }
    assert (LAST : forall m3 rest3, inv m3 vs cl (w_vars w2) t2 (led L ++ concat (map snd lost) ++ f) -> rest3 = map zs Z2 ->
      exists m' w' t' lost rest, Ok (m3, jt, e) = Ok (m', jt, e) /\
       inv m' vs cl (w_vars w') t' (led L ++ concat (map snd lost) ++ f) /\ rep w' cl t' /\ Forall cand_ok lost /\
       map c_vars (cls jt) = map c_vars out /\ map c_p (cls jt) = map c_p out /\ meanings w (map conn new) = Some w' /\ (num <= 1 -> lost = []) /\
       (2 <= num -> Permutation (pairs out (num - 1)) (map ends (new ++ map zs lost ++ rest)) /\ (e = NO_ERROR ->
         exists s, In s new /\ (forall x, In x new \/ In x (map zs lost) -> (skey x <= skey s)%Z) /\ (forall y, In y rest -> (skey s <= skey y)%Z /\
          JoinTreeModel.new_sepset card jt0 (s_first y) (s_second y) = Ok (Some y))))).
    { intros m3 rest3 I3 ->. exists m3, w2, t2, lost, (map zs Z2). split; [reflexivity|]. split; [exact I3|]. split; [exact R2|]. split; [exact CL|]. split; [exact VV|]. split; [exact VP|]. split; [exact MM|]. split.
      - intros LE. apply NN. lia.
      - intros GE. split; [exact PALL|]. intros EN. destruct (KK HP EN ltac:(lia)) as (s & I & Q1 & Q2). exists s. split; [exact I|]. split; [exact Q1|]. intros y Hy. split; [apply Q2; exact Hy|].
        apply in_map_iff in Hy. destruct Hy as (z & <- & Hz). rewrite Forall_forall in C2. destruct (C2 z Hz) as (p & _ & _ & _ & NS). exact NS. }
    destruct (is_err e) eqn:IE.
    + assert (Z2 = []) as -> by (apply EE; intros ->; discriminate IE).
      destruct (m_free_heap_ok skey1 skey2 m2 H2 _ _ S2 (inv_owns _ _ _ _ _ _ _ I2)) as (m3 & E3 & O3). rewrite E3. cbn [bind].
      apply (LAST m3 (map zs [])); [|reflexivity]. eapply owns_inv; [exact I2|exact O3].
    + assert (REL : forall m c g f, (exists p a b, fst c = Some p /\ sep p a b g) -> heap_is m (g ++ f) -> exists m', (fun m (c : candidate) => free_sepset m (fst c)) m c = Ok m' /\ heap_is m' f).
      { intros m5 c g5 f5 (p & a & b & -> & SP) H5. eapply free_sepset_ok; eassumption. }
      destruct (m_drain_ok skey1 skey2 (fun c g => exists p a b, fst c = Some p /\ sep p a b g) _ REL (S (h_size (mh H2))) m2 H2 Z2 L (blocks_of t2 ++ concat (map snd lost) ++ f)) as (m4 & H4 & E4 & S4 & O4).
      { exact S2. }
      { eapply Forall_impl; [|exact C2]. intros z (p & A1 & A2 & _). eauto. }
      { assert (SZ2 : h_size (mh H2) = length (map fst Z2)) by exact (proj1 S2). rewrite map_length in SZ2. lia. }
      { eapply owns_frame; [exact (inv_owns _ _ _ _ _ _ _ I2)|]. perm. }
      change (option nat * sepset)%type with candidate. rewrite E4. cbn [bind]. destruct (m_free_heap_ok skey1 skey2 m4 H4 _ _ S4 O4) as (m5 & E5 & O5). rewrite E5. cbn [bind].
      apply (LAST m5 (map zs Z2)); [|reflexivity]. eapply owns_inv; [exact I2|exact O5].
  - destruct B as (m1 & E1 & I1). rewrite E1. cbn [bind]. injection E as <- <-. exists m1, w, t, [], []. split; [reflexivity|]. split; [exact I1|]. split; [exact R|]. split; [constructor|]. do 4 (split; [reflexivity|]).
    intros GE. exfalso. unfold build_sepset_heap in K. binv K p. destruct (new_heap (p / 2)) eqn:EN; [binv K h1; binv K h2; discriminate K|].
    assert (HP : p = num * (num - 1)). { unfold imul in K0. match type of K0 with (if ?c then _ else _) = _ => destruct c; [injection K0 as <-; reflexivity|discriminate] end. }
    unfold new_heap in EN. destruct (Nat.eqb_spec (p / 2) 0) as [Q|Q]; [|discriminate EN]. apply Nat.div_small_iff in Q; [|lia]. nia.
Qed.
End Sepsets.
