(** * Proofs about the properties of potentials (C97) *)
From Coq Require Import Permutation.
From Verif Require Import Base BaseProofs HeapProofs MemoryModel MemorySpec MemoryProofs MemoryProofs2 MemoryProofs15 PotPropSpec PotPropModel.
Import ListNotations.
Open Scope nat_scope.
Local Open Scope res_scope.
Local Open Scope list_scope.
Local Notation len := List.length.

Lemma heap_size : forall m f, heap_is m f -> len f <= len m.
Proof.
  intros m f (ND & H). rewrite <- (map_length fst f), <- (seq_length (len m) 0). apply NoDup_incl_length; [exact ND|].
  intros a Ha. apply in_map_iff in Ha. destruct Ha as ((a' & b) & <- & I). apply H in I. apply in_seq. cbn [fst]. split; [lia|]. apply nth_error_Some. congruence.
Qed.

(** ** Strings *)
Lemma extent_ok : forall m f a b, heap_is m f -> In (a, b) f -> extent m (Some a) = len b.
Proof. intros m f a b H I. cbn [extent]. rewrite (heap_in m f a b H I). reflexivity. Qed.
Lemma text_length : forall s, len (text s) = S (len s).
Proof. intros s. unfold text. rewrite app_length, map_length. cbn. lia. Qed.
Lemma text_nth : forall s i, nth_error (text s) i = match nth_error s i with Some x => Some (N x) | None => if Nat.eqb i (len s) then Some (N 0) else None end.
Proof.
  induction s as [|x s IH]; intros [|i]; try reflexivity; [destruct i; reflexivity|]. exact (IH i).
Qed.

Lemma equal_from_ok : forall m f a b s t, heap_is m f -> In (a, text s) f -> In (b, text t) f -> is_text s -> is_text t ->
  forall n i, n + i = len s -> i <= len t -> firstn i s = firstn i t ->
  equal_from (S n) m (Some a) (Some b) i = Ok (if list_eq_dec Nat.eq_dec s t then true else false).
Proof.
  intros m f a b s t H IA IB TS TT. induction n as [|n IH]; intros i L LT EF; cbn [equal_from].
  - cbn in L. subst i. rewrite (num_ok m f a _ (len s) 0 H IA) by (rewrite text_nth, (proj2 (nth_error_None s _)), Nat.eqb_refl by lia; reflexivity). cbn [bind].
    destruct (nth_error t (len s)) as [y|] eqn:EY.
    + rewrite (num_ok m f b _ (len s) y H IB) by (rewrite text_nth, EY; reflexivity). cbn [bind].
      assert (Y0 : y <> 0). { unfold is_text in TT. rewrite Forall_forall in TT. apply TT. eapply nth_error_In; exact EY. }
      destruct y as [|y]; [congruence|]. cbn [Nat.eqb negb]. destruct (list_eq_dec Nat.eq_dec s t) as [E|_]; [|reflexivity]. subst t. rewrite (proj2 (nth_error_None s _)) in EY by lia. discriminate.
    + apply nth_error_None in EY. rewrite (num_ok m f b _ (len s) 0 H IB) by (rewrite text_nth, (proj2 (nth_error_None t _)) by lia; replace (len s) with (len t) by lia; rewrite Nat.eqb_refl; reflexivity). cbn [bind Nat.eqb negb].
      rewrite !firstn_all2 in EF by lia. destruct (list_eq_dec Nat.eq_dec s t); [reflexivity|congruence].
  - destruct (nth_error s i) as [x|] eqn:EX; [|apply nth_error_None in EX; lia].
    rewrite (num_ok m f a _ i x H IA) by (rewrite text_nth, EX; reflexivity). cbn [bind].
    assert (X0 : x <> 0). { unfold is_text in TS. rewrite Forall_forall in TS. apply TS. eapply nth_error_In; exact EX. }
    destruct (nth_error t i) as [y|] eqn:EY.
    + rewrite (num_ok m f b _ i y H IB) by (rewrite text_nth, EY; reflexivity). cbn [bind]. destruct (Nat.eqb_spec x y) as [XY|XY]; cbn [negb].
      * subst y. destruct (Nat.eqb_spec x 0); [congruence|]. assert (i < len t) by (apply nth_error_Some; congruence). apply IH; [lia|lia|].
        rewrite (firstn_nth _ s i x EX), (firstn_nth _ t i x EY), EF. reflexivity.
      * destruct (list_eq_dec Nat.eq_dec s t) as [E|_]; [subst t; congruence|reflexivity].
    + assert (i = len t) by (apply nth_error_None in EY; lia). rewrite (num_ok m f b _ i 0 H IB) by (rewrite text_nth, EY; subst i; rewrite Nat.eqb_refl; reflexivity). cbn [bind].
      destruct x as [|x]; [congruence|]. cbn [Nat.eqb negb]. destruct (list_eq_dec Nat.eq_dec s t) as [E|_]; [|reflexivity]. subst t. congruence.
Qed.
Lemma equal_more : forall k n m p q i r, equal_from n m p q i = Ok r -> equal_from (n + k) m p q i = Ok r.
Proof.
  intros k. induction n as [|n IH]; intros m p q i r E; cbn [equal_from] in *; [discriminate|].
  cbn [Nat.add equal_from]. destruct (num m p i) as [x| |]; cbn [bind] in *; [|discriminate|discriminate]. destruct (num m q i) as [y| |]; cbn [bind] in *; [|discriminate|discriminate].
  destruct (negb _); [exact E|]. destruct (Nat.eqb x 0); [exact E|]. exact (IH _ _ _ _ _ E).
Qed.
Lemma equal_text_ok : forall m f a b s t, heap_is m f -> In (a, text s) f -> In (b, text t) f -> is_text s -> is_text t ->
  equal_text m (Some a) (Some b) = Ok (if list_eq_dec Nat.eq_dec s t then true else false).
Proof.
  intros m f a b s t H IA IB TS TT. unfold equal_text. rewrite (extent_ok m f a _ H IA), text_length. replace (S (S (len s))) with (S (len s) + 1) by lia.
  apply equal_more. apply (equal_from_ok m f a b s t H IA IB TS TT (len s) 0); [lia|lia|reflexivity].
Qed.
Lemma text_from_ok : forall m f a s, heap_is m f -> In (a, text s) f -> is_text s -> forall n i, n + i = len s -> text_from (S n) m (Some a) i = Ok (skipn i s).
Proof.
  intros m f a s H IA TS. induction n as [|n IH]; intros i L; cbn [text_from].
  - cbn in L. subst i. rewrite (num_ok m f a _ (len s) 0 H IA) by (rewrite text_nth, (proj2 (nth_error_None s _)), Nat.eqb_refl by lia; reflexivity). cbn [bind Nat.eqb]. rewrite skipn_all. reflexivity.
  - destruct (nth_error s i) as [x|] eqn:EX; [|apply nth_error_None in EX; lia].
    rewrite (num_ok m f a _ i x H IA) by (rewrite text_nth, EX; reflexivity). cbn [bind].
    assert (X0 : x <> 0). { unfold is_text in TS. rewrite Forall_forall in TS. apply TS. eapply nth_error_In; exact EX. }
    destruct (Nat.eqb_spec x 0); [congruence|]. specialize (IH (S i) ltac:(lia)). cbn [text_from] in IH. rewrite IH. cbn [bind]. rewrite (skipn_nth _ s i x EX). reflexivity.
Qed.
Lemma text_more : forall n m p i r, text_from n m p i = Ok r -> text_from (S n) m p i = Ok r.
Proof.
  induction n as [|n IH]; intros m p i r E; [discriminate|]. cbn [text_from] in E. remember (S n) as k. cbn [text_from]. destruct (num m p i) as [x| |]; cbn [bind] in *; [|discriminate|discriminate].
  destruct (Nat.eqb x 0); [exact E|]. destruct (text_from n m p (S i)) as [s| |] eqn:ES; cbn [bind] in E; [|discriminate|discriminate]. subst k. rewrite (IH _ _ _ _ ES). exact E.
Qed.
Lemma text_at_ok : forall m f a s, heap_is m f -> In (a, text s) f -> is_text s -> text_at m (Some a) = Ok s.
Proof. intros m f a s H IA TS. unfold text_at. rewrite (extent_ok m f a _ H IA), text_length. apply text_more. apply (text_from_ok m f a s H IA TS (len s) 0). lia. Qed.

(** ** Lists of pairs *)
Record link := mkLink { ln : nat; ka : nat; va : nat; lkey : list nat; lvalue : list nat }.
Definition link_block (x : link) (fwd bwd : option nat) : block := [P (Some (ka x)); P (Some (va x)); P fwd; P bwd].
Definition strings (x : link) : fp := [(ka x, text (lkey x)); (va x, text (lvalue x))].
Definition head_of (ls : list link) (next : option nat) : option nat := match ls with [] => next | x :: _ => Some (ln x) end.
Fixpoint chain (prev : option nat) (ls : list link) (next : option nat) : fp :=
  match ls with
  | [] => []
  | x :: r => (ln x, link_block x (head_of r next) prev) :: strings x ++ chain (Some (ln x)) r next
  end.
Fixpoint last_of (prev : option nat) (ls : list link) : option nat :=
  match ls with [] => prev | x :: r => last_of (Some (ln x)) r end.
Lemma head_snoc : forall ls y next, head_of (ls ++ [y]) next = head_of ls (Some (ln y)).
Proof. intros [|x ls] y next; reflexivity. Qed.
Lemma chain_snoc : forall ls prev y next, chain prev (ls ++ [y]) next = chain prev ls (Some (ln y)) ++ (ln y, link_block y next (last_of prev ls)) :: strings y.
Proof.
  induction ls as [|x ls IH]; intros prev y next; [cbn [app chain last_of head_of]; rewrite app_nil_r; reflexivity|]. cbn [app chain last_of]. rewrite IH, head_snoc, <- !app_assoc. reflexivity.
Qed.
Lemma last_snoc : forall ls prev y, last_of prev (ls ++ [y]) = Some (ln y).
Proof. induction ls as [|x ls IH]; intros prev y; [reflexivity|]. apply IH. Qed.
Lemma chain_size : forall ls prev next, len ls <= len (chain prev ls next).
Proof. induction ls as [|x ls IH]; intros prev next; cbn [chain List.length]; [lia|]. rewrite app_length. specialize (IH (Some (ln x)) next). lia. Qed.
Definition pair_of (x : link) : list nat * list nat := (lkey x, lvalue x).
Definition good (x : link) : Prop := is_text (lkey x) /\ is_text (lvalue x).

Lemma search_ok : forall m key k, is_text k -> forall ls prev f, heap_is m (chain prev ls None ++ f) -> In (key, text k) (chain prev ls None ++ f) -> Forall good ls -> forall n,
  exists o, search_pairs (S (len ls) + n) m (head_of ls None) (Some key) = Ok o /\
    match o with None => first_set k (map pair_of ls) = None | Some v => exists t, In (v, text t) (chain prev ls None ++ f) /\ is_text t /\ first_set k (map pair_of ls) = Some t end.
Proof.
  intros m key k TK. induction ls as [|x ls IH]; intros prev f H IK G n; cbn [List.length Nat.add search_pairs head_of].
  { exists None. split; reflexivity. }
  inversion G as [|? ? (TX & TV) G']; subst. cbn [chain] in *.
  erewrite (ptr_ok m _ (ln x) _ K_key (Some (ka x)) H); [|left; reflexivity|reflexivity]. cbn [bind].
  erewrite (equal_text_ok m _ key (ka x) k (lkey x) H IK); [|right; left; reflexivity|exact TK|exact TX]. cbn [bind].
  cbn [map first_set pair_of]. destruct (list_eq_dec Nat.eq_dec k (lkey x)) as [E|E].
  - erewrite (ptr_ok m _ (ln x) _ K_value (Some (va x)) H); [|left; reflexivity|reflexivity]. exists (Some (va x)). split; [reflexivity|]. exists (lvalue x).
    split; [right; right; left; reflexivity|]. split; [exact TV|]. destruct (list_eq_dec Nat.eq_dec (lkey x) k); [reflexivity|congruence].
  - erewrite (ptr_ok m _ (ln x) _ K_fwd (head_of ls None) H); [|left; reflexivity|reflexivity]. cbn [bind].
    destruct (IH (Some (ln x)) ((ln x, link_block x (head_of ls None) prev) :: strings x ++ f)) with (n := n) as (o & ES & Q).
    { eapply heap_perm; [|exact H]. perm. }
    { eapply Permutation_in; [|exact IK]. perm. } { exact G'. }
    exists o. split; [exact ES|]. destruct (list_eq_dec Nat.eq_dec (lkey x) k); [congruence|]. destruct o as [v|]; [|exact Q]. destruct Q as (t & IT & Q). exists t. split; [|exact Q].
    eapply Permutation_in; [|exact IT]. perm.
Qed.

Lemma free_pair_ok : forall m f x fwd bwd, heap_is m ((ln x, link_block x fwd bwd) :: strings x ++ f) -> exists m', free_pair m (Some (ln x)) = Ok m' /\ heap_is m' f.
Proof.
  intros m f x fwd bwd H. unfold free_pair, strings in *. cbn [app] in H.
  erewrite (ptr_ok m _ (ln x) _ K_key (Some (ka x)) H); [|left; reflexivity|reflexivity]. cbn [bind].
  destruct (free_ok m ((ln x, link_block x fwd bwd) :: (va x, text (lvalue x)) :: f) (ka x) (text (lkey x))) as (m1 & E1 & H1 & _). { eapply heap_perm; [|exact H]. perm. }
  rewrite E1. cbn [bind]. erewrite (ptr_ok m1 _ (ln x) _ K_value (Some (va x)) H1); [|left; reflexivity|reflexivity]. cbn [bind].
  destruct (free_ok m1 ((ln x, link_block x fwd bwd) :: f) (va x) (text (lvalue x))) as (m2 & E2 & H2 & _). { eapply heap_perm; [|exact H1]. perm. }
  rewrite E2. cbn [bind]. destruct (free_ok _ _ (ln x) _ H2) as (m3 & E3 & H3 & _). eauto.
Qed.

(** The link after [y], if there is one, is still to be freed. *)
Definition pending (o : option nat) (g : fp) : Prop :=
  (o = None /\ g = []) \/ exists z fwd bwd, o = Some (ln z) /\ g = (ln z, link_block z fwd bwd) :: strings z.
Lemma free_pairs_ok : forall ls x m o g f n, pending o g -> heap_is m (chain None (x :: ls) o ++ g ++ f) ->
  exists m' fwd, free_pairs (S (S (len ls)) + n) m (last_of None (x :: ls)) = Ok m' /\ heap_is m' ((ln x, link_block x fwd None) :: strings x ++ f).
Proof.
  intros ls x. induction ls as [|y ls IH] using rev_ind; intros m o g f n PE H.
  - cbn [last_of chain head_of app List.length Nat.add] in *. cbn [free_pairs]. rewrite app_nil_r in H.
    erewrite (ptr_ok m _ (ln x) _ K_fwd o H); [|left; reflexivity|reflexivity]. cbn [bind]. destruct PE as [(-> & ->)|(z & fw & bw & -> & ->)].
    + cbn [bind]. erewrite (ptr_ok m _ (ln x) _ K_bwd None H); [|left; reflexivity|reflexivity]. cbn [bind]. eexists m, _. split; [reflexivity|exact H].
    + destruct (free_pair_ok m ((ln x, link_block x (Some (ln z)) None) :: strings x ++ f) z fw bw) as (m1 & E1 & H1). { eapply heap_perm; [|exact H]. perm. }
      rewrite E1. cbn [bind]. erewrite (ptr_ok m1 _ (ln x) _ K_bwd None H1); [|left; reflexivity|reflexivity]. cbn [bind]. eexists m1, _. split; [reflexivity|exact H1].
  - rewrite app_comm_cons in *. rewrite last_snoc. rewrite app_length. cbn [List.length]. replace (S (S (len ls + 1)) + n) with (S (S (S (len ls)) + n)) by lia. cbn [free_pairs].
    rewrite chain_snoc in H. set (pv := last_of None (x :: ls)) in *. set (B := chain None (x :: ls) (Some (ln y))) in *.
    assert (IY : In (ln y, link_block y o pv) ((B ++ (ln y, link_block y o pv) :: strings y) ++ g ++ f)) by (apply in_or_app; left; apply in_or_app; right; left; reflexivity).
    erewrite (ptr_ok m _ (ln y) _ K_fwd o H IY) by reflexivity. cbn [bind].
    assert (STEP : exists m1, match o with Some _ => free_pair m o | None => Ok m end = Ok m1 /\ heap_is m1 (B ++ ((ln y, link_block y o pv) :: strings y) ++ f)).
    { destruct PE as [(-> & ->)|(z & fw & bw & -> & ->)].
      - exists m. split; [reflexivity|]. eapply heap_perm; [|exact H]. perm.
      - apply (free_pair_ok m _ z fw bw). eapply heap_perm; [|exact H]. perm. }
    destruct STEP as (m1 & E1 & H1). rewrite E1. cbn [bind].
    erewrite (ptr_ok m1 _ (ln y) _ K_bwd pv H1); [|apply in_or_app; right; left; reflexivity|reflexivity]. cbn [bind].
    apply (IH m1 (Some (ln y)) ((ln y, link_block y o pv) :: strings y) f n); [right; exists y, o, pv; split; reflexivity|exact H1].
Qed.

(** ** Potentials *)
Definition potential_with (p : nat) (cards : list nat) (ls : list link) (f : fp) : Prop :=
  exists c t x l bc bt bx, len cards <= len bc /\ prod cards <= len bx /\
    f = (p, [N (len cards); P (Some c); P (Some t); N (prod cards); P (Some x); P (Some l)]) :: (c, bc) :: (t, bt) :: (x, bx) ::
        (l, [N (len ls); P (head_of ls None); P (last_of None ls)]) :: chain None ls None.

Lemma new_with : forall m f cards, heap_is m f ->
  exists m' p g, new_potential m cards = Ok (m', Some p) /\ potential_with p cards [] g /\ heap_is m' (g ++ f).
Proof.
  intros m f cards H. unfold new_potential. cbv zeta. al H. al H. st H. al H. st H. st H. st H. al H. st H.
  unfold new_string_pair_list. al H. st H. st H. st H. cbn [bind]. st H.
  eexists _, a, [(a, _); (a0, _); (a1, _); (a2, _); (a3, _)]. split; [reflexivity|]. split.
  2: { eapply heap_perm; [|exact H]. cbn [app]. perm. }
  do 7 eexists. split; [|split]; [| |reflexivity].
  - rewrite repeat_length. destruct (Nat.ltb_spec 0 (len cards)); lia.
  - rewrite repeat_length. lia.
Qed.

Lemma set_ok : forall m f p cards ls g key value k v, potential_with p cards ls g -> heap_is m ((value, text v) :: (key, text k) :: g ++ f) ->
  exists m' x g', set_potential_property m (Some p) (Some key) (Some value) = Ok (m', true) /\ pair_of x = (k, v) /\ potential_with p cards (ls ++ [x]) g' /\ heap_is m' (g' ++ f).
Proof.
  intros m f p cards ls g key value k v (c & t & x & l & bc & bt & bx & LC & LX & ->) H. unfold set_potential_property.
  erewrite (ptr_ok m _ p _ T_prop (Some l) H); [|right; right; left; reflexivity|reflexivity]. cbn [bind]. unfold append_string_pair. cbn [app] in H.
  set (pb := [N (len cards); P (Some c); P (Some t); N (prod cards); P (Some x); P (Some l)]) in *.
  remember (head_of ls None) as hd eqn:EH. remember (last_of None ls) as la eqn:EL. remember (chain None ls None) as C eqn:EC.
  al H. rename a into new. st H. st H. st H. gp H. st H. gp H. set (y := mkLink new key value k v).
  destruct ls as [|x1 ls _] using rev_ind.
  - cbn [head_of last_of chain] in *. subst hd la C. st H. cbn [bind]. st H. gn H. st H. cbn [bind].
    eexists _, y, _. split; [reflexivity|]. split; [reflexivity|]. split.
    + exists c, t, x, l, bc, bt, bx. split; [exact LC|]. split; [exact LX|]. reflexivity.
    + cbn [app chain head_of last_of List.length strings ka va lkey lvalue ln y link_block]. eapply heap_perm; [|exact H]. unfold pb. perm.
  - rewrite last_snoc in EL. rewrite chain_snoc in EC. rewrite head_snoc in EH.
    assert (HD : exists h, hd = Some h) by (rewrite EH; destruct ls; eexists; reflexivity). destruct HD as (h & HD). rewrite HD. subst la.
    gp H. set (n := len (ls ++ [x1])) in *. set (pv := last_of None ls) in *.
    destruct (store_ok m4 ((l, [N n; P hd; P (Some (ln x1))]) :: (new, [P (Some key); P (Some value); P None; P (Some (ln x1))]) :: (value, text v) :: (key, text k) :: (p, pb) :: (c, bc) :: (t, bt) :: (x, bx) ::
      chain None ls (Some (ln x1)) ++ strings x1 ++ f) (ln x1) (link_block x1 None pv) K_fwd (P (Some new))) as (m5 & E5 & H5 & _).
    + eapply heap_perm; [|exact H]. subst C. perm.
    + unfold K_fwd. cbn. lia.
    + unfold K_fwd in E5. unfold ln in E5. rewrite E5. cbn [bind]. clear H E5. rename H5 into H. st H. gn H. st H. cbn [bind].
      eexists _, y, _. split; [reflexivity|]. split; [reflexivity|]. split.
      * exists c, t, x, l, bc, bt, bx. split; [exact LC|]. split; [exact LX|]. reflexivity.
      * rewrite chain_snoc, chain_snoc, !last_snoc, !head_snoc, <- EH. rewrite (app_length _ [y]). cbn [List.length]. fold n. replace (n + 1) with (S n) by lia.
        eapply heap_perm; [|exact H]. unfold pb, strings. cbn [ka va lkey lvalue ln y link_block]. perm.
Qed.

Lemma get_ok : forall m f p cards ls g key k, potential_with p cards ls g -> heap_is m ((key, text k) :: g ++ f) -> is_text k -> Forall good ls ->
  exists o, get_potential_property m (Some p) (Some key) = Ok o /\
    match o with None => first_set k (map pair_of ls) = None | Some v => exists t, In (v, text t) ((key, text k) :: g ++ f) /\ is_text t /\ first_set k (map pair_of ls) = Some t end.
Proof.
  intros m f p cards ls g key k (c & t & x & l & bc & bt & bx & LC & LX & ->) H TK G. unfold get_potential_property.
  erewrite (ptr_ok m _ p _ T_prop (Some l) H); [|right; left; reflexivity|reflexivity]. cbn [bind]. unfold string_pair_list_search.
  erewrite (ptr_ok m _ l _ S_first (head_of ls None) H); [|cbn [app In]; tauto|reflexivity]. cbn [bind].
  match type of H with heap_is m ((key, text k) :: (?p1 :: ?p2 :: ?p3 :: ?p4 :: ?p5 :: _) ++ f) => set (R := p1 :: p2 :: p3 :: p4 :: p5 :: (key, text k) :: f) in * end.
  assert (PM : Permutation ((key, text k) :: ((p, [N (len cards); P (Some c); P (Some t); N (prod cards); P (Some x); P (Some l)]) :: (c, bc) :: (t, bt) :: (x, bx) :: (l, [N (len ls); P (head_of ls None); P (last_of None ls)]) :: chain None ls None) ++ f) (chain None ls None ++ R)) by (unfold R; perm).
  assert (H' := heap_perm _ _ _ PM H). assert (LM := heap_size _ _ H'). rewrite app_length in LM. assert (LC' := chain_size ls None None). unfold R in LM. cbn [List.length] in LM.
  destruct (search_ok m key k TK ls None R H') with (n := len m - len ls) as (o & E & Q).
  { apply in_or_app. right. unfold R. cbn [In]. tauto. } { exact G. }
  replace (S (len ls) + (len m - len ls)) with (S (len m)) in E by lia. exists o. split; [exact E|]. destruct o as [v|]; [|exact Q]. destruct Q as (s & IV & Q). exists s. split; [|exact Q].
  eapply Permutation_in; [apply Permutation_sym; exact PM|exact IV].
Qed.

Lemma free_with : forall m f p cards ls g, potential_with p cards ls g -> heap_is m (g ++ f) -> exists m', free_potential m (Some p) = Ok m' /\ heap_is m' f.
Proof.
  intros m f p cards ls g (c & t & x & l & bc & bt & bx & LC & LX & ->) H. unfold free_potential. cbn [app] in H.
  set (pb := [N (len cards); P (Some c); P (Some t); N (prod cards); P (Some x); P (Some l)]) in *.
  erewrite (ptr_ok m _ p _ T_prop (Some l) H); [|left; reflexivity|reflexivity]. cbn [bind].
  assert (FL : exists m', free_string_pair_list m (Some l) = Ok m' /\ heap_is m' ((p, pb) :: (c, bc) :: (t, bt) :: (x, bx) :: f)).
  { unfold free_string_pair_list. remember (head_of ls None) as hd eqn:EH. remember (last_of None ls) as la eqn:EL. remember (chain None ls None) as C eqn:EC.
    gp H. st H. destruct ls as [|y ls].
    - cbn [head_of last_of chain] in *. subst hd la C. cbn [free_pairs bind]. gp H. cbn [bind]. destruct (free_ok _ _ l _ H) as (m' & E & H' & _). exists m'. split; [exact E|]. eapply heap_perm; [|exact H']. perm.
    - assert (LM := heap_size _ _ H). cbn [List.length] in LM. rewrite app_length in LM. assert (LK := chain_size (y :: ls) None None). rewrite <- EC in LK. cbn [List.length] in LK.
      match type of H with heap_is m0 ((l, ?lb) :: _) => set (lblk := lb) in * end.
      destruct (free_pairs_ok ls y m0 None [] ((l, lblk) :: (p, pb) :: (c, bc) :: (t, bt) :: (x, bx) :: f) (len m0 - S (len ls))) as (m1 & fw & E1 & H1).
      { left. auto. } { rewrite <- EC. cbn [app]. eapply heap_perm; [|exact H]. perm. }
      rewrite <- EL in E1. replace (S (S (len ls)) + (len m0 - S (len ls))) with (S (len m0)) in E1 by lia. rewrite E1. cbn [bind].
      erewrite (ptr_ok m1 _ l lblk _ (Some (ln y)) H1); [|right; apply in_or_app; right; left; reflexivity|unfold lblk; rewrite EH; reflexivity].
      cbn [bind]. destruct (free_pair_ok m1 ((l, lblk) :: (p, pb) :: (c, bc) :: (t, bt) :: (x, bx) :: f) y fw None H1) as (m2 & E2 & H2). rewrite E2. cbn [bind]. unfold lblk in H2. st H2.
      destruct (free_ok _ _ l _ H2) as (m' & E & H' & _). exists m'. split; [exact E|exact H']. }
  destruct FL as (m1 & E1 & H1). rewrite E1. cbn [bind]. clear H. rename H1 into H. unfold pb in H. gp H. fr H. gp H. fr H. gp H. fr H. front H p. destruct (free_ok _ _ p _ H) as (m' & E & H' & _). eauto.
Qed.

Lemma copy_ok : forall m f p cards ls g, potential_with p cards ls g -> heap_is m (g ++ f) ->
  exists m' q h, copy_potential m (Some p) cards = Ok (m', Some q) /\ potential_with q cards [] h /\ heap_is m' (h ++ g ++ f).
Proof.
  intros m f p cards ls g (c & t & x & l & bc & bt & bx & LC & LX & EG) H. destruct (new_with m (g ++ f) cards H) as (m' & q & h & E & Q & H'). unfold copy_potential.
  assert (IG : incl ((p, [N (len cards); P (Some c); P (Some t); N (prod cards); P (Some x); P (Some l)]) :: (c, bc) :: (t, bt) :: (x, bx) :: nil) (g ++ f)).
  { intros z Hz. subst g. cbn [In app] in *. tauto. }
  erewrite (ptr_ok m _ p _ T_card (Some c) H); [|apply IG; left; reflexivity|reflexivity]. cbn [bind].
  erewrite (num_ok m _ p _ T_dim (len cards) H); [|apply IG; left; reflexivity|reflexivity]. cbn [bind].
  erewrite (ptr_ok m _ p _ T_data (Some x) H); [|apply IG; left; reflexivity|reflexivity]. cbn [bind].
  assert (RD : forall a b n, In (a, b) (g ++ f) -> n <= len b -> for_up 0 n (fun i u => let* _ := fetch m (Some a) i in Ok u) tt = Ok tt).
  { intros a b n IA LN. match goal with |- for_up 0 n ?body tt = _ => destruct (for_up_inv unit (fun _ _ => True) body 0 n tt) as ([] & EF & _) end; [lia|exact I| |exact EF].
    intros i [] Ki _. exists tt. split; [|exact I]. destruct (nth_error b i) as [z|] eqn:EZ; [|apply nth_error_None in EZ; lia]. rewrite (fetch_ok m _ a b i z H IA EZ). reflexivity. }
  rewrite (RD c bc (len cards)) by (first [exact LC|apply IG; cbn [In]; tauto]). cbn [bind]. rewrite (RD x bx (prod cards)) by (first [exact LX|apply IG; cbn [In]; tauto]). cbn [bind].
  exists m', q, h. auto.
Qed.

Lemma serve_ok : forall l m f p cards ls g, Forall proper l -> Forall good ls -> potential_with p cards ls g -> heap_is m (g ++ f) ->
  exists m' ls' g', serve m (Some p) l = Ok (m', answers_first (map pair_of ls) l) /\ Forall good ls' /\ potential_with p cards ls' g' /\ heap_is m' (g' ++ f).
Proof.
  induction l as [|[k v|k] l IH]; intros m f p cards ls g PR G PW H; cbn [serve answers_first]; [exists m, ls, g; auto| |]; inversion PR as [|? ? P1 PR']; subst.
  - destruct P1 as (TK & TV). al H. rename a into key. al H. rename a into value. destruct (set_ok m1 f p cards ls g key value k v PW H) as (m2 & x & g2 & E2 & EX & PW2 & H2).
    rewrite E2. cbn [bind]. destruct (IH m2 f p cards (ls ++ [x]) g2 PR') as (m3 & ls3 & g3 & E3 & Q); [|exact PW2|exact H2|].
    + apply Forall_app. split; [exact G|]. constructor; [|constructor]. unfold pair_of in EX. injection EX as EK EV. split; congruence.
    + rewrite map_app in E3. cbn [map] in E3. rewrite EX in E3. exists m3, ls3, g3. split; [exact E3|exact Q].
  - cbn [proper] in P1. al H. rename a into key. destruct (get_ok m0 f p cards ls g key k PW H P1 G) as (o & E1 & Q). rewrite E1. cbn [bind].
    assert (EA : match o with None => Ok None | Some _ => let* s := text_at m0 o in Ok (Some s) end = Ok (first_set k (map pair_of ls))).
    { destruct o as [a|]; [|rewrite Q; reflexivity]. destruct Q as (t & IT & TT & ->). rewrite (text_at_ok m0 _ a t H IT TT). reflexivity. }
    rewrite EA. cbn [bind]. destruct (free_ok _ _ key _ H) as (m1 & E2 & H2 & _). rewrite E2. cbn [bind].
    destruct (IH m1 f p cards ls g PR' G PW H2) as (m3 & ls3 & g3 & E3 & Q3). rewrite E3. cbn [bind]. exists m3, ls3, g3. split; [reflexivity|exact Q3].
Qed.

Lemma C97_answers_lemma : forall cards l, Forall proper l ->
  exists m, with_potential [] cards l = Ok (m, answers_first [] l) /\ all_free m.
Proof.
  intros cards l PR. unfold with_potential. destruct (new_with [] [] cards heap_empty) as (m & p & g & E & PW & H). rewrite E. cbn [bind].
  destruct (serve_ok l m [] p cards [] g PR (Forall_nil _) PW H) as (m1 & ls & g1 & E1 & _ & PW1 & H1). rewrite E1. cbn [bind].
  destruct (free_with m1 [] p cards ls g1 PW1 H1) as (m2 & E2 & H2). rewrite E2. cbn [bind]. exists m2. split; [reflexivity|exact (heap_none _ H2)].
Qed.
Lemma C97_copy_lemma : forall cards l k, Forall proper l -> is_text k ->
  exists m, with_copy [] cards l k = Ok (m, [None]) /\ all_free m.
Proof.
  intros cards l k PR TK. unfold with_copy. destruct (new_with [] [] cards heap_empty) as (m & p & g & E & PW & H). rewrite E. cbn [bind].
  destruct (serve_ok l m [] p cards [] g PR (Forall_nil _) PW H) as (m1 & ls & g1 & E1 & _ & PW1 & H1). rewrite E1. cbn [bind].
  destruct (copy_ok m1 [] p cards ls g1 PW1 H1) as (m2 & q & h & E2 & PQ & H2). rewrite E2. cbn [bind].
  destruct (serve_ok [Get_property k] m2 (g1 ++ []) q cards [] h ltac:(constructor; [exact TK|constructor]) (Forall_nil _) PQ H2) as (m3 & ls3 & h3 & E3 & _ & PQ3 & H3). rewrite E3. cbn [bind map answers_first first_set].
  destruct (free_with m3 h3 p cards ls g1 PW1) as (m4 & E4 & H4). { eapply heap_perm; [|exact H3]. rewrite app_nil_r. apply Permutation_app_comm. }
  rewrite E4. cbn [bind]. destruct (free_with m4 [] q cards ls3 h3 PQ3) as (m5 & E5 & H5). { rewrite app_nil_r. exact H4. } rewrite E5. cbn [bind]. exists m5. split; [reflexivity|exact (heap_none _ H5)].
Qed.

(** ** First and last *)
Lemma first_set_in : forall k v l, NoDup (map fst l) -> (first_set k l = Some v <-> In (k, v) l).
Proof.
  intros k v. induction l as [|(k', v') l IH]; intros ND; cbn [first_set]; [split; [discriminate|intros []]|]. cbn [map fst] in ND. inversion ND as [|? ? N1 N2]; subst.
  destruct (list_eq_dec Nat.eq_dec k' k) as [->|D].
  - split; [intros Q; injection Q as ->; left; reflexivity|]. intros [Q|Q]; [congruence|]. exfalso. apply N1. apply in_map_iff. exists (k, v). auto.
  - rewrite (IH N2). split; [intros Q; right; exact Q|]. intros [Q|Q]; [congruence|exact Q].
Qed.
Lemma first_last : forall k l, NoDup (map fst l) -> first_set k (rev l) = first_set k l.
Proof.
  intros k l ND. assert (NR : NoDup (map fst (rev l))) by (rewrite map_rev; apply NoDup_rev; exact ND).
  destruct (first_set k l) as [v|] eqn:E.
  - apply first_set_in; [exact NR|]. apply in_rev. rewrite rev_involutive. apply first_set_in; [exact ND|exact E].
  - destruct (first_set k (rev l)) as [v|] eqn:E2; [|reflexivity]. apply first_set_in in E2; [|exact NR]. apply in_rev in E2. apply first_set_in in E2; [|exact ND]. congruence.
Qed.
Lemma answers_same : forall l past, NoDup (map fst past ++ keys_set l) -> answers_first past l = answers_last past l.
Proof.
  induction l as [|[k v|k] l IH]; intros past ND; cbn [answers_first answers_last]; [reflexivity| |].
  - apply IH. rewrite map_app. cbn [map fst]. rewrite <- app_assoc. exact ND.
  - cbn [keys_set flat_map app] in ND. rewrite (first_last k past); [f_equal; apply IH; exact ND|]. clear -ND. induction past as [|z past IH]; [constructor|]. cbn [map app] in *. inversion ND as [|? ? N1 N2]; subst. constructor; [|apply IH; exact N2]. intros Q. apply N1. apply in_or_app. left. exact Q.
Qed.
Lemma C97_once_lemma : forall cards l, Forall proper l -> NoDup (keys_set l) ->
  exists m, with_potential [] cards l = Ok (m, answers_last [] l) /\ all_free m.
Proof. intros cards l PR ND. rewrite <- answers_same by exact ND. apply C97_answers_lemma. exact PR. Qed.
Lemma C97_shared_lemma : forall cards k1 k2 v, with_shared_value [] cards k1 k2 v = UB.
Proof. intros cards k1 k2 v. reflexivity. Qed.
