(** * Proofs about memory: potentials, variables, cliques and sepsets *)
From Coq Require Import Permutation.
From Verif Require Import Base BaseProofs HeapProofs MemoryModel MemorySpec MemoryProofs.
Import ListNotations.
Open Scope nat_scope.
Local Open Scope res_scope.

(** ** Finding blocks *)
Lemma pull_cons : forall A (x y : A) l g, Permutation l (y :: g) -> Permutation (x :: l) (y :: x :: g).
Proof. intros. eapply perm_trans; [apply perm_skip; eassumption|apply perm_swap]. Qed.
Lemma pull_left : forall A (y : A) l r g, Permutation l (y :: g) -> Permutation (l ++ r) (y :: g ++ r).
Proof. intros A y l r g H. change (y :: g ++ r) with ((y :: g) ++ r). apply Permutation_app_tail. exact H. Qed.
Lemma pull_right : forall A (y : A) l r g, Permutation r (y :: g) -> Permutation (l ++ r) (y :: l ++ g).
Proof. intros A y l r g H. eapply perm_trans; [apply Permutation_app_head; exact H|]. apply Permutation_sym, Permutation_middle. Qed.
Lemma chunk_cons : forall A (x : A) l c g, Permutation l (c ++ g) -> Permutation (x :: l) (c ++ x :: g).
Proof. intros. eapply perm_trans; [apply perm_skip; eassumption|apply Permutation_middle]. Qed.
Lemma chunk_left : forall A (c : list A) l r g, Permutation l (c ++ g) -> Permutation (l ++ r) (c ++ g ++ r).
Proof. intros. rewrite app_assoc. apply Permutation_app_tail. assumption. Qed.
Lemma chunk_right : forall A (c : list A) l r g, Permutation r (c ++ g) -> Permutation (l ++ r) (c ++ l ++ g).
Proof.
  intros. eapply perm_trans; [apply Permutation_app_head; eassumption|]. rewrite !app_assoc.
  apply Permutation_app_tail, Permutation_app_comm.
Qed.
Lemma chunk_self : forall A (c : list A), Permutation c (c ++ []).
Proof. intros. rewrite app_nil_r. apply Permutation_refl. Qed.

Ltac pull :=
  lazymatch goal with
  | |- Permutation (?l ++ ?r) _ => first [eapply pull_left; pull | eapply pull_right; pull]
  | |- Permutation (_ :: _) _ => first [apply Permutation_refl | eapply pull_cons; pull]
  end.
Ltac chunk :=
  lazymatch goal with
  | |- Permutation (?l ++ ?r) (?c ++ _) =>
      first [apply Permutation_refl | eapply chunk_left; chunk | eapply chunk_right; chunk]
  | |- Permutation (_ :: _) _ => eapply chunk_cons; chunk
  | |- Permutation ?l (?l ++ _) => apply chunk_self
  end.
Ltac perm :=
  rewrite ?app_nil_r;
  lazymatch goal with
  | |- Permutation _ (?y :: ?g) => eapply (@perm_trans _ _ (y :: _) _); [pull|apply perm_skip; perm]
  | |- Permutation _ ((?a ++ ?b) ++ ?g) => rewrite <- app_assoc; perm
  | |- Permutation _ ((?y :: ?b) ++ ?g) => cbn [app]; perm
  | |- Permutation _ (?c ++ ?g) => eapply (@perm_trans _ _ (c ++ _) _); [chunk|apply Permutation_app_head; perm]
  | |- Permutation ?a ?b => first [apply Permutation_refl|apply Permutation_sym; perm]
  end.

(** Bring the block at [a] to the front. *)
Ltac front H a :=
  match type of H with
  | heap_is ?m ?f => eapply (heap_perm m f ((a, _) :: _)) in H; [|pull]
  end.
Ltac reorder H g :=
  match type of H with
  | heap_is ?m ?f => apply (heap_perm m f g) in H; [|perm]
  end.

Ltac fields := cbv [set_nth S_length S_first S_last K_key K_value K_fwd K_bwd
  T_dim T_card T_temp T_size T_data T_prop V_id V_symbol V_name V_card V_states V_likelihood V_prior V_nparents V_parents V_mapping
  C_p C_original C_variables C_sepsets C_number C_mark X_old X_new X_variables X_first X_second L_data L_fwd L_bwd
  M_ncliques M_cliques M_nvars M_vars M_next M_previous M_outgoing M_old_outgoing M_incoming M_children M_independent
  Y_length Y_hidden Y_observed Y_data U_nvars U_variables U_length U_data] in *.

(** Steps of a program: allocation, assignment, reading, free. *)
Ltac al H :=
  unfold malloc, calloc;
  match goal with
  | |- context [allocate ?m ?b] =>
      let K := fresh "K" in assert (K := allocate_ok m _ b H);
      let m' := fresh "m" in let a := fresh "a" in destruct (allocate m b) as [m' a]; cbn [bind fst snd] in K |- *;
      let K2 := fresh in destruct K as [K K2]; clear K2 H; rename K into H; cbn [repeat] in H
  end.
Ltac focus H a b :=
  match type of H with
  | heap_is ?m ?f => eapply (heap_perm m f ((a, b) :: _)) in H; [|pull]
  end.
Ltac st H :=
  lazymatch goal with
  | |- context [store ?m (Some ?a) ?k ?x] =>
      front H a;
      let m' := fresh "m" in let E := fresh "E" in let H' := fresh "H" in
      destruct (store_ok _ _ a _ k x H) as (m' & E & H' & _); [cbv; lia|];
      rewrite E; cbn [bind]; clear E H; rename H' into H; cbv [set_nth] in H; fields
  end.
Ltac gp H :=
  lazymatch goal with
  | |- context [ptr ?m (Some ?a) ?k] =>
      front H a;
      let E := fresh "E" in
      match type of H with
      | heap_is _ ((_, ?b) :: _) =>
          match eval cbv in (nth_error b k) with
          | Some (P ?q) =>
              assert (E : ptr m (Some a) k = Ok q) by (eapply ptr_ok; [exact H|left; reflexivity|reflexivity]);
              rewrite E; cbn [bind]; clear E
          end
      end
  end.
Ltac gn H :=
  lazymatch goal with
  | |- context [num ?m (Some ?a) ?k] =>
      front H a;
      let E := fresh "E" in
      match type of H with
      | heap_is _ ((_, ?b) :: _) =>
          match eval cbv in (nth_error b k) with
          | Some (N ?q) =>
              assert (E : num m (Some a) k = Ok q) by (eapply num_ok; [exact H|left; reflexivity|reflexivity]);
              rewrite E; cbn [bind]; clear E
          end
      end
  end.
Ltac fr H :=
  lazymatch goal with
  | |- context [free ?m None] => rewrite (free_null m); cbn [bind]
  | |- context [free ?m (Some ?a)] =>
      front H a;
      let m' := fresh "m" in let E := fresh "E" in let H' := fresh "H" in
      destruct (free_ok _ _ a _ H) as (m' & E & H' & _);
      rewrite E; cbn [bind]; clear E H; rename H' into H
  end.

(** ** Potentials *)
Definition pot (p d : nat) (f : fp) : Prop :=
  exists c t n x l bc bt bx,
    f = [(p, [N d; P (Some c); P (Some t); N n; P (Some x); P (Some l)]); (c, bc); (t, bt); (x, bx); (l, [N 0; P None; P None])].

Lemma new_potential_ok : forall m f cards, heap_is m f ->
  exists m' p g, new_potential m cards = Ok (m', Some p) /\ pot p (length cards) g /\ heap_is m' (g ++ f).
Proof.
  intros m f cards H. unfold new_potential. cbv zeta. al H. al H. st H. al H. st H. st H. st H. al H. st H.
  unfold new_string_pair_list. al H. st H. st H. st H. cbn [bind]. st H.
  eexists _, a, [(a, _); (a0, _); (a1, _); (a2, _); (a3, _)]. split; [reflexivity|]. split.
  2: { eapply heap_perm; [|exact H]. cbn [app]. perm. }
  do 8 eexists. reflexivity.
Qed.

Lemma free_potential_ok : forall m f p d g, pot p d g -> heap_is m (g ++ f) ->
  exists m', free_potential m (Some p) = Ok m' /\ heap_is m' f.
Proof.
  intros m f p d g (c & t & n & x & l & bc & bt & bx & E) H. subst g. cbn [app] in H.
  unfold free_potential. gp H. unfold free_string_pair_list. gp H. st H. cbn [free_pairs]. cbn [bind]. gp H. cbn [bind]. fr H.
  gp H. fr H. gp H. fr H. gp H. fr H. front H p. destruct (free_ok _ _ p _ H) as (m' & E & H' & _).
  exists m'. split; [exact E|exact H'].
Qed.

(** ** Variables *)
Definition opt (o : option nat) : list nat := match o with Some a => [a] | None => [] end.
Definition addresses (f : fp) (l : list nat) : Prop := Permutation (map fst f) l.

Lemma addresses_pull : forall f a l, addresses f (a :: l) ->
  exists b g, Permutation f ((a, b) :: g) /\ addresses g l.
Proof.
  intros f a l H. assert (I : In a (map fst f)) by (eapply Permutation_in; [apply Permutation_sym; exact H|left; reflexivity]).
  apply in_map_iff in I. destruct I as ((a' & b) & E & I). cbn in E. subst a'. apply in_split in I. destruct I as (f1 & f2 & E). subst f.
  exists b, (f1 ++ f2). split; [apply Permutation_sym, Permutation_middle|].
  unfold addresses in *. apply (Permutation_cons_inv (a := a)). eapply perm_trans; [|exact H].
  rewrite !map_app. cbn [map fst]. apply Permutation_middle.
Qed.

Lemma free_one : forall m h f a l, addresses f (a :: l) -> heap_is m (h ++ f) ->
  exists m' f', free m (Some a) = Ok m' /\ addresses f' l /\ heap_is m' (h ++ f').
Proof.
  intros m h f a l HA H. destruct (addresses_pull f a l HA) as (b & g & HP & HG).
  apply (heap_perm m _ ((a, b) :: h ++ g)) in H.
  2:{ eapply perm_trans; [apply Permutation_app_head; exact HP|]. apply Permutation_sym, Permutation_middle. }
  destruct (free_ok _ _ a _ H) as (m' & E & H' & _). eauto.
Qed.
Lemma free_opt : forall m h f o l, addresses f (opt o ++ l) -> heap_is m (h ++ f) ->
  exists m' f', free m o = Ok m' /\ addresses f' l /\ heap_is m' (h ++ f').
Proof. intros m h f [a|] l HA H; [apply (free_one m h f a l HA H)|exists m, f; auto]. Qed.

Definition var_block (id sym : nat) (name : option nat) (card st lik : nat) (prior : option nat) (np : nat) (parents mapping : option nat) : block :=
  [N id; P (Some sym); P name; N card; P (Some st); P (Some lik); P prior; N np; P parents; P mapping].
Definition var (v : nat) (id card : nat) (f : fp) : Prop :=
  exists sym name st strs lik prior np parents mapping g,
    f = (v, var_block id sym name card st lik prior np parents mapping) :: (st, map (fun a => P (Some a)) strs) :: g /\
    length strs = card /\
    addresses g (sym :: opt name ++ strs ++ opt parents ++ opt mapping ++ [lik] ++ opt prior).

Lemma set_text_new : forall m f a b k len, heap_is m ((a, b) :: f) -> nth_error b k = Some (P None) ->
  exists m' s c, set_variable_text m (Some a) k len = Ok m' /\ heap_is m' ((a, set_nth b k (P (Some s))) :: (s, c) :: f).
Proof.
  intros m f a b k len H E. unfold set_variable_text. cbv zeta.
  rewrite (ptr_ok m _ a b k None H (or_introl eq_refl) E). cbn [bind free].
  assert (KB : k < length b) by (apply nth_error_Some; rewrite E; discriminate).
  al H. front H a. destruct (store_ok _ _ a _ k (P (Some a0)) H KB) as (m' & E1 & H1 & _).
  rewrite E1. do 3 eexists. split; [reflexivity|exact H1].
Qed.

Lemma nth_tail : forall A (l : list A) x n t, length l = t -> nth_error (l ++ repeat x (S n)) t = Some x.
Proof. intros A l x n t <-. rewrite nth_error_app2, Nat.sub_diag by lia. reflexivity. Qed.
Lemma set_tail : forall A (l : list A) x y n t, length l = t -> set_nth (l ++ repeat x (S n)) t y = (l ++ [y]) ++ repeat x n.
Proof. intros A l x y n t <-. induction l as [|z l IH]; [reflexivity|]. cbn [app length set_nth]. rewrite IH. reflexivity. Qed.

Lemma new_variable_ok : forall m f id symbol name states, heap_is m f ->
  exists m' v g, new_variable m id symbol name (Some states) (length states) = Ok (m', Some v) /\
    var v id (length states) g /\ heap_is m' (g ++ f).
Proof.
  intros m f id symbol name states H. unfold new_variable. cbv zeta. al H.
  do 7 (st H). 
  front H a. edestruct (set_text_new _ _ a _ 1 symbol H eq_refl) as (m9 & s & bs & E & H1). rewrite E. cbn [bind]. clear E H. fields.
  rename H1 into H. st H.
  assert (X : exists m' nm g, match name with Some n => set_variable_text m8 (Some a) 2 n | None => Ok m8 end = Ok m' /\
    addresses g (opt nm) /\
    heap_is m' ((a, [N id; P (Some s); P nm; N (length states); Junk; Junk; P None; N 0; P None; P None]) :: (s, bs) :: g ++ f)).
  { destruct name as [n|].
    - front H a. edestruct (set_text_new _ _ a _ 2 n H eq_refl) as (m11 & s2 & b2 & E & H1). fields. rewrite E.
      exists m11, (Some s2), [(s2, b2)]. split; [reflexivity|]. split; [apply Permutation_refl|].
      cbn [app]. eapply heap_perm; [|exact H1]. perm.
    - exists m8, None, []. split; [reflexivity|]. split; [apply Permutation_refl|]. exact H. }
  destruct X as (m11 & nm & g & E & HA & H1). rewrite E. cbn [bind]. clear E H. rename H1 into H.
  al H. st H.
  match goal with |- context [for_up 0 ?n ?b ?i] => 
    destruct (for_up_inv memory (fun t m => exists strs g2, length strs = t /\ addresses g2 strs /\
      heap_is m ((a, [N id; P (Some s); P nm; N (length states); P (Some a0); Junk; P None; N 0; P None; P None]) ::
        (a0, map (fun x => P (Some x)) strs ++ repeat (P None) (n - t)) :: (s, bs) :: g2 ++ g ++ f)) b 0 n i) as (m14 & E & INV) end.
  - lia.
  - exists [], []. split; [reflexivity|]. split; [apply Permutation_refl|]. cbn [map app]. rewrite Nat.sub_0_r.
    exact H.
  - intros t mt Ht (strs & g2 & L & HA2 & HM).
    destruct (nth_error states t) as [len|] eqn:EL; [|apply nth_error_None in EL; lia].
    unfold rd. rewrite EL. cbn [bind]. gp HM. front HM a0.
    replace (length states - t) with (S (length states - S t)) in HM by lia.
    edestruct (set_text_new mt _ a0 _ t len HM) as (m' & s2 & b2 & E & H1).
    { apply nth_tail. rewrite map_length. exact L. }
    exists m'. split; [exact E|]. exists (strs ++ [s2]), ((s2, b2) :: g2). split; [rewrite app_length; cbn; lia|].
    split; [unfold addresses in *; cbn [map fst]; eapply perm_trans; [apply perm_skip; exact HA2|apply Permutation_cons_append]|].
    rewrite map_app. cbn [map].
    rewrite set_tail in H1 by (rewrite map_length; exact L). cbn [app]. eapply heap_perm; [|exact H1]. perm.
  - rewrite E. cbn [bind]. clear E H. destruct INV as (strs & g2 & L & HA2 & H). rewrite Nat.sub_diag in H. cbn [repeat] in H.
    rewrite app_nil_r in H. al H. st H.
    eexists _, a, ((a, _) :: (a0, _) :: (s, bs) :: g ++ g2 ++ [(a1, _)]). split; [reflexivity|]. split.
    2:{ eapply heap_perm; [|exact H]. cbn [app]. perm. }
    exists s, nm, a0, strs, a1, None, 0, None, None. eexists. split; [reflexivity|]. split; [exact L|].
    unfold addresses in *. cbn [map fst opt app]. apply perm_skip. rewrite !map_app. cbn [map fst].
    apply Permutation_app; [exact HA|]. apply Permutation_app; [exact HA2|]. apply Permutation_refl.
Qed.
