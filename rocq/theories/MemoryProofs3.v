(** * Proofs about memory: changing and freeing variables *)
From Coq Require Import Permutation.
From Verif Require Import Base BaseProofs HeapProofs MemoryModel MemorySpec MemoryProofs MemoryProofs2.
Import ListNotations.
Open Scope nat_scope.
Local Open Scope res_scope.

Lemma addresses_perm : forall f l k, Permutation l k -> addresses f l -> addresses f k.
Proof. intros f l k HP H. eapply perm_trans; [exact H|exact HP]. Qed.

(** Free an address from the bag [g] of a heap. *)
Ltac fo H HA o :=
  match type of HA with
  | addresses ?g ?l =>
      eapply (addresses_perm g l (opt o ++ _)) in HA; [|chunk];
      match type of H with
      | heap_is ?m ?f =>
          eapply (heap_perm m f (_ ++ g)) in H;
          [|eapply (@perm_trans _ _ (g ++ _)); [chunk|apply Permutation_app_comm]];
          let m' := fresh "m" in let g' := fresh "g" in let E := fresh "E" in let A' := fresh "HA" in let H' := fresh "H" in
          destruct (free_opt _ _ _ o _ HA H) as (m' & g' & E & A' & H'); rewrite E; cbn [bind]; clear E HA H;
          rename A' into HA; rename H' into H; cbn [app] in H
      end
  end.

Lemma set_parents_ok : forall m f v id card g ps, var v id card g -> heap_is m (g ++ f) ->
  exists m' g', set_parents m (Some v) ps = Ok m' /\ var v id card g' /\ heap_is m' (g' ++ f).
Proof.
  intros m f v id card g ps (sym & name & sn & strs & lik & prior & np & parents & mapping & b & E & L & HA) H. subst g.
  cbn [app] in H. unfold var_block in H. unfold set_parents. gp H.
  change (sym :: opt name ++ strs ++ opt parents ++ opt mapping ++ [lik] ++ opt prior)
    with ([sym] ++ opt name ++ strs ++ opt parents ++ opt mapping ++ [lik] ++ opt prior) in HA.
  fo H HA parents.
  destruct ps as [|p0 ps].
  - st H. front H v. destruct (store_ok _ _ v _ V_nparents (N 0) H) as (m' & E & H' & _); [cbv; lia|]. fields.
    exists m'. eexists ((v, _) :: (sn, _) :: g). split; [exact E|]. split.
    2:{ cbn [app]. eapply heap_perm; [|exact H']. perm. }
    exists sym, name, sn, strs, lik, prior, 0, None, mapping, g. split; [reflexivity|]. split; [exact L|].
    eapply addresses_perm; [|exact HA]. cbn [opt app]. change (sym :: ?l) with ([sym] ++ l). apply Permutation_refl.
  - al H. st H. front H v. match goal with |- context [store _ _ ?k ?x] => destruct (store_ok _ _ v _ k x H) as (m' & E & H' & _) end; [cbv; lia|].
    fields. exists m'. eexists ((v, _) :: (sn, _) :: (a, _) :: g). split; [exact E|]. split.
    2:{ cbn [app]. eapply heap_perm; [|exact H']. perm. }
    eexists sym, name, sn, strs, lik, prior, _, (Some a), mapping, _. split; [reflexivity|]. split; [exact L|].
    unfold addresses. cbn [map fst opt app]. unfold addresses in HA. cbn [app] in HA.
    eapply perm_trans; [apply perm_skip; exact HA|]. perm.
Qed.

Lemma set_prior_ok : forall m f v id card g, var v id card g -> heap_is m (g ++ f) ->
  exists m' g', set_prior m (Some v) = Ok m' /\ var v id card g' /\ heap_is m' (g' ++ f).
Proof.
  intros m f v id card g (sym & name & sn & strs & lik & prior & np & parents & mapping & b & E & L & HA) H. subst g.
  cbn [app] in H. unfold var_block in H. unfold set_prior. gp H.
  change (sym :: opt name ++ strs ++ opt parents ++ opt mapping ++ [lik] ++ opt prior)
    with ([sym] ++ opt name ++ strs ++ opt parents ++ opt mapping ++ [lik] ++ opt prior) in HA.
  fo H HA prior. gn H. al H. front H v. match goal with |- context [store _ _ V_prior ?x] => destruct (store_ok _ _ v _ V_prior x H) as (m' & E & H' & _) end; [cbv; lia|].
  fields. exists m'. eexists ((v, _) :: (sn, _) :: (a, _) :: g). split; [exact E|]. split.
  2:{ cbn [app]. eapply heap_perm; [|exact H']. perm. }
  eexists sym, name, sn, strs, lik, (Some a), _, parents, mapping, _. split; [reflexivity|]. split; [exact L|].
  unfold addresses. cbn [map fst opt app]. unfold addresses in HA. cbn [app] in HA.
  eapply perm_trans; [apply perm_skip; exact HA|]. perm.
Qed.

Lemma find_mapping_ok : forall m f v id card g, var v id card g -> heap_is m (g ++ f) ->
  exists m' g', find_family_mapping m (Some v) = Ok m' /\ var v id card g' /\ heap_is m' (g' ++ f).
Proof.
  intros m f v id card g (sym & name & sn & strs & lik & prior & np & parents & mapping & b & E & L & HA) H. subst g.
  cbn [app] in H. unfold var_block in H. unfold find_family_mapping. gp H. destruct mapping as [mp|].
  - exists m. eexists ((v, _) :: (sn, _) :: b). split; [reflexivity|]. split; [|cbn [app]; eapply heap_perm; [|exact H]; perm].
    eexists sym, name, sn, strs, lik, prior, _, parents, (Some mp), _. split; [reflexivity|]. split; [exact L|exact HA].
  - gn H. al H. front H v. match goal with |- context [store _ _ V_mapping ?x] => destruct (store_ok _ _ v _ V_mapping x H) as (m' & E & H' & _) end; [cbv; lia|].
    fields. exists m'. eexists ((v, _) :: (sn, _) :: (a, _) :: b). split; [exact E|]. split.
    2:{ cbn [app]. eapply heap_perm; [|exact H']. perm. }
    eexists sym, name, sn, strs, lik, prior, _, parents, (Some a), _. split; [reflexivity|]. split; [exact L|].
    unfold addresses. cbn [map fst opt app]. unfold addresses in HA. cbn [opt app] in HA.
    eapply perm_trans; [apply perm_skip; exact HA|]. perm.
Qed.

(** The loop that frees the elements of an array. *)
Lemma free_strings : forall sn f strs m b l, addresses b (strs ++ l) ->
  heap_is m ((sn, map (fun a => P (Some a)) strs) :: f ++ b) ->
  exists m' b', for_up 0 (length strs) (fun i m => let* s := ptr m (Some sn) i in free m s) m = Ok m' /\
    addresses b' l /\ heap_is m' ((sn, map (fun a => P (Some a)) strs) :: f ++ b').
Proof.
  intros sn f strs m b l HA H.
  destruct (for_up_inv memory (fun t m => exists b', addresses b' (skipn t strs ++ l) /\
      heap_is m ((sn, map (fun a => P (Some a)) strs) :: f ++ b'))
    (fun i m => let* s := ptr m (Some sn) i in free m s) 0 (length strs) m) as (m' & E & b' & HB & HH).
  - lia.
  - exists b. split; assumption.
  - intros t mt Ht (b' & HB & HM).
    destruct (nth_error strs t) as [x|] eqn:EX; [|apply nth_error_None in EX; lia].
    rewrite (ptr_ok mt _ sn _ t (Some x) HM (or_introl eq_refl)).
    2:{ rewrite nth_error_map, EX. reflexivity. }
    cbn [bind]. assert (SK : skipn t strs = x :: skipn (S t) strs).
    { clear -EX. revert t EX. induction strs as [|y r IH]; intros [|t] EX; try discriminate.
      - injection EX as ->. reflexivity.
      - cbn in EX |- *. apply IH. exact EX. }
    rewrite SK in HB. cbn [app] in HB.
    destruct (free_one mt ((sn, map (fun a => P (Some a)) strs) :: f) b' x _ HB HM) as (m' & b2 & E & HB2 & HM2).
    exists m'. split; [exact E|]. exists b2. split; [exact HB2|exact HM2].
  - exists m', b'. split; [exact E|]. rewrite skipn_all in HB. split; assumption.
Qed.

Lemma free_variable_ok : forall m f v id card g, var v id card g -> heap_is m (g ++ f) ->
  exists m', free_variable m (Some v) = Ok m' /\ heap_is m' f.
Proof.
  intros m f v id card g (sym & name & sn & strs & lik & prior & np & parents & mapping & b & E & L & HA) H. subst g.
  cbn [app] in H. unfold var_block in H. unfold free_variable.
  change (sym :: opt name ++ strs ++ opt parents ++ opt mapping ++ [lik] ++ opt prior)
    with (opt (Some sym) ++ opt name ++ strs ++ opt parents ++ opt mapping ++ opt (Some lik) ++ opt prior) in HA.
  gp H. fo H HA (Some sym). gp H. fo H HA name. gp H. gn H. rewrite <- L.
  eapply (addresses_perm g0 _ (strs ++ _)) in HA; [|chunk].
  match type of H with heap_is ?m ?F =>
    eapply (heap_perm m F ((sn, _) :: [(v, _)] ++ f ++ g0)) in H; [|cbn [app]; perm] end.
  cbn [app] in H. destruct (free_strings sn ((v, var_block id sym name card sn lik prior np parents mapping) :: f) strs _ _ _ HA H) as (m4 & b4 & E & HA4 & H4).
  unfold var_block in *. rewrite E. cbn [bind]. clear E H HA. rename H4 into H. rename HA4 into HA. cbn [app] in H. fr H.
  gp H. fo H HA parents. gp H. fo H HA mapping. gp H. fo H HA (Some lik). gp H. 
  rewrite <- (app_nil_r (opt prior)) in HA. fo H HA prior.
  front H v. destruct (free_ok _ _ v _ H) as (m' & E & H' & _). exists m'. split; [exact E|].
  assert (Z : forall x, addresses x [] -> x = []).
  { intros x X. unfold addresses in X. apply Permutation_sym, Permutation_nil in X. destruct x; [reflexivity|discriminate]. }
  match type of HA with addresses ?x [] => rewrite (Z x HA) in H' end. rewrite ?app_nil_r in H'. exact H'.
Qed.
