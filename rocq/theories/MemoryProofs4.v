(** * Proofs about memory: cliques and sepsets *)
From Coq Require Import Permutation.
From Verif Require Import Base BaseProofs HeapProofs MemoryModel MemorySpec MemoryProofs MemoryProofs2 MemoryProofs3.
Import ListNotations.
Open Scope nat_scope.
Local Open Scope res_scope.

(** ** Variables that can be read *)
Definition has_var (f : fp) (v : nat) : Prop :=
  exists b id card, In (v, b) f /\ nth_error b V_id = Some (N id) /\ nth_error b V_card = Some (N card).

Lemma has_var_incl : forall f g v, incl f g -> has_var f v -> has_var g v.
Proof. intros f g v I (b & id & card & H & X & Y). exists b, id, card. auto. Qed.
Lemma var_has : forall v id card g, var v id card g -> has_var g v.
Proof.
  intros v id card g (sym & name & sn & strs & lik & prior & np & parents & mapping & b & E & L & HA). subst g.
  eexists _, id, card. split; [left; reflexivity|]. split; reflexivity.
Qed.

Lemma cardinalities_ok : forall m f vars, heap_is m f -> Forall (has_var f) vars ->
  exists l, cardinalities m (map Some vars) = Ok l /\ length l = length vars.
Proof.
  intros m f vars H. induction vars as [|v vars IH]; intros HF; [exists []; auto|].
  inversion HF as [|? ? (b & id & card & I & _ & EC) HF']; subst. destruct (IH HF') as (l & E & L).
  exists (card :: l). cbn [map cardinalities]. rewrite (num_ok m f v b V_card card H I EC). cbn [bind]. rewrite E. cbn. auto.
Qed.

Lemma is_among_ok : forall m f v vb, heap_is m f -> has_var f v -> Forall (has_var f) vb ->
  exists e, is_among m (Some v) (map Some vb) = Ok e.
Proof.
  intros m f v vb H (b & id & card & I & EI & _). induction vb as [|w vb IH]; intros HF; [exists false; reflexivity|].
  inversion HF as [|? ? (b' & id' & card' & I' & EI' & _) HF']; subst. destruct (IH HF') as (e & E).
  cbn [map is_among equal_variables]. rewrite (num_ok m f v b V_id id H I EI). cbn [bind].
  rewrite (num_ok m f w b' V_id id' H I' EI'). cbn [bind]. destruct (Nat.eqb id id'); eauto.
Qed.

Lemma isect_ok : forall m f va vb, heap_is m f -> Forall (has_var f) va -> Forall (has_var f) vb ->
  exists l, isect m (map Some va) (map Some vb) = Ok (map Some l) /\ incl l va.
Proof.
  intros m f va vb H. induction va as [|v va IH]; intros HA HB; [exists []; split; [reflexivity|apply incl_refl]|].
  inversion HA as [|? ? HV HA']; subst. destruct (IH HA' HB) as (l & E & IL). cbn [map isect].
  destruct (is_among_ok m f v vb H HV HB) as (e & E'). rewrite E'. cbn [bind]. rewrite E. cbn [bind].
  exists (if e then v :: l else l). split; [destruct e; reflexivity|].
  destruct e; intros x Hx; [destruct Hx as [->|Hx]; [left; reflexivity|right; auto]|right; auto].
Qed.

Lemma pointers_ok : forall m f a vars k, heap_is m f -> In (a, map (fun v => P (Some v)) vars) f -> k <= length vars ->
  pointers m (Some a) k (length vars - k) = Ok (map Some (skipn k vars)).
Proof.
  intros m f a vars k H I L. remember (length vars - k) as n eqn:En. revert k L En. induction n as [|n IH]; intros k L En.
  - rewrite skipn_all2 by lia. reflexivity.
  - destruct (nth_error vars k) as [v|] eqn:EV; [|apply nth_error_None in EV; lia].
    assert (SK : skipn k vars = v :: skipn (S k) vars).
    { clear -EV. revert k EV. induction vars as [|y r IH]; intros [|t] EX; try discriminate.
      - injection EX as ->. reflexivity.
      - cbn in EX |- *. apply IH. exact EX. }
    cbn [pointers]. rewrite (ptr_ok m f a _ k (Some v) H I) by (rewrite nth_error_map, EV; reflexivity). cbn [bind].
    rewrite IH by lia. cbn [bind]. rewrite SK. reflexivity.
Qed.

(** ** Lists of sepsets *)
Definition hd_or (x : list (nat * nat)) (nxt : option nat) : option nat :=
  match x with (l, _) :: _ => Some l | [] => nxt end.
Fixpoint last_or (bk : option nat) (x : list (nat * nat)) : option nat :=
  match x with [] => bk | (l, _) :: r => last_or (Some l) r end.
Fixpoint seg (bk : option nat) (x : list (nat * nat)) (nxt : option nat) : fp :=
  match x with
  | [] => []
  | (l, s) :: r => (l, [P (Some s); P (hd_or r nxt); P bk]) :: seg (Some l) r nxt
  end.

Lemma seg_app : forall x y bk nxt, seg bk (x ++ y) nxt = seg bk x (hd_or y nxt) ++ seg (last_or bk x) y nxt.
Proof.
  induction x as [|(l, s) x IH]; intros y bk nxt; [reflexivity|]. cbn [app seg last_or]. rewrite IH.
  cbn [app]. f_equal. f_equal. f_equal. f_equal. f_equal. destruct x as [|(l', s') x]; reflexivity.
Qed.
Lemma last_or_app : forall x l s bk, last_or bk (x ++ [(l, s)]) = Some l.
Proof. induction x as [|(a, b) x IH]; intros; [reflexivity|]. cbn [app last_or]. apply IH. Qed.
Lemma seg_fst : forall x bk nxt, map fst (seg bk x nxt) = map fst x.
Proof. induction x as [|(l, s) x IH]; intros; [reflexivity|]. cbn. rewrite IH. reflexivity. Qed.
Lemma seg_length : forall x bk nxt, length (seg bk x nxt) = length x.
Proof. induction x as [|(l, s) x IH]; intros; [reflexivity|]. cbn. rewrite IH. reflexivity. Qed.

Definition clq_block (p o vs : nat) (h : option nat) : block :=
  [P (Some p); P (Some o); P (Some vs); P h; Junk; N 0].
Definition clq (c : nat) (members : list nat) (ls : list (nat * nat)) (g : fp) : Prop :=
  exists p o vs gp go,
    g = (c, clq_block p o vs (hd_or ls None)) :: (vs, map (fun v => P (Some v)) members) :: gp ++ go ++ seg None ls None /\
    pot p (length members) gp /\ pot o (length members) go.

Definition sep (s a b : nat) (g : fp) : Prop :=
  exists old new vars d gp gn gv,
    g = (s, [P (Some old); P (Some new); P vars; P (Some a); P (Some b)]) :: gp ++ gn ++ gv /\
    pot old d gp /\ pot new d gn /\ addresses gv (opt vars).

(** Finish a goal [exists m', store .. = Ok m' /\ heap_is m' ..]. *)
Ltac last_store H a :=
  front H a;
  match goal with |- context [store _ _ ?k ?x] =>
    let m' := fresh "m" in let E := fresh "E" in let H' := fresh "H" in
    destruct (store_ok _ _ a _ k x H) as (m' & E & H' & _); [cbv; lia|];
    rewrite E; clear E H; rename H' into H; fields
  end.

Lemma new_clique_ok : forall m f vars, heap_is m f -> Forall (has_var f) vars ->
  exists m' c g, new_clique m (map Some vars) = Ok (m', Some c) /\ clq c vars [] g /\ heap_is m' (g ++ f).
Proof.
  intros m f vars H HV. unfold new_clique. cbv zeta. al H. al H. al H. al H. al H.
  rewrite map_map in H. st H.
  match type of H with heap_is ?M ?F => destruct (cardinalities_ok M F vars H) as (cards & E & L) end.
  { eapply Forall_impl; [|exact HV]. intros v. apply has_var_incl. intros x Hx. cbn [In]. tauto. }
  rewrite E. cbn [bind]. clear E.
  destruct (new_potential_ok _ _ cards H) as (m50 & p & gp & E & HP & H5). rewrite E. cbn [bind]. clear E H. rename H5 into H. st H.
  destruct (new_potential_ok _ _ cards H) as (m70 & o & go & E & HO & H7). rewrite E. cbn [bind]. clear E H. rename H7 into H. st H.
  fr H. fr H. fr H. st H. st H.
  eexists _, a, ((a, _) :: (a3, _) :: gp ++ go). split; [reflexivity|]. split.
  2:{ eapply heap_perm; [|exact H]. cbn [app]. perm. }
  exists p, o, a3, gp, go. split; [cbn [seg]; rewrite app_nil_r; reflexivity|]. rewrite <- L. auto.
Qed.
