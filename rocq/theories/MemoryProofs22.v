(** * Memory of cliques and sepsets of a new join tree (for C91) *)
From Coq Require Import Permutation.
From Verif Require Import Base BaseProofs PotentialModel VariableModel VariableProofs JoinTreeModel HeapModel HeapSpec HeapProofs HeapProofs2 GraphModel GraphSpec GraphProofs GraphProofs2 MemoryModel MemorySpec MemoryProofs MemoryProofs2 MemoryProofs3 MemoryProofs4 MemoryProofs5 MemoryProofs6 MemoryProofs7 MemoryProofs8 MemoryProofs9 MemoryModel3 MemoryProofs19 MemoryProofs20 MemoryProofs21.
Import ListNotations.
Open Scope nat_scope.
Local Open Scope res_scope.

(** ** What the loop over sepsets does not change *)
Definition kept (jt jt' : jtree) : Prop := sps jt' = sps jt /\ map c_vars (cls jt') = map c_vars (cls jt) /\ map c_p (cls jt') = map c_p (cls jt).
Lemma kept_refl : forall jt, kept jt jt.
Proof. intros. split; [|split]; reflexivity. Qed.
Lemma kept_trans : forall a b c, kept a b -> kept b c -> kept a c.
Proof. intros a b c (A1 & A2 & A3) (B1 & B2 & B3). split; [|split]; congruence. Qed.

Lemma put_kept : forall jt i c0 c jt', rd (cls jt) i = Ok c0 -> c_vars c = c_vars c0 -> c_p c = c_p c0 -> put_clique jt i c = Ok jt' -> kept jt jt'.
Proof.
  intros jt i c0 c jt' E V V2 H. unfold put_clique, wr in H. destruct (Nat.ltb_spec i (length (cls jt))); [|discriminate]. cbn [bind] in H. injection H as <-.
  unfold rd in E. destruct (nth_error (cls jt) i) eqn:EN; [|discriminate]. injection E as ->.
  assert (X : forall B (f : clique -> B), f c = f c0 -> map f (set_nth (cls jt) i c) = map f (cls jt)).
  { intros B f EF. rewrite map_set_nth, EF. clear -EN. revert i EN. induction (cls jt) as [|y l IH]; intros [|i] EN; cbn in *; try discriminate; [injection EN as ->; reflexivity|]. f_equal. apply IH. exact EN. }
  split; [reflexivity|]. cbn [cls]. auto.
Qed.
Lemma unmark_kept : forall jt jt', unmark_all jt = Ok jt' -> kept jt jt'.
Proof.
  intros jt. unfold unmark_all, for_up. generalize (length (cls jt) - 0). generalize 0. intros lo n. revert lo jt.
  induction n as [|n IH]; intros lo jt jt' E; cbn [loop_up] in E; [injection E as <-; apply kept_refl|]. binv E j1. binv K c. apply (put_kept jt lo c) in K; [|exact K0|reflexivity|reflexivity].
  apply IH in E. eapply kept_trans; eassumption.
Qed.
Lemma mark_kept : forall jt i jt', mark_clique jt i = Ok jt' -> kept jt jt'.
Proof. intros jt i jt' E. unfold mark_clique in E. binv E c. eapply put_kept; [exact K| | |exact E]; reflexivity. Qed.
Lemma connected_kept : forall fuel jt one two jt' b, cliques_connected fuel jt one two = Ok (jt', b) -> kept jt jt'.
Proof.
  induction fuel as [|fuel IH]; intros jt one two jt' b E; [discriminate|]. cbn [cliques_connected] in E. binv E c. binv E j1. apply mark_kept in K0.
  destruct (Nat.eqb one two); [injection E as <- _; exact K0|]. eapply kept_trans; [exact K0|]. clear K K0. revert j1 E. generalize (c_sepsets c).
  induction l as [|s l IHl]; intros j1 E; [injection E as <- _; apply kept_refl|]. binv E sp. binv E m1. destruct (negb m1).
  - binv E r. destruct r as [j2 b2]. apply IH in K1. destruct b2; [injection E as <- _; exact K1|]. eapply kept_trans; [exact K1|apply IHl; exact E].
  - binv E m2. destruct (negb m2).
    + binv E r. destruct r as [j2 b2]. apply IH in K2. destruct b2; [injection E as <- _; exact K2|]. eapply kept_trans; [exact K2|apply IHl; exact E].
    + apply IHl. exact E.
Qed.
Lemma confirm_kept : forall jt s jt', JoinTreeModel.confirm_sepset jt s = Ok jt' -> kept jt jt'.
Proof.
  intros jt s jt' E. unfold JoinTreeModel.confirm_sepset in E. binv E sp. binv E c1. binv E j1. binv E c2. apply (put_kept jt _ c1) in K1; [|exact K0|reflexivity|reflexivity].
  apply (put_kept j1 _ c2) in E; [|exact K2|reflexivity|reflexivity]. eapply kept_trans; eassumption.
Qed.

(** ** Cliques *)
Section Cliques.
Variables (card : nat -> nat) (vs : list nat).
Definition with_cliques (w : world) (cs : list clique) : world := mkWorld (w_vars w) (w_cliques w ++ map (fun c => Some (c_vars c, [])) cs).
Lemma with_cliques_app : forall w a b, with_cliques w (a ++ b) = with_cliques (with_cliques w a) b.
Proof. intros. unfold with_cliques. cbn. rewrite map_app, app_assoc. reflexivity. Qed.

Lemma new_clique_step : forall m cl w t rest c, inv m vs cl (w_vars w) t rest -> rep w cl t -> forallb (exists_var w) (c_vars c) = true ->
  exists m' a t', MemoryModel.new_clique m (map (nth_error vs) (c_vars c)) = Ok (m', Some a) /\
    inv m' vs (cl ++ [a]) (w_vars w) t' rest /\ rep (with_cliques w [c]) (cl ++ [a]) t'.
Proof.
  intros m cl w t rest c I R V. destruct (run_new_clique m vs cl w t rest (c_vars c) I R V) as (m' & vs' & cl' & t' & E & I' & R'). unfold run_call in E.
  destruct (MemoryModel.new_clique m (map (nth_error vs) (c_vars c))) as [[m1 [a|]]| |]; cbn [bind address] in E; try discriminate. injection E as <- <- <-.
  exists m1, a, t'. auto.
Qed.

Lemma array_incl : forall cs vars n fl out, cluster_list_to_clique_array card cs vars n fl = Ok out -> incl fl out.
Proof.
  induction cs as [|x cs IH]; intros vars n f out E; cbn [cluster_list_to_clique_array] in E; [injection E as <-; apply incl_refl|]. binv E y. binv E z. destruct z as [z|]; [|discriminate E].
  apply IH in E. intros q Hq. apply E. right. exact Hq.
Qed.

Lemma m_cliques_ok : forall clusters m cl w t rest vars n filled ptrs out,
  inv m vs cl (w_vars w) t rest -> rep w cl t -> (forall a, In a (lblocks clusters) -> In (a, []) rest) ->
  cluster_list_to_clique_array card (map snd clusters) vars n filled = Ok out ->
  Forall (fun c => forallb (exists_var w) (c_vars c) = true) out ->
  exists m' t' new adr, m_cliques card (nth_error vs) m clusters vars n filled ptrs = Ok (m', out, map Some (rev adr) ++ ptrs) /\
    out = rev new ++ filled /\ length adr = length new /\
    inv m' vs (cl ++ adr) (w_vars w) t' rest /\ rep (with_cliques w new) (cl ++ adr) t'.
Proof.
  induction clusters as [|[[l s] set] clusters IH]; intros m cl w t rest vars n filled ptrs out I R U E V; cbn [map snd cluster_list_to_clique_array m_cliques] in *.
  - injection E as <-. exists m, t, [], []. cbn [rev map app length]. rewrite !app_nil_r. split; [reflexivity|]. split; [reflexivity|]. split; [reflexivity|]. split; [exact I|].
    unfold with_cliques. cbn [map]. rewrite app_nil_r. destruct w; exact R.
  - assert (UU : forall a, In a (lblocks ((l, s, set) :: clusters)) -> use m a = Ok tt).
    { intros a Ha. unfold use. destruct I as (_ & _ & _ & H). rewrite (heap_in m _ a [] H); [reflexivity|]. apply in_or_app. right. apply U. exact Ha. }
    rewrite (UU l), (UU s) by (unfold lblocks; cbn; auto). cbn [bind].
    binv E xs. cbn [bind]. binv E c. cbn [bind]. destruct c as [c|]; [|discriminate E].
    assert (IC : In c out) by (apply (array_incl _ _ _ _ _ E); left; reflexivity).
    destruct (new_clique_step m cl w t rest c I R) as (m1 & a & t1 & E1 & I1 & R1). { rewrite Forall_forall in V. apply V. exact IC. }
    rewrite E1. cbn [bind].
    destruct (IH m1 (cl ++ [a]) (with_cliques w [c]) t1 rest vars n (c :: filled) (Some a :: ptrs) out I1 R1) as (m2 & t2 & new & adr & E2 & EO & LA & I2 & R2); auto.
    { intros x Hx. apply U. unfold lblocks in *. cbn. auto. }
    exists m2, t2, (c :: new), (a :: adr). rewrite <- app_assoc in I2, R2. cbn [app] in I2, R2. cbn [rev map length]. rewrite map_app. rewrite <- !app_assoc. cbn [map app].
    split; [exact E2|]. split; [exact EO|]. split; [lia|]. split; [exact I2|]. rewrite <- with_cliques_app in R2. exact R2.
Qed.
End Cliques.
