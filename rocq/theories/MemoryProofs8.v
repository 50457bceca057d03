(** * Proofs about memory: programs (C82) *)
From Coq Require Import Permutation.
From Verif Require Import Base BaseProofs HeapProofs MemoryModel MemorySpec MemoryProofs MemoryProofs2 MemoryProofs3 MemoryProofs4 MemoryProofs5 MemoryProofs6 MemoryProofs7.
Import ListNotations.
Open Scope nat_scope.
Local Open Scope res_scope.

Definition neighbours (k : nat) (es : list edge) : list nat := map (other k) (at_ k es).
Definition rep (w : world) (cl : list nat) (t : tree) : Prop :=
  length (w_cliques w) = length cl /\
  forall k, clique_of w k = match nth k (t_members t) None with Some mem => Some (mem, neighbours k (t_edges t)) | None => None end.

Lemma rd_nth : forall A (l : list A) k d, k < length l -> rd l k = Ok (nth k l d).
Proof. intros A l k d H. unfold rd. rewrite (nth_error_nth' l d H). reflexivity. Qed.

Lemma nth_new : forall A (l : list A) x d k, k = length l -> nth k (l ++ [x]) d = x.
Proof. intros A l x d k ->. rewrite app_nth2, Nat.sub_diag by lia. reflexivity. Qed.

(** ** The specification *)
Lemma combine_seq_nth : forall A (l : list A) s k, nth_error (combine (seq s (length l)) l) k = match nth_error l k with Some x => Some (s + k, x) | None => None end.
Proof.
  induction l as [|x l IH]; intros s k; [destruct k; reflexivity|]. cbn [length seq combine]. destruct k as [|k]; cbn; [rewrite Nat.add_0_r; reflexivity|].
  rewrite IH. destruct (nth_error l k); [|reflexivity]. f_equal. f_equal. lia.
Qed.
Lemma clique_of_change : forall f w k, clique_of (change f w) k = match clique_of w k with Some c => f k c | None => None end.
Proof.
  intros f w k. unfold clique_of, change. cbn [w_cliques]. rewrite nth_error_map, combine_seq_nth. destruct (nth_error (w_cliques w) k) as [[c|]|]; reflexivity.
Qed.
Lemma change_length : forall f w, length (w_cliques (change f w)) = length (w_cliques w).
Proof. intros. unfold change. cbn. rewrite map_length, combine_length, seq_length. apply Nat.min_id. Qed.

Lemma inv_member_lt : forall m vs cl live t rest k mem, inv m vs cl live t rest -> nth k (t_members t) None = Some mem -> k < length cl.
Proof. intros m vs cl live t rest k mem (_ & (L1 & L2 & L3 & HC) & _) H. rewrite <- L2. eapply nth_some. exact H. Qed.

(** ** The calls *)
Definition goal (w' : world) (r : res state) (rest : fp) : Prop :=
  exists m' vs' cl' t', r = Ok (m', vs', cl') /\ inv m' vs' cl' (w_vars w') t' rest /\ rep w' cl' t'.

Lemma members_ext : forall (vs : list nat) v mem, Forall (fun i => i < length vs) mem ->
  map (fun i => nth i (vs ++ [v]) 0) mem = map (fun i => nth i vs 0) mem.
Proof. intros vs v mem H. apply map_ext_in. intros i Hi. rewrite Forall_forall in H. apply app_nth1. apply H. exact Hi. Qed.

Lemma run_new_variable : forall m vs cl w t rest symbol name states, inv m vs cl (w_vars w) t rest -> rep w cl t ->
  goal (mkWorld (w_vars w ++ [true]) (w_cliques w)) (run_call (m, vs, cl) (NewVariable symbol name states)) rest.
Proof.
  intros m vs cl w t rest symbol name states ((L1 & L2 & HV) & (K1 & K2 & K3 & HC) & HE & H) R.
  unfold run_call. destruct (new_variable_ok m _ (length vs) symbol name states H) as (m' & v & g & E & V & H').
  rewrite E. cbn [bind address]. exists m', (vs ++ [v]), cl, (mkTree (t_vars t ++ [g]) (t_cliques t) (t_members t) (t_links t) (t_edges t)).
  split; [reflexivity|]. split; [|exact R]. cbn [w_vars]. split; [|split; [|split; [exact HE|]]].
  - unfold vars_ok. cbn [t_vars]. rewrite !app_length. cbn [length]. split; [lia|]. split; [lia|]. intros i Hi.
    destruct (Nat.eq_dec i (length vs)) as [D|D].
    + subst i. rewrite !nth_new by lia. exists (length states). exact V.
    + rewrite !app_nth1 by lia. apply HV. lia.
  - unfold cliques_ok. cbn [t_vars t_members t_edges t_links t_cliques]. split; [exact K1|]. split; [exact K2|]. split; [exact K3|].
    intros k Lk. assert (X := HC k Lk). destruct (nth k (t_members t) None) as [mem|]; [|exact X]. destruct X as (X1 & X2 & X3).
    split; [|split; [|exact X3]].
    + eapply Forall_impl; [|exact X1]. intros i Hi. rewrite app_length. cbn in *. lia.
    + rewrite members_ext by exact X1. exact X2.
  - unfold blocks_of in *. cbn [t_vars t_cliques t_edges]. rewrite concat_add. eapply heap_perm; [|exact H']. perm.
Qed.

Lemma run_on_variable : forall m vs cl w t rest v (f : memory -> option nat -> res memory), inv m vs cl (w_vars w) t rest -> rep w cl t ->
  exists_var w v = true ->
  (forall m f' a id card g, var a id card g -> heap_is m (g ++ f') -> exists m' g', f m (Some a) = Ok m' /\ var a id card g' /\ heap_is m' (g' ++ f')) ->
  goal w (let* a := rd vs v in let* m := f m (Some a) in Ok (m, vs, cl)) rest.
Proof.
  intros m vs cl w t rest v f INV R EV F. assert (HV := proj1 INV). unfold exists_var in EV.
  destruct (live_has vs (w_vars w) (t_vars t) v HV EV) as (_ & LV). rewrite (rd_nth _ vs v 0 LV). cbn [bind].
  assert (X := proj2 (proj2 HV) v LV). rewrite EV in X. destruct X as (card & X).
  destruct (F m _ _ _ _ _ X (take_var _ _ _ _ _ _ v INV LV)) as (m' & g' & E & V' & H').
  rewrite E. cbn [bind]. destruct (change_var m vs cl (w_vars w) t rest v g' INV LV m' (w_vars w)) as (t' & INV' & Q1 & Q2 & Q3 & Q4).
  - exact (proj1 HV).
  - reflexivity.
  - rewrite EV. exists card. exact V'.
  - exact H'.
  - exists m', vs, cl, t'. split; [reflexivity|]. split; [exact INV'|]. destruct R as (R1 & R2). split; [exact R1|]. intros k. rewrite Q1, Q2. apply R2.
Qed.

Lemma run_free_variable : forall m vs cl w t rest v, inv m vs cl (w_vars w) t rest -> rep w cl t -> exists_var w v = true ->
  goal (mkWorld (map (fun x => (snd x && negb (Nat.eqb (fst x) v))%bool) (combine (seq 0 (length (w_vars w))) (w_vars w))) (w_cliques w))
    (run_call (m, vs, cl) (FreeVariable v)) rest.
Proof.
  intros m vs cl w t rest v INV R EV. assert (HV := proj1 INV). unfold exists_var in EV. unfold run_call.
  destruct (live_has vs (w_vars w) (t_vars t) v HV EV) as (_ & LV). rewrite (rd_nth _ vs v 0 LV). cbn [bind].
  assert (X := proj2 (proj2 HV) v LV). rewrite EV in X. destruct X as (card & X).
  destruct (free_variable_ok m _ _ _ _ _ X (take_var _ _ _ _ _ _ v INV LV)) as (m' & E & H'). rewrite E. cbn [bind].
  set (live' := map (fun x => (snd x && negb (Nat.eqb (fst x) v))%bool) (combine (seq 0 (length (w_vars w))) (w_vars w))).
  assert (NL : forall j, nth j live' false = (nth j (w_vars w) false && negb (Nat.eqb j v))%bool).
  { intros j. unfold live'. rewrite !nth_default_eq || idtac.
    assert (Z : forall (l : list bool), nth j l false = match nth_error l j with Some x => x | None => false end).
    { clear. intros l. revert j. induction l as [|x l IH]; intros [|j]; cbn; auto. }
    rewrite !Z. rewrite nth_error_map, combine_seq_nth. destruct (nth_error (w_vars w) j); reflexivity. }
  destruct (change_var m vs cl (w_vars w) t rest v [] INV LV m' live') as (t' & INV' & Q1 & Q2 & Q3 & Q4).
  - unfold live'. rewrite map_length, combine_length, seq_length, Nat.min_id. exact (proj1 HV).
  - intros j D. rewrite NL. destruct (Nat.eqb_spec j v); [congruence|]. apply Bool.andb_true_r.
  - rewrite NL, Nat.eqb_refl, Bool.andb_false_r. reflexivity.
  - exact H'.
  - exists m', vs, cl, t'. split; [reflexivity|]. split; [exact INV'|]. destruct R as (R1 & R2). split; [exact R1|]. intros k. rewrite Q1, Q2. apply R2.
Qed.

Lemma live_members : forall vs live G members, vars_ok vs live G -> forallb (fun i => nth i live false) members = true ->
  Forall (has_var (concat G)) (map (fun i => nth i vs 0) members) /\ Forall (fun i => i < length vs) members /\
  map (nth_error vs) members = map Some (map (fun i => nth i vs 0) members).
Proof.
  intros vs live G members HV. induction members as [|i r IH]; intros HF; [cbn; auto|]. cbn in HF. apply Bool.andb_true_iff in HF. destruct HF as (HI & HF).
  destruct (IH HF) as (A & B & C). destruct (live_has vs live G i HV HI) as (D & L). split; [constructor; assumption|]. split; [constructor; assumption|].
  cbn [map]. rewrite C. rewrite (nth_error_nth' vs 0 L). reflexivity.
Qed.

Lemma at_none : forall k es cl ms, Forall (edge_ok cl ms) es -> nth k ms None = None -> at_ k es = [].
Proof.
  intros k es cl ms H HN. unfold at_. induction H as [|e es He H IH]; [reflexivity|]. cbn [filter].
  destruct He as (_ & (x & HA) & (y & HB) & _). unfold touches. destruct (Nat.eqb_spec (e_a e) k); [subst; congruence|].
  destruct (Nat.eqb_spec (e_b e) k); [subst; congruence|]. exact IH.
Qed.

Lemma run_new_clique : forall m vs cl w t rest members, inv m vs cl (w_vars w) t rest -> rep w cl t ->
  forallb (exists_var w) members = true ->
  goal (mkWorld (w_vars w) (w_cliques w ++ [Some (members, [])])) (run_call (m, vs, cl) (NewClique members)) rest.
Proof.
  intros m vs cl w t rest members INV (R1 & R2) HM. destruct INV as (HV & (K1 & K2 & K3 & HC) & HE & H). unfold run_call.
  destruct (live_members vs (w_vars w) (t_vars t) members HV HM) as (A & B & C). rewrite C.
  destruct (new_clique_ok m _ (map (fun i => nth i vs 0) members) H) as (m' & c & g & E & CL & H').
  { eapply Forall_impl; [|exact A]. intros v. apply has_var_incl. intros x Hx. apply in_or_app. left. unfold blocks_of. apply in_or_app. left. exact Hx. }
  rewrite E. cbn [bind address].
  assert (NO : at_ (length cl) (t_edges t) = []).
  { apply (at_none _ _ cl (t_members t) HE). apply nth_overflow. lia. }
  exists m', vs, (cl ++ [c]), (mkTree (t_vars t) (t_cliques t ++ [g]) (t_members t ++ [Some members]) (t_links t ++ [[]]) (t_edges t)).
  split; [reflexivity|]. cbn [w_vars]. split.
  - split; [exact HV|]. cbn [t_vars t_members t_edges t_links t_cliques]. split; [|split].
    + unfold cliques_ok. cbn [t_vars t_members t_edges t_links t_cliques]. rewrite !app_length. cbn [length]. split; [lia|]. split; [lia|]. split; [lia|].
      intros k Lk. destruct (Nat.eq_dec k (length cl)) as [D|D].
      * subst k. rewrite !nth_new by lia. split; [exact B|]. split; [exact CL|]. rewrite NO. reflexivity.
      * rewrite !app_nth1 by lia. apply HC. lia.
    + eapply Forall_impl; [|exact HE]. intros e (AB & (x & MA) & (y & MB) & SP). assert (LA := nth_some _ _ _ _ MA). assert (LB := nth_some _ _ _ _ MB).
      split; [exact AB|]. rewrite !app_nth1 by lia. split; [eauto|]. split; [eauto|exact SP].
    + unfold blocks_of in *. cbn [t_vars t_members t_edges t_links t_cliques]. rewrite concat_add. eapply heap_perm; [|exact H']. perm.
  - split; [cbn; rewrite !app_length; cbn; lia|]. cbn [t_members t_edges]. intros k. assert (X := R2 k). unfold clique_of in *. cbn [w_cliques].
    destruct (Nat.lt_trichotomy k (length cl)) as [L|[L|L]].
    + rewrite nth_error_app1 by lia. rewrite app_nth1 by lia. exact X.
    + subst k. rewrite nth_error_app2 by lia. rewrite R1, Nat.sub_diag. cbn. rewrite nth_new by lia.
      unfold neighbours. rewrite NO. reflexivity.
    + rewrite nth_error_app2 by lia. rewrite nth_overflow by (rewrite app_length; cbn; lia).
      destruct (k - length (w_cliques w)) as [|j] eqn:D; [lia|]. cbn. destruct j; reflexivity.
Qed.
