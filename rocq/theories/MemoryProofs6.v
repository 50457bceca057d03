(** * Proofs about memory: join trees *)
From Coq Require Import Permutation.
From Verif Require Import Base BaseProofs HeapProofs MemoryModel MemorySpec MemoryProofs MemoryProofs2 MemoryProofs3 MemoryProofs4 MemoryProofs5.
Import ListNotations.
Open Scope nat_scope.
Local Open Scope res_scope.

(** ** Pieces of memory *)
Lemma concat_pull : forall (G : list fp) k, k < length G -> Permutation (concat G) (nth k G [] ++ concat (set_nth G k [])).
Proof.
  induction G as [|g G IH]; intros k H; [cbn in H; lia|]. destruct k as [|k]; cbn [nth set_nth concat]; [apply Permutation_refl|].
  cbn in H. eapply perm_trans; [apply Permutation_app_head; apply (IH k); lia|]. rewrite !app_assoc. apply Permutation_app_tail, Permutation_app_comm.
Qed.
Lemma set_set : forall A (l : list A) k x y, set_nth (set_nth l k x) k y = set_nth l k y.
Proof. induction l as [|z l IH]; intros [|k] x y; cbn; try reflexivity. rewrite IH. reflexivity. Qed.
Lemma set_same : forall A (l : list A) k d, k < length l -> set_nth l k (nth k l d) = l.
Proof. induction l as [|z l IH]; intros [|k] d H; cbn in *; try lia; [reflexivity|]. rewrite IH by lia. reflexivity. Qed.
Lemma nth_set : forall A (l : list A) k j x d, k < length l -> nth j (set_nth l k x) d = if Nat.eqb j k then x else nth j l d.
Proof. induction l as [|z l IH]; intros [|k] [|j] x d H; cbn in *; try lia; try reflexivity. apply IH. lia. Qed.
Lemma concat_set : forall (G : list fp) k g, k < length G -> Permutation (g ++ concat (set_nth G k [])) (concat (set_nth G k g)).
Proof.
  intros G k g H. apply Permutation_sym. eapply perm_trans; [apply (concat_pull _ k); rewrite set_nth_length; exact H|].
  rewrite nth_set, Nat.eqb_refl, set_set by exact H. apply Permutation_refl.
Qed.
Lemma concat_add : forall (G : list fp) g, concat (G ++ [g]) = concat G ++ g.
Proof. intros. rewrite concat_app. cbn. rewrite app_nil_r. reflexivity. Qed.
Lemma concat_nil : forall (G : list fp), (forall k, nth k G [] = []) -> concat G = [].
Proof. induction G as [|g G IH]; intros H; [reflexivity|]. cbn. rewrite (H 0 : g = []). apply IH. intros k. exact (H (S k)). Qed.

Lemma NoDup_right : forall A (l r : list A), NoDup (l ++ r) -> NoDup r.
Proof. induction l as [|x l IH]; intros r H; [exact H|]. inversion H; subst. apply IH. assumption. Qed.
Lemma NoDup_left : forall A (l r : list A), NoDup (l ++ r) -> NoDup l.
Proof.
  induction l as [|x l IH]; intros r H; [constructor|]. inversion H as [|? ? N1 N2]; subst. constructor; [|exact (IH r N2)].
  intros I. apply N1. apply in_or_app. left. exact I.
Qed.

(** ** Join trees *)
Record edge := mkEdge { e_ptr : nat; e_a : nat; e_b : nat; e_fp : fp }.
Definition touches (k : nat) (e : edge) : bool := (Nat.eqb (e_a e) k || Nat.eqb (e_b e) k)%bool.
Definition other (k : nat) (e : edge) : nat := if Nat.eqb (e_a e) k then e_b e else e_a e.
Definition at_ (k : nat) (es : list edge) : list edge := filter (touches k) es.

Record tree := mkTree {
  t_vars : list fp;                       (** the memory of each variable *)
  t_cliques : list fp;                    (** the memory of each clique *)
  t_members : list (option (list nat));   (** the members of each clique that exists *)
  t_links : list (list (nat * nat));      (** its list of sepsets *)
  t_edges : list edge                     (** sepsets, newest first *)
}.
Definition blocks_of (t : tree) : fp := concat (t_vars t) ++ concat (t_cliques t) ++ flat_map e_fp (t_edges t).

Definition vars_ok (vs : list nat) (live : list bool) (G : list fp) : Prop :=
  length live = length vs /\ length G = length vs /\
  forall i, i < length vs -> if nth i live false then exists card, var (nth i vs 0) i card (nth i G []) else nth i G [] = [].
Definition edge_ok (cl : list nat) (ms : list (option (list nat))) (e : edge) : Prop :=
  e_a e <> e_b e /\ (exists x, nth (e_a e) ms None = Some x) /\ (exists x, nth (e_b e) ms None = Some x) /\
  sep (e_ptr e) (nth (e_a e) cl 0) (nth (e_b e) cl 0) (e_fp e).
Definition cliques_ok (vs cl : list nat) (t : tree) : Prop :=
  length (t_cliques t) = length cl /\ length (t_members t) = length cl /\ length (t_links t) = length cl /\
  forall k, k < length cl ->
    match nth k (t_members t) None with
    | Some mem => Forall (fun i => i < length vs) mem /\
        clq (nth k cl 0) (map (fun i => nth i vs 0) mem) (nth k (t_links t) []) (nth k (t_cliques t) []) /\
        map snd (nth k (t_links t) []) = map e_ptr (at_ k (t_edges t))
    | None => nth k (t_cliques t) [] = []
    end.
Definition inv (m : memory) (vs cl : list nat) (live : list bool) (t : tree) (rest : fp) : Prop :=
  vars_ok vs live (t_vars t) /\ cliques_ok vs cl t /\ Forall (edge_ok cl (t_members t)) (t_edges t) /\
  heap_is m (blocks_of t ++ rest).

Lemma nth_some : forall A (l : list (option A)) k x, nth k l None = Some x -> k < length l.
Proof. intros A l k x H. destruct (Nat.lt_ge_cases k (length l)) as [L|L]; [exact L|]. rewrite nth_overflow in H by exact L. discriminate. Qed.

Lemma edge_first : forall cl ms e, edge_ok cl ms e -> exists b g, e_fp e = (e_ptr e, b) :: g.
Proof. intros cl ms e (_ & _ & _ & old & new & vars & d & gp & gn & gv & E & _). rewrite E. eauto. Qed.

Lemma edges_distinct : forall cl ms es, Forall (edge_ok cl ms) es -> NoDup (map fst (flat_map e_fp es)) -> NoDup (map e_ptr es).
Proof.
  intros cl ms es HF. induction HF as [|e es He HF IH]; intros ND; [constructor|]. cbn in ND. rewrite map_app in ND.
  destruct (edge_first cl ms e He) as (b & g & E). rewrite E in ND. cbn in ND. inversion ND as [|? ? N1 N2]; subst. cbn. constructor.
  - intros I. apply N1. apply in_or_app. right. apply in_map_iff in I. destruct I as (e' & EQ & I). rewrite Forall_forall in HF.
    destruct (edge_first cl ms e' (HF e' I)) as (b' & g' & E'). apply in_map_iff. exists (e_ptr e', b'). split; [exact EQ|].
    apply in_flat_map. exists e'. split; [exact I|]. rewrite E'. left. reflexivity.
  - apply IH. apply NoDup_right in N2. exact N2.
Qed.
Lemma inv_distinct : forall m vs cl live t rest, inv m vs cl live t rest -> NoDup (map e_ptr (t_edges t)).
Proof.
  intros m vs cl live t rest (_ & _ & HE & (ND & _)). apply (edges_distinct cl (t_members t) _ HE).
  unfold blocks_of in ND. rewrite <- app_assoc, map_app in ND. apply NoDup_right in ND.
  rewrite <- app_assoc, map_app in ND. apply NoDup_right in ND. rewrite map_app in ND. apply NoDup_left in ND. exact ND.
Qed.

Lemma live_has : forall vs live G i, vars_ok vs live G -> nth i live false = true -> has_var (concat G) (nth i vs 0) /\ i < length vs.
Proof.
  intros vs live G i (L1 & L2 & H) HL. assert (LI : i < length vs).
  { rewrite <- L1. destruct (Nat.lt_ge_cases i (length live)) as [X|X]; [exact X|]. rewrite nth_overflow in HL by exact X. discriminate. }
  split; [|exact LI]. assert (X := H i LI). rewrite HL in X. destruct X as (card & X). eapply has_var_incl; [|exact (var_has _ _ _ _ X)].
  intros x Hx. apply in_concat. exists (nth i G []). split; [apply nth_In; lia|exact Hx].
Qed.

(** ** Changing one variable *)
Lemma change_var : forall m vs cl live t rest i g', inv m vs cl live t rest -> i < length vs ->
  forall m' live', length live' = length vs -> (forall j, j <> i -> nth j live' false = nth j live false) ->
  (if nth i live' false then exists card, var (nth i vs 0) i card g' else g' = []) ->
  heap_is m' (g' ++ (concat (set_nth (t_vars t) i []) ++ concat (t_cliques t) ++ flat_map e_fp (t_edges t)) ++ rest) ->
  exists t', inv m' vs cl live' t' rest /\ t_members t' = t_members t /\ t_edges t' = t_edges t /\ t_cliques t' = t_cliques t /\
    t_links t' = t_links t.
Proof.
  intros m vs cl live t rest i g' ((L1 & L2 & HV) & HC & HE & HH) LI m' live' LL SAME NEW H'.
  exists (mkTree (set_nth (t_vars t) i g') (t_cliques t) (t_members t) (t_links t) (t_edges t)). split; [|repeat split].
  split; [|split; [exact HC|split; [exact HE|]]].
  - split; [exact LL|]. cbn. split; [rewrite set_nth_length; exact L2|]. intros j Lj. rewrite nth_set by lia.
    destruct (Nat.eqb_spec j i) as [D|D]; [subst j; exact NEW|]. rewrite SAME by exact D. apply HV. exact Lj.
  - unfold blocks_of. cbn [t_vars t_cliques t_edges]. eapply heap_perm; [|exact H']. rewrite !app_assoc. apply Permutation_app_tail.
    apply Permutation_app_tail. apply Permutation_app_tail. apply concat_set. lia.
Qed.
Lemma take_var : forall m vs cl live t rest i, inv m vs cl live t rest -> i < length vs ->
  heap_is m (nth i (t_vars t) [] ++ (concat (set_nth (t_vars t) i []) ++ concat (t_cliques t) ++ flat_map e_fp (t_edges t)) ++ rest).
Proof.
  intros m vs cl live t rest i ((L1 & L2 & HV) & HC & HE & HH) LI. eapply heap_perm; [|exact HH]. unfold blocks_of.
  rewrite !app_assoc. apply Permutation_app_tail. apply Permutation_app_tail. apply Permutation_app_tail. apply concat_pull. lia.
Qed.

(** ** Removing a sepset from both its cliques *)
Definition drop_edge (s : nat) (es : list edge) : list edge := filter (fun e => negb (Nat.eqb (e_ptr e) s)) es.

Lemma split_edge : forall es e, In e es -> NoDup (map e_ptr es) ->
  exists es1 es2, es = es1 ++ e :: es2 /\ drop_edge (e_ptr e) es = es1 ++ es2 /\ ~ In (e_ptr e) (map e_ptr es1) /\ ~ In (e_ptr e) (map e_ptr es2).
Proof.
  intros es e I ND. apply in_split in I. destruct I as (es1 & es2 & E). exists es1, es2. split; [exact E|]. subst es.
  rewrite map_app in ND. cbn in ND. assert (N := NoDup_remove_2 _ _ _ ND).
  assert (N1 : ~ In (e_ptr e) (map e_ptr es1)) by (intros X; apply N; apply in_or_app; auto).
  assert (N2 : ~ In (e_ptr e) (map e_ptr es2)) by (intros X; apply N; apply in_or_app; auto).
  split; [|auto]. unfold drop_edge. rewrite filter_app. cbn [filter]. rewrite Nat.eqb_refl. cbn [negb].
  assert (F : forall l, ~ In (e_ptr e) (map e_ptr l) -> filter (fun e0 => negb (Nat.eqb (e_ptr e0) (e_ptr e))) l = l).
  { induction l as [|x l IH]; intros NX; [reflexivity|]. cbn in NX |- *. destruct (Nat.eqb_spec (e_ptr x) (e_ptr e)); [tauto|].
    cbn. rewrite IH by tauto. reflexivity. }
  rewrite (F es1 N1), (F es2 N2). reflexivity.
Qed.

(** The list of one clique without the link to [s]. *)
Lemma unlink : forall m f c mem ls g es e k, clq c mem ls g -> map snd ls = map e_ptr (at_ k es) -> In e es -> touches k e = true ->
  NoDup (map e_ptr es) -> heap_is m (g ++ f) ->
  exists m' ls' g', remove_sepset m (Some c) (Some (e_ptr e)) = Ok m' /\ clq c mem ls' g' /\
    map snd ls' = map e_ptr (at_ k (drop_edge (e_ptr e) es)) /\ heap_is m' (g' ++ f) /\
    (forall l e0 r, ls = (l, e_ptr e) :: r -> at_ k es = e :: e0 -> ls' = r).
Proof.
  intros m f c mem ls g es e k C EL I T ND H. destruct (split_edge es e I ND) as (es1 & es2 & E & ED & N1 & N2).
  rewrite ED. subst es. unfold at_ in *. rewrite filter_app in *. cbn [filter] in *. rewrite T in *. rewrite map_app in *. cbn [map] in EL.
  assert (S : exists mid l post, ls = mid ++ (l, e_ptr e) :: post /\ map snd mid = map e_ptr (filter (touches k) es1) /\
                map snd post = map e_ptr (filter (touches k) es2)).
  { revert EL. generalize (map e_ptr (filter (touches k) es1)) as x. intros x. clear. revert ls. induction x as [|y x IH]; intros ls EL.
    - destruct ls as [|(l, s) ls]; [discriminate|]. cbn in EL. injection EL as E1 E2. subst s. exists [], l, ls. auto.
    - destruct ls as [|(l, s) ls]; [discriminate|]. cbn in EL. injection EL as E1 E2. destruct (IH ls E2) as (mid & l' & post & A & B & D).
      exists ((l, s) :: mid), l', post. rewrite A. cbn. rewrite B, E1. auto. }
  destruct S as (mid & l & post & -> & EM & EPo).
  assert (NM : ~ In (e_ptr e) (map snd mid)).
  { rewrite EM. intros X. apply N1. apply in_map_iff in X. destruct X as (x & EX & X). apply filter_In in X. apply in_map_iff. exists x. tauto. }
  destruct (remove_sepset_ok m f c mem mid l (e_ptr e) post g C NM H) as (m' & g' & E & C' & H').
  exists m', (mid ++ post), g'. split; [exact E|]. split; [exact C'|]. split; [rewrite map_app, EM, EPo; reflexivity|]. split; [exact H'|].
  intros l0 e0 r EQ EA. destruct mid as [|(x, y) mid]; [cbn in EQ |- *; congruence|].
  cbn in EQ. injection EQ as EQ1 EQ2 EQ3. exfalso. apply NM. subst y. left. reflexivity.
Qed.
