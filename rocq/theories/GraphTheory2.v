(** * Elimination orders: graph theory used by GraphProofs

    Nothing here depends on the model. *)
From Coq Require Import Relations Permutation.
From Verif Require Import Base GraphTheory.
Import ListNotations.
Open Scope nat_scope.

Definition rel := nat -> nat -> Prop.
(** All members of [c] get joined. *)
Definition fill (A : rel) (c : list nat) : rel :=
  fun u w => A u w \/ (u <> w /\ In u c /\ In w c).

(** Elimination of [v], whose neighbours among the remaining variables [rem]
    are [l]. *)
Record step (A : rel) (rem : list nat) (v : nat) (l : list nat) (A' : rel) (rem' : list nat)
  : Prop := mkStep {
  st_in : In v rem;
  st_nodup : NoDup (v :: l);
  st_nbrs : forall u, In u l <-> In u rem /\ A v u;
  st_fill : forall u w, A' u w <-> fill A (v :: l) u w;
  st_rem : forall u, In u rem' <-> In u rem /\ u <> v
}.

Inductive run : rel -> list nat -> list (list nat) -> rel -> list nat -> Prop :=
| run_nil : forall A rem, run A rem [] A rem
| run_step : forall A rem v l A1 rem1 cs A2 rem2,
    step A rem v l A1 rem1 -> run A1 rem1 cs A2 rem2 ->
    run A rem ((v :: l) :: cs) A2 rem2.

Lemma run_snoc : forall A rem cs A1 rem1, run A rem cs A1 rem1 ->
  forall v l A2 rem2, step A1 rem1 v l A2 rem2 -> run A rem (cs ++ [v :: l]) A2 rem2.
Proof.
  induction 1 as [A rem|A rem v l A1 rem1 cs A2 rem2 S R IH]; intros v' l' A3 rem3 H.
  - cbn. econstructor; [exact H|]. constructor.
  - cbn. econstructor; [exact S|]. apply IH; auto.
Qed.

Lemma run_members : forall A rem cs Af rem2, run A rem cs Af rem2 ->
  forall c, In c cs -> incl c rem.
Proof.
  induction 1 as [A rem|A rem v l A1 rem1 cs A2 rem2 S R IH]; intros c HC; [destruct HC|].
  destruct HC as [<-|HC].
  - intros u [<-|Hu]; [apply (st_in _ _ _ _ _ _ S)|]. apply (st_nbrs _ _ _ _ _ _ S) in Hu. tauto.
  - intros u Hu. apply (IH c HC) in Hu. apply (st_rem _ _ _ _ _ _ S) in Hu. tauto.
Qed.

Lemma run_nodup : forall A rem cs Af rem2, run A rem cs Af rem2 ->
  forall c, In c cs -> NoDup c.
Proof.
  induction 1 as [A rem|A rem v l A1 rem1 cs A2 rem2 S R IH]; intros c HC; [destruct HC|].
  destruct HC as [<-|HC]; auto. apply (st_nodup _ _ _ _ _ _ S).
Qed.

Lemma run_grows : forall A rem cs Af rem2, run A rem cs Af rem2 ->
  forall u w, A u w -> Af u w.
Proof.
  induction 1 as [A rem|A rem v l A1 rem1 cs A2 rem2 S R IH]; intros u w H; auto.
  apply IH. apply (st_fill _ _ _ _ _ _ S). left; auto.
Qed.

Lemma run_complete : forall A rem cs Af rem2, run A rem cs Af rem2 ->
  forall c, In c cs -> forall u w, In u c -> In w c -> u <> w -> Af u w.
Proof.
  induction 1 as [A rem|A rem v l A1 rem1 cs A2 rem2 S R IH]; intros c HC; [destruct HC|].
  destruct HC as [<-|HC]; [|apply IH; auto].
  intros u w Hu Hw NE. eapply run_grows; [exact R|]. apply (st_fill _ _ _ _ _ _ S).
  right; auto.
Qed.

Lemma run_origin : forall A rem cs Af rem2, run A rem cs Af rem2 ->
  forall u w, Af u w -> A u w \/ exists c, In c cs /\ u <> w /\ In u c /\ In w c.
Proof.
  induction 1 as [A rem|A rem v l A1 rem1 cs A2 rem2 S R IH]; intros u w H; auto.
  destruct (IH u w H) as [Q|(c & HC & Q)].
  - apply (st_fill _ _ _ _ _ _ S) in Q. destruct Q as [Q|Q]; auto.
    right. exists (v :: l). split; [left; auto|auto].
  - right. exists c. split; [right; auto|auto].
Qed.

(** Every complete set ends up inside one cluster. *)
Lemma run_cover : forall A rem cs Af, run A rem cs Af [] ->
  forall S, S <> [] -> incl S rem -> (forall u w, In u S -> In w S -> u <> w -> A u w) ->
  exists i, i < length cs /\ incl S (nth i cs []).
Proof.
  intros A rem cs Af R. remember [] as e eqn:He. revert He.
  induction R as [A rem|A rem v l A1 rem1 cs A2 rem2 ST R IH]; intros He S NE HI HA.
  - subst. destruct S as [|x S]; [congruence|]. destruct (HI x (or_introl eq_refl)).
  - destruct (in_dec Nat.eq_dec v S) as [V|V].
    + exists 0. split; [cbn; lia|]. cbn. intros u Hu.
      destruct (Nat.eq_dec u v) as [->|N]; [left; auto|]. right.
      apply (st_nbrs _ _ _ _ _ _ ST). split; [auto|]. apply HA; auto.
    + destruct (IH He S NE) as (i & Hi & H).
      * intros u Hu. apply (st_rem _ _ _ _ _ _ ST). split; [auto|]. intros ->; auto.
      * intros u w Hu Hw N. apply (st_fill _ _ _ _ _ _ ST). left; auto.
      * exists (Datatypes.S i). split; [cbn; lia|exact H].
Qed.

Lemma run_old : forall A rem cs Af rem2, run A rem cs Af rem2 ->
  forall v w, ~ In v rem -> Af v w -> A v w.
Proof.
  intros A rem cs Af rem2 R v w Hv H. destruct (run_origin _ _ _ _ _ R v w H) as [Q|(c & HC & _ & Q & _)]; auto.
  exfalso; apply Hv. apply (run_members _ _ _ _ _ R c HC); auto.
Qed.

(** ... even the sets that are complete only after the filling. *)
Lemma run_cover_filled : forall A rem cs Af, run A rem cs Af [] ->
  forall S, S <> [] -> incl S rem -> (forall u w, In u S -> In w S -> u <> w -> Af u w) ->
  exists i, i < length cs /\ incl S (nth i cs []).
Proof.
  intros A rem cs Af R. remember [] as e eqn:He. revert He.
  induction R as [A rem|A rem v l A1 rem1 cs A2 rem2 ST R IH]; intros He S NE HI HA.
  - subst. destruct S as [|x S]; [congruence|]. destruct (HI x (or_introl eq_refl)).
  - destruct (in_dec Nat.eq_dec v S) as [V|V].
    + exists 0. split; [cbn; lia|]. cbn. intros u Hu.
      destruct (Nat.eq_dec u v) as [->|N]; [left; auto|]. right.
      assert (Q : A2 v u) by (apply HA; auto).
      apply (run_old _ _ _ _ _ R) in Q.
      * apply (st_fill _ _ _ _ _ _ ST) in Q. destruct Q as [Q|(_ & _ & Q)].
        -- apply (st_nbrs _ _ _ _ _ _ ST). split; auto.
        -- destruct Q; [congruence|auto].
      * intros Q2. apply (st_rem _ _ _ _ _ _ ST) in Q2. tauto.
    + destruct (IH He S NE) as (i & Hi & H); auto.
      * intros u Hu. apply (st_rem _ _ _ _ _ _ ST). split; [auto|]. intros ->; auto.
      * exists (Datatypes.S i). split; [cbn; lia|exact H].
Qed.

Lemma run_heads : forall A rem cs Af, run A rem cs Af [] ->
  forall u, In u rem -> exists t, t < length cs /\ u = hd 0 (nth t cs []).
Proof.
  intros A rem cs Af R. remember [] as e eqn:He. revert He.
  induction R as [A rem|A rem v l A1 rem1 cs A2 rem2 ST R IH]; intros He u Hu.
  - subst. destruct Hu.
  - destruct (Nat.eq_dec u v) as [->|N].
    + exists 0. cbn. split; [lia|auto].
    + destruct (IH He u) as (t & Ht & E); [apply (st_rem _ _ _ _ _ _ ST); auto|].
      exists (S t). cbn. split; [lia|auto].
Qed.

Lemma run_head_in : forall A rem cs Af rem2, run A rem cs Af rem2 ->
  forall i, i < length cs -> In (hd 0 (nth i cs [])) (nth i cs []).
Proof.
  induction 1 as [A rem|A rem v l A1 rem1 cs A2 rem2 S R IH]; intros i Hi; cbn in Hi; [lia|].
  destruct i as [|i]; cbn; [left; auto|]. apply IH; lia.
Qed.

(** An eliminated variable does not come back. *)
Lemma run_gone : forall A rem cs Af rem2, run A rem cs Af rem2 ->
  forall i j, i < j -> j < length cs -> ~ In (hd 0 (nth i cs [])) (nth j cs []).
Proof.
  induction 1 as [A rem|A rem v l A1 rem1 cs A2 rem2 S R IH]; intros i j Hij Hj; cbn in Hj; [lia|].
  destruct j as [|j]; [lia|]. destruct i as [|i]; cbn.
  - intros H. apply (run_members _ _ _ _ _ R) in H; [|apply nth_In; lia].
    apply (st_rem _ _ _ _ _ _ S) in H. tauto.
  - apply IH; lia.
Qed.

Lemma run_head_later : forall A rem cs Af, run A rem cs Af [] ->
  forall i u, i < length cs -> In u (nth i cs []) ->
  exists t, i <= t < length cs /\ u = hd 0 (nth t cs []).
Proof.
  intros A rem cs Af R i u Hi Hu.
  destruct (run_heads _ _ _ _ R u) as (t & Ht & E).
  - apply (run_members _ _ _ _ _ R (nth i cs [])); auto. apply nth_In; auto.
  - exists t. split; auto. destruct (Nat.lt_ge_cases t i); [|lia].
    exfalso. apply (run_gone _ _ _ _ _ R t i); auto. now rewrite <- E.
Qed.

(** The rest of a cluster is contained in a later one. *)
Lemma run_next : forall A rem cs Af, run A rem cs Af [] ->
  forall i, S i < length cs -> exists p, i < p < length cs /\
    forall u, In u (nth i cs []) -> u <> hd 0 (nth i cs []) -> In u (nth p cs []).
Proof.
  intros A rem cs Af R. remember [] as e eqn:He. revert He.
  induction R as [A rem|A rem v l A1 rem1 cs A2 rem2 ST R IH]; intros He i Hi; cbn in Hi; [lia|].
  destruct i as [|i].
  - destruct l as [|x l].
    + exists 1. cbn [length nth]. split; [lia|]. intros u [<-|[]] N. cbn in N. congruence.
    + subst rem2. destruct (run_cover _ _ _ _ R (x :: l)) as (p & Hp & H).
      * discriminate.
      * intros u Hu. apply (st_rem _ _ _ _ _ _ ST). split.
        -- apply (st_nbrs _ _ _ _ _ _ ST); auto.
        -- intros ->. assert (ND := st_nodup _ _ _ _ _ _ ST). inversion ND; contradiction.
      * intros u w Hu Hw N. apply (st_fill _ _ _ _ _ _ ST). right. split; auto.
        split; right; auto.
      * exists (S p). cbn [length]. split; [lia|]. intros u [<-|Hu] N; [cbn in N; congruence|].
        cbn. auto.
  - destruct (IH He i ltac:(lia)) as (p & Hp & H). exists (S p). cbn [length]. split; [lia|]. exact H.
Qed.

Lemma finite_choice : forall (P : nat -> nat -> Prop) n,
  (forall i, i < n -> exists x, P i x) -> exists f : nat -> nat, forall i, i < n -> P i (f i).
Proof.
  intros P. induction n as [|n IH]; intros H.
  - exists (fun _ => 0). intros; lia.
  - destruct IH as (f & Hf); [intros; apply H; lia|].
    destruct (H n ltac:(lia)) as (x & Hx).
    exists (fun i => if Nat.eqb i n then x else f i). intros i Hi.
    destruct (Nat.eqb_spec i n) as [->|N]; auto. apply Hf; lia.
Qed.

Lemma run_junction : forall A rem cs Af, run A rem cs Af [] -> cs <> [] ->
  exists T, junction (length cs) (fun i => nth i cs []) T.
Proof.
  intros A rem cs Af R NE.
  destruct (finite_choice (fun i p => i < p < length cs /\
    forall u, In u (nth i cs []) -> u <> hd 0 (nth i cs []) -> In u (nth p cs []))
    (length cs - 1)) as (p & Hp).
  { intros i Hi. apply (run_next _ _ _ _ R); lia. }
  eexists. apply elimination_junction with (e := fun i => hd 0 (nth i cs [])) (p := p).
  - destruct cs; [congruence|cbn; lia].
  - intros i Hi. apply Hp; lia.
  - intros i v Hi. apply Hp; lia.
  - intros i v Hi Hv. apply (run_head_later _ _ _ _ R); auto.
  - intros i j Hi Hj E. destruct (Nat.lt_trichotomy i j) as [L|[L|L]]; auto; exfalso.
    + apply (run_gone _ _ _ _ _ R i j); auto. rewrite E. apply (run_head_in _ _ _ _ _ R); auto.
    + apply (run_gone _ _ _ _ _ R j i); auto. rewrite <- E. apply (run_head_in _ _ _ _ _ R); auto.
  - intros i Hi. apply (run_head_in _ _ _ _ _ R); auto.
Qed.

(** Which clusters are kept: those not contained in a kept earlier one. *)
Inductive keeps (K : nat -> list nat) : nat -> list nat -> Prop :=
| keeps_0 : keeps K 0 []
| keeps_drop : forall t kl a, keeps K t kl -> In a kl -> incl (K t) (K a) -> keeps K (S t) kl
| keeps_keep : forall t kl, keeps K t kl -> (forall a, In a kl -> ~ incl (K t) (K a)) ->
    keeps K (S t) (kl ++ [t]).

Lemma keeps_lt : forall K t kl, keeps K t kl -> forall a, In a kl -> a < t.
Proof.
  induction 1 as [|t kl a H IH|t kl H IH]; intros b Hb; [destruct Hb|..].
  - apply IH in Hb. lia.
  - apply in_app_or in Hb. destruct Hb as [Hb|[<-|[]]]; [|lia]. apply IH in Hb; lia.
Qed.

Lemma keeps_rep : forall K t kl, keeps K t kl -> forall x, x < t ->
  exists i, i < length kl /\ incl (K x) (K (nth i kl 0)).
Proof.
  induction 1 as [|t kl a H IH I1 I2|t kl H IH I1]; intros x Hx; [lia|..].
  - destruct (Nat.eq_dec x t) as [->|N]; [|apply IH; lia].
    apply (In_nth _ _ 0) in I1. destruct I1 as (i & Hi & <-). exists i; auto.
  - destruct (Nat.eq_dec x t) as [->|N].
    + exists (length kl). rewrite app_length; cbn. split; [lia|]. rewrite app_nth2, Nat.sub_diag by lia.
      apply incl_refl.
    + destruct (IH x ltac:(lia)) as (i & Hi & HI). exists i. rewrite app_length; cbn. split; [lia|].
      rewrite app_nth1 by lia. auto.
Qed.

Lemma keeps_order : forall K t kl, keeps K t kl -> forall i j, i < j < length kl ->
  nth i kl 0 < nth j kl 0 /\ ~ incl (K (nth j kl 0)) (K (nth i kl 0)).
Proof.
  induction 1 as [|t kl a H IH I1 I2|t kl H IH I1]; intros i j Hij; [cbn in Hij; lia|auto|].
  rewrite app_length in Hij; cbn in Hij.
  destruct (Nat.eq_dec j (length kl)) as [->|N].
  - rewrite app_nth1, app_nth2, Nat.sub_diag by lia. cbn.
    assert (Q : In (nth i kl 0) kl) by (apply nth_In; lia). split.
    + eapply keeps_lt; eauto.
    + apply I1; auto.
  - rewrite !app_nth1 by lia. apply IH; lia.
Qed.

Section Kept.
Variables (A : rel) (rem : list nat) (cs : list (list nat)) (Af : rel) (kl : list nat).
Hypothesis R : run A rem cs Af [].
Let K := fun i => nth i cs [].
Hypothesis KL : keeps K (length cs) kl.

Lemma kept_maximal : forall i j, i < length kl -> j < length kl ->
  incl (K (nth i kl 0)) (K (nth j kl 0)) -> i = j.
Proof.
  intros i j Hi Hj HI. destruct (Nat.lt_trichotomy i j) as [L|[L|L]]; auto; exfalso.
  - destruct (keeps_order _ _ _ KL i j) as [O _]; [lia|].
    apply (run_gone _ _ _ _ _ R (nth i kl 0) (nth j kl 0)); auto.
    + apply (keeps_lt _ _ _ KL). apply nth_In; auto.
    + apply HI. apply (run_head_in _ _ _ _ _ R). apply (keeps_lt _ _ _ KL). apply nth_In; auto.
  - destruct (keeps_order _ _ _ KL j i) as [_ O]; [lia|]. contradiction.
Qed.

Lemma kept_rip : rem <> [] -> forall E,
  greedy K (length kl) (fun i => nth i kl 0) E -> length E = length kl - 1 ->
  forall v i j, i < length kl -> j < length kl ->
    In v (K (nth i kl 0)) -> In v (K (nth j kl 0)) ->
    conn (filter (fun e => mem K v (nth (fst e) kl 0) && mem K v (nth (snd e) kl 0))%bool E) i j.
Proof.
  intros NE E G LE.
  destruct (finite_choice (fun x i => i < length kl /\ incl (K x) (K (nth i kl 0))) (length cs))
    as (rho & Hrho); [apply (keeps_rep _ _ _ KL)|].
  assert (kap_lt : forall i, i < length kl -> nth i kl 0 < length cs).
  { intros i Hi. apply (keeps_lt _ _ _ KL), nth_In; auto. }
  assert (NC : cs <> []).
  { intros ->. inversion R; subst. congruence. }
  apply (greedy_running_intersection (length cs) K (length kl) (fun i => nth i kl 0) rho); auto.
  - destruct cs; [congruence|cbn; lia].
  - intros x Hx. apply Hrho; auto.
  - intros i Hi. symmetry. apply kept_maximal; auto; [apply Hrho; auto|]. apply Hrho; auto.
  - intros x v Hx. apply Hrho; auto.
  - intros x Hx. apply (run_nodup _ _ _ _ _ R). apply nth_In; auto.
  - apply (run_junction _ _ _ _ R NC).
Qed.

End Kept.
