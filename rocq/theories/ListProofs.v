(** * Proofs about the linked lists *)
From Verif Require Import Base BaseProofs ListModel ListSpec.
Import ListNotations.
Open Scope nat_scope.
Local Open Scope res_scope.

Section P.
Context {A : Type}.
Implicit Types m : memory A.

Lemma nth_error_set_nth : forall B (l : list B) i v j, i < length l ->
  nth_error (set_nth l i v) j = if Nat.eqb j i then Some v else nth_error l j.
Proof.
  induction l as [|h t IH]; intros [|i] v [|j] H; cbn in *; try lia; try reflexivity.
  apply IH. lia.
Qed.

Lemma nth_error_end : forall B (l : list B) x, nth_error (l ++ [x]) (length l) = Some x.
Proof. intros. rewrite nth_error_app2, Nat.sub_diag by lia. reflexivity. Qed.

Definition pred_at (ps : list nat) (i : nat) : option nat :=
  match i with 0 => None | S i' => nth_error ps i' end.

(** The links at the addresses [ps] are a doubly linked list of [xs]. *)
Definition seg m (ps : list nat) (xs : list A) : Prop :=
  length ps = length xs /\ NoDup ps /\
  forall i p x, nth_error ps i = Some p -> nth_error xs i = Some x ->
    nth_error m p = Some (Some (mkLink x (nth_error ps (S i)) (pred_at ps i))).

Definition rep m (l : header) (ps : list nat) (xs : list A) : Prop :=
  seg m ps xs /\ h_length l = length xs /\ h_first l = nth_error ps 0 /\
  h_last l = pred_at ps (length ps).

Lemma seg_in : forall m ps xs p, seg m ps xs -> In p ps ->
  exists l, nth_error m p = Some (Some l) /\ p < length m.
Proof.
  intros m ps xs p (H1 & _ & H2) I. apply In_nth_error in I. destruct I as [i E].
  assert (L : i < length ps) by (apply nth_error_Some; rewrite E; discriminate).
  destruct (nth_error xs i) as [x|] eqn:EX; [|apply nth_error_None in EX; lia].
  specialize (H2 i p x E EX). eexists. split; [exact H2|]. apply nth_error_Some. rewrite H2. discriminate.
Qed.

Lemma seg_frame : forall m m' ps xs, seg m ps xs ->
  (forall p, In p ps -> nth_error m' p = nth_error m p) -> seg m' ps xs.
Proof.
  intros m m' ps xs (H1 & H2 & H3) F. split; [exact H1|]. split; [exact H2|].
  intros i p x E1 E2. rewrite F; [apply H3; assumption|]. eapply nth_error_In. exact E1.
Qed.

Lemma nth_error_inj : forall (ps : list nat) i j p, NoDup ps ->
  nth_error ps i = Some p -> nth_error ps j = Some p -> i = j.
Proof.
  intros ps i j p ND E1 E2. apply (proj1 (NoDup_nth_error ps) ND).
  - apply nth_error_Some. rewrite E1. discriminate.
  - rewrite E1, E2. reflexivity.
Qed.

Lemma seg_last : forall m ps xs, seg m ps xs -> ps <> [] ->
  exists p0 pl x, nth_error ps 0 = Some p0 /\ length ps = S (length ps - 1) /\
    pred_at ps (length ps) = Some pl /\ nth_error ps (length ps - 1) = Some pl /\
    nth_error xs (length ps - 1) = Some x /\
    nth_error m pl = Some (Some (mkLink x None (pred_at ps (length ps - 1)))).
Proof.
  intros m ps xs (H1 & H2 & H3) NE.
  assert (L : length ps = S (length ps - 1)) by (destruct ps; [congruence|cbn; lia]).
  destruct (nth_error ps 0) as [p0|] eqn:E0; [|apply nth_error_None in E0; lia].
  destruct (nth_error ps (length ps - 1)) as [pl|] eqn:E1; [|apply nth_error_None in E1; lia].
  destruct (nth_error xs (length ps - 1)) as [x|] eqn:E2; [|apply nth_error_None in E2; lia].
  exists p0, pl, x. repeat split; auto.
  - rewrite L. exact E1.
  - rewrite (H3 _ _ _ E1 E2). rewrite <- L. rewrite (proj2 (nth_error_None ps (length ps))) by lia. reflexivity.
Qed.

Lemma append_ok : forall m l ps xs x, rep m l ps xs ->
  exists m' l', append m l x = Ok (m', l') /\ rep m' l' (ps ++ [length m]) (xs ++ [x]) /\
    length m' = S (length m) /\
    forall a, a < length m -> ~ In a ps -> nth_error m' a = nth_error m a.
Proof.
  intros m l ps xs x (HS & HL & HF & HT). pose proof HS as (H1 & H2 & H3).
  assert (NEW : ~ In (length m) ps).
  { intros I. destruct (seg_in m ps xs _ HS I) as (c & _ & L). lia. }
  assert (ND : NoDup (ps ++ [length m])).
  { clear -H2 NEW. induction ps as [|a ps IH]; cbn.
    - constructor; [intros []|constructor].
    - inversion H2; subst. constructor.
      + rewrite in_app_iff. intros [I|[I|[]]]; [contradiction|]. apply NEW. left. congruence.
      + apply IH; [assumption|]. intros I. apply NEW. right. exact I. }
  unfold append, alloc. rewrite HF, HT.
  destruct (list_eq_dec Nat.eq_dec ps []) as [EP|NE].
  - rewrite EP in *. cbn [nth_error length pred_at]. cbn [bind]. destruct xs; [|discriminate H1].
    eexists. eexists. split; [reflexivity|]. split; [|split].
    + split; [|cbn; rewrite HL; auto]. split; [reflexivity|]. split; [exact ND|].
      intros [|i] p y E1 E2; cbn in *; [|destruct i; discriminate E1].
      injection E1 as <-. injection E2 as <-. rewrite nth_error_app2, Nat.sub_diag by lia. reflexivity.
    + rewrite app_length. cbn. lia.
    + intros a La _. rewrite nth_error_app1 by exact La. reflexivity.
  - destruct (seg_last m ps xs HS NE) as (p0 & pl & xl & E0 & EL & EP & E1 & E2 & E3).
    assert (LP : pl < length m) by (apply nth_error_Some; rewrite E3; discriminate).
    rewrite E0, EP. unfold store_fwd, load. rewrite nth_error_app1 by exact LP. rewrite E3.
    cbn [bind l_data l_bwd].
    eexists. eexists. split; [reflexivity|]. split; [|split].
    + split; [|cbn [h_length h_first h_last]; rewrite !app_length, HL; cbn [length]].
      * split; [rewrite !app_length; cbn; lia|]. split; [exact ND|].
        intros i p y Ei Ey.
        assert (Li : i < length (ps ++ [length m])) by (apply nth_error_Some; rewrite Ei; discriminate).
        rewrite app_length in Li. cbn in Li.
        rewrite nth_error_set_nth by (rewrite app_length; cbn; lia).
        destruct (Nat.eq_dec i (length ps)) as [->|Ni].
        -- rewrite nth_error_app2, Nat.sub_diag in Ei by lia. cbn in Ei. injection Ei as <-.
           rewrite nth_error_app2 in Ey by lia. replace (length ps - length xs) with 0 in Ey by lia.
           cbn in Ey. injection Ey as <-.
           destruct (Nat.eqb_spec (length m) pl); [lia|].
           rewrite nth_error_end.
           rewrite (proj2 (nth_error_None (ps ++ [length m]) (S (length ps)))) by (rewrite app_length; cbn; lia).
           f_equal. f_equal. f_equal. rewrite EL. cbn [pred_at]. rewrite nth_error_app1 by lia. congruence.
        -- assert (Li2 : i < length ps) by lia.
           rewrite nth_error_app1 in Ei by lia. rewrite nth_error_app1 in Ey by lia.
           assert (PA : pred_at (ps ++ [length m]) i = pred_at ps i).
           { destruct i; [reflexivity|]. cbn. apply nth_error_app1. lia. }
           rewrite PA.
           destruct (Nat.eqb_spec p pl) as [->|Np].
           ++ assert (i = length ps - 1) by exact (nth_error_inj ps _ _ _ H2 Ei E1). subst i.
              rewrite <- EL. rewrite nth_error_end. congruence.
           ++ assert (Ni2 : i <> length ps - 1) by (intros ->; congruence).
              rewrite (nth_error_app1 ps) by lia.
              rewrite nth_error_app1; [exact (H3 i p y Ei Ey)|].
              destruct (seg_in m ps xs p HS) as (c & _ & LL); [eapply nth_error_In; exact Ei|exact LL].
      * split; [lia|]. split; [rewrite nth_error_app1 by lia; symmetry; exact E0|].
        rewrite Nat.add_1_r. cbn [pred_at]. rewrite nth_error_app2, Nat.sub_diag by lia. reflexivity.
    + rewrite set_nth_length, app_length. cbn. lia.
    + intros a La Na. rewrite nth_error_set_nth by (rewrite app_length; cbn; lia).
      destruct (Nat.eqb_spec a pl) as [->|]; [exfalso; apply Na; eapply nth_error_In; exact E1|].
      apply nth_error_app1. exact La.
Qed.

Lemma prepend_ok : forall m l ps xs x, rep m l ps xs ->
  exists m' l', prepend m l x = Ok (m', l') /\ rep m' l' (length m :: ps) (x :: xs) /\
    length m' = S (length m) /\
    forall a, a < length m -> ~ In a ps -> nth_error m' a = nth_error m a.
Proof.
  intros m l ps xs x (HS & HL & HF & HT). pose proof HS as (H1 & H2 & H3).
  assert (NEW : ~ In (length m) ps).
  { intros I. destruct (seg_in m ps xs _ HS I) as (c & _ & L). lia. }
  assert (ND : NoDup (length m :: ps)) by (constructor; assumption).
  unfold prepend, alloc. rewrite HF, HT.
  destruct (list_eq_dec Nat.eq_dec ps []) as [EP|NE].
  - rewrite EP in *. cbn [nth_error length pred_at]. cbn [bind]. destruct xs; [|discriminate H1].
    eexists. eexists. split; [reflexivity|]. split; [|split].
    + split; [|cbn; rewrite HL; auto]. split; [reflexivity|]. split; [exact ND|].
      intros [|i] p y E1 E2; cbn in *; [|destruct i; discriminate E1].
      injection E1 as <-. injection E2 as <-. rewrite nth_error_app2, Nat.sub_diag by lia. reflexivity.
    + rewrite app_length. cbn. lia.
    + intros a La _. rewrite nth_error_app1 by exact La. reflexivity.
  - destruct (seg_last m ps xs HS NE) as (p0 & pl & xl & E0 & EL & EP & E1 & E2 & E3).
    destruct (nth_error xs 0) as [x0|] eqn:EX; [|apply nth_error_None in EX; lia].
    pose proof (H3 0 p0 x0 E0 EX) as C0. cbn [pred_at] in C0.
    assert (LP : p0 < length m) by (apply nth_error_Some; rewrite C0; discriminate).
    rewrite E0, EP. unfold store_bwd, load. rewrite nth_error_app1 by exact LP. rewrite C0.
    cbn [bind l_data l_fwd].
    eexists. eexists. split; [reflexivity|]. split; [|split].
    + split; [|cbn [h_length h_first h_last length]; rewrite HL].
      * split; [cbn; lia|]. split; [exact ND|].
        intros i p y Ei Ey. rewrite nth_error_set_nth by (rewrite app_length; cbn; lia).
        destruct i as [|i]; cbn [nth_error] in Ei, Ey.
        -- injection Ei as <-. injection Ey as <-.
           destruct (Nat.eqb_spec (length m) p0); [lia|].
           rewrite nth_error_end. change (nth_error (length m :: ps) 1) with (nth_error ps 0). rewrite E0. reflexivity.
        -- destruct (Nat.eqb_spec p p0) as [->|Np].
           ++ assert (i = 0) by exact (nth_error_inj ps _ _ _ H2 Ei E0). subst i. change (nth_error (length m :: ps) 2) with (nth_error ps 1).
              cbn [pred_at]. change (nth_error (length m :: ps) 0) with (Some (length m)). congruence.
           ++ destruct i as [|i]; [congruence|].
              rewrite nth_error_app1; [apply (H3 (S i)); assumption|].
              destruct (seg_in m ps xs p HS) as (c & _ & LL); [eapply nth_error_In; exact Ei|exact LL].
      * split; [reflexivity|]. split; [reflexivity|]. cbn [pred_at]. rewrite EL. cbn [nth_error]. congruence.
    + rewrite set_nth_length, app_length. cbn. lia.
    + intros a La Na. rewrite nth_error_set_nth by (rewrite app_length; cbn; lia).
      destruct (Nat.eqb_spec a p0) as [->|]; [exfalso; apply Na; eapply nth_error_In; exact E0|].
      apply nth_error_app1. exact La.
Qed.

(** The memory in which the links [ps] are freed. *)
Definition freed_except m (n : nat) (ps : list nat) m' : Prop :=
  length m' = length m /\
  (forall i p, nth_error ps i = Some p -> nth_error m' p = if Nat.ltb i n then nth_error m p else Some None) /\
  (forall a, ~ In a ps -> nth_error m' a = nth_error m a).

Lemma release_ok : forall m m' ps xs n p, seg m ps xs -> freed_except m (S n) ps m' ->
  nth_error ps n = Some p ->
  exists m2, release m' (Some p) = Ok m2 /\ freed_except m n ps m2.
Proof.
  intros m m' ps xs n p HS (F1 & F2 & F3) E. pose proof HS as (H1 & H2 & H3).
  destruct (seg_in m ps xs p HS) as (c & EC & LC); [eapply nth_error_In; exact E|].
  unfold release. rewrite (F2 n p E). destruct (Nat.ltb_spec n (S n)); [|lia]. rewrite EC.
  eexists. split; [reflexivity|]. split; [rewrite set_nth_length; exact F1|]. split.
  - intros i p' E'. rewrite nth_error_set_nth by lia.
    destruct (Nat.eqb_spec p' p) as [->|NE].
    + assert (i = n) by exact (nth_error_inj ps _ _ _ H2 E' E). subst i.
      destruct (Nat.ltb_spec n n); [lia|reflexivity].
    + rewrite (F2 i p' E'). destruct (Nat.ltb_spec i (S n)), (Nat.ltb_spec i n); try lia; try reflexivity.
      assert (i = n) by lia. subst i. congruence.
  - intros a Na. rewrite nth_error_set_nth by lia.
    destruct (Nat.eqb_spec a p) as [->|]; [exfalso; apply Na; eapply nth_error_In; exact E|].
    apply F3. exact Na.
Qed.

Lemma load_ok : forall m m' ps xs n i p x, seg m ps xs -> freed_except m n ps m' -> i < n ->
  nth_error ps i = Some p -> nth_error xs i = Some x ->
  load m' (Some p) = Ok (mkLink x (nth_error ps (S i)) (pred_at ps i)).
Proof.
  intros m m' ps xs n i p x (H1 & H2 & H3) (F1 & F2 & F3) L E1 E2. unfold load.
  rewrite (F2 i p E1). destruct (Nat.ltb_spec i n); [|lia]. rewrite (H3 i p x E1 E2). reflexivity.
Qed.

Lemma empty_loop_ok : forall m ps xs, seg m ps xs -> forall n m' fuel, n <= length ps -> n < fuel ->
  freed_except m (S n) ps m' ->
  exists m2, empty_loop fuel m' (pred_at ps n) = Ok m2 /\ freed_except m 1 ps m2.
Proof.
  intros m ps xs HS. pose proof HS as (H1 & H2 & H3).
  induction n as [|n IH]; intros m' fuel Ln Lf HF; (destruct fuel as [|fuel]; [lia|]); cbn [empty_loop pred_at].
  - exists m'. split; [reflexivity|exact HF].
  - destruct (nth_error ps n) as [p|] eqn:E; [|apply nth_error_None in E; lia].
    destruct (nth_error xs n) as [x|] eqn:EX; [|apply nth_error_None in EX; lia].
    rewrite (load_ok m m' ps xs (S (S n)) n p x) by (try assumption; lia). cbn [bind l_fwd l_bwd].
    assert (R : exists m2, release m' (nth_error ps (S n)) = Ok m2 /\ freed_except m (S n) ps m2).
    { destruct (nth_error ps (S n)) as [p'|] eqn:E'.
      - eapply release_ok; eassumption.
      - exists m'. split; [reflexivity|]. destruct HF as (F1 & F2 & F3). split; [exact F1|]. split; [|exact F3].
        intros i p' Ei. rewrite (F2 i p' Ei). apply nth_error_None in E'.
        assert (i < length ps) by (apply nth_error_Some; rewrite Ei; discriminate).
        destruct (Nat.ltb_spec i (S (S n))), (Nat.ltb_spec i (S n)); try lia; reflexivity. }
    destruct R as (m2 & ER & HF2). rewrite ER. cbn [bind].
    rewrite (load_ok m m2 ps xs (S n) n p x) by (try assumption; lia). cbn [bind l_bwd].
    apply IH; [lia|lia|exact HF2].
Qed.

Lemma freed_all : forall m ps xs, seg m ps xs -> freed_except m (S (length ps)) ps m.
Proof.
  intros m ps xs (H1 & H2 & H3). split; [reflexivity|]. split; [|reflexivity].
  intros i p E. assert (i < length ps) by (apply nth_error_Some; rewrite E; discriminate).
  destruct (Nat.ltb_spec i (S (length ps))); [reflexivity|lia].
Qed.

Lemma seg_small : forall m ps xs, seg m ps xs -> length ps <= length m.
Proof.
  intros m ps xs HS. pose proof HS as (_ & ND & _).
  rewrite <- (seq_length (length m) 0). apply NoDup_incl_length; [exact ND|].
  intros p I. destruct (seg_in m ps xs p HS I) as (_ & _ & L). apply in_seq. lia.
Qed.

Lemma release_first : forall m m' ps xs, seg m ps xs -> freed_except m 1 ps m' ->
  exists m2, release m' (nth_error ps 0) = Ok m2 /\ freed_except m 0 ps m2.
Proof.
  intros m m' ps xs HS HF. destruct (nth_error ps 0) as [p|] eqn:E.
  - eapply release_ok; eassumption.
  - exists m'. split; [reflexivity|]. destruct HF as (F1 & F2 & F3). split; [exact F1|]. split; [|exact F3].
    intros i p Ei. apply nth_error_None in E.
    assert (i < length ps) by (apply nth_error_Some; rewrite Ei; discriminate). lia.
Qed.

Lemma empty_ok : forall m l ps xs, rep m l ps xs ->
  exists m' l', empty m l = Ok (m', l') /\ rep m' l' [] [] /\ freed_except m 0 ps m'.
Proof.
  intros m l ps xs (HS & HL & HF & HT). unfold empty. rewrite HT, HF.
  destruct (empty_loop_ok m ps xs HS (length ps) m (S (length m))) as (m2 & E2 & F2);
    [lia|pose proof (seg_small m ps xs HS); lia|exact (freed_all m ps xs HS)|].
  rewrite E2. cbn [bind].
  destruct (release_first m m2 ps xs HS F2) as (m3 & E3 & F3). rewrite E3. cbn [bind].
  eexists. eexists. split; [reflexivity|]. split; [|exact F3].
  split; [|auto]. split; [reflexivity|]. split; [constructor|]. intros [|i] p x E; discriminate E.
Qed.

Lemma free_loop_ok : forall m ps xs, seg m ps xs -> forall n m' fuel fr, n <= length ps -> n < fuel ->
  freed_except m (S n) ps m' -> fr = rev (skipn (S n) xs) ->
  exists m2, free_loop fuel m' (pred_at ps n) fr = Ok (m2, rev (skipn 1 xs)) /\ freed_except m 1 ps m2.
Proof.
  intros m ps xs HS. pose proof HS as (H1 & H2 & H3).
  induction n as [|n IH]; intros m' fuel fr Ln Lf HF HR; (destruct fuel as [|fuel]; [lia|]); cbn [free_loop pred_at].
  - exists m'. rewrite HR. split; [reflexivity|exact HF].
  - destruct (nth_error ps n) as [p|] eqn:E; [|apply nth_error_None in E; lia].
    destruct (nth_error xs n) as [x|] eqn:EX; [|apply nth_error_None in EX; lia].
    rewrite (load_ok m m' ps xs (S (S n)) n p x) by (try assumption; lia). cbn [bind l_fwd l_bwd].
    destruct (nth_error ps (S n)) as [p'|] eqn:E'.
    + destruct (nth_error xs (S n)) as [x'|] eqn:EX'.
      2:{ apply nth_error_None in EX'. assert (S n < length ps) by (apply nth_error_Some; rewrite E'; discriminate). lia. }
      rewrite (load_ok m m' ps xs (S (S n)) (S n) p' x') by (try assumption; lia). cbn [bind l_data].
      destruct (release_ok m m' ps xs (S n) p' HS HF E') as (m2 & ER & HF2). rewrite ER. cbn [bind].
      rewrite (load_ok m m2 ps xs (S n) n p x) by (try assumption; lia). cbn [bind l_bwd].
      apply IH; [lia|lia|exact HF2|].
      assert (SK : forall (l : list A) k y, nth_error l k = Some y -> skipn k l = y :: skipn (S k) l).
      { clear. induction l as [|a l IH]; intros [|k] y H; cbn in H; try discriminate H;
          [injection H as ->; reflexivity|]. cbn [skipn]. apply IH. exact H. }
      rewrite (SK xs (S n) x' EX'). cbn [rev]. rewrite HR. reflexivity.
    + apply nth_error_None in E'.
      assert (HF2 : freed_except m (S n) ps m').
      { destruct HF as (F1 & F2 & F3). split; [exact F1|]. split; [|exact F3].
        intros i p' Ei. rewrite (F2 i p' Ei).
        assert (i < length ps) by (apply nth_error_Some; rewrite Ei; discriminate).
        destruct (Nat.ltb_spec i (S (S n))), (Nat.ltb_spec i (S n)); try lia; reflexivity. }
      cbn [bind]. rewrite (load_ok m m' ps xs (S n) n p x) by (try assumption; lia). cbn [bind l_bwd].
      apply IH; [lia|lia|exact HF2|]. rewrite HR, !skipn_all2 by lia. reflexivity.
Qed.

Lemma free_list_ok : forall m l ps xs, rep m l ps xs ->
  exists m', free_list m l = Ok (m', rev xs) /\ freed_except m 0 ps m'.
Proof.
  intros m l ps xs (HS & HL & HF & HT). pose proof HS as (H1 & H2 & H3). unfold free_list. rewrite HT, HF.
  destruct (free_loop_ok m ps xs HS (length ps) m (S (length m)) []) as (m2 & E2 & F2);
    [lia|pose proof (seg_small m ps xs HS); lia|exact (freed_all m ps xs HS)|rewrite skipn_all2 by lia; reflexivity|].
  rewrite E2. cbn [bind].
  destruct (release_first m m2 ps xs HS F2) as (m3 & E3 & F3).
  destruct (nth_error ps 0) as [p|] eqn:E0.
  - destruct xs as [|x xs]; [destruct ps; [discriminate E0|discriminate H1]|].
    rewrite (load_ok m m2 ps (x :: xs) 1 0 p x) by (try assumption; try reflexivity; lia). cbn [bind l_data].
    rewrite E3. cbn [bind]. exists m3. split; [reflexivity|exact F3].
  - destruct ps as [|p0 ps]; [|discriminate E0]. destruct xs; [|discriminate H1].
    cbn [release] in E3. injection E3 as <-. exists m2. split; [reflexivity|exact F3].
Qed.

(** ** Reading *)
Lemma rep_forward : forall m ps xs, seg m ps xs -> forall k, k <= length ps ->
  forward m (nth_error ps k) (skipn k xs).
Proof.
  intros m ps xs (H1 & H2 & H3) k L. remember (length ps - k) as d eqn:ED. revert k L ED.
  induction d as [|d IH]; intros k L ED.
  - rewrite skipn_all2 by lia. rewrite (proj2 (nth_error_None ps k)) by lia. constructor.
  - destruct (nth_error ps k) as [p|] eqn:E; [|apply nth_error_None in E; lia].
    destruct (nth_error xs k) as [x|] eqn:EX; [|apply nth_error_None in EX; lia].
    assert (SK : skipn k xs = x :: skipn (S k) xs).
    { clear -EX. revert k EX. induction xs as [|a l IH]; intros [|k] H; cbn in H; try discriminate H;
        [injection H as ->; reflexivity|]. cbn [skipn]. apply IH. exact H. }
    rewrite SK. econstructor; [apply (H3 k p x E EX)|]. apply IH; lia.
Qed.

Lemma rep_backward : forall m ps xs, seg m ps xs -> forall k, k <= length ps ->
  backward m (pred_at ps k) (rev (firstn k xs)).
Proof.
  intros m ps xs (H1 & H2 & H3). induction k as [|k IH]; intros L; cbn [pred_at].
  - constructor.
  - destruct (nth_error ps k) as [p|] eqn:E; [|apply nth_error_None in E; lia].
    destruct (nth_error xs k) as [x|] eqn:EX; [|apply nth_error_None in EX; lia].
    assert (SK : firstn (S k) xs = firstn k xs ++ [x]).
    { clear -EX. revert k EX. induction xs as [|a l IH]; intros [|k] H; cbn in H; try discriminate H;
        [injection H as ->; reflexivity|]. cbn [firstn app]. f_equal. apply IH. exact H. }
    rewrite SK, rev_app_distr. cbn [rev app]. econstructor; [apply (H3 k p x E EX)|]. apply IH. lia.
Qed.

Lemma rep_holds : forall m l ps xs, rep m l ps xs -> holds_sequence m l xs.
Proof.
  intros m l ps xs (HS & HL & HF & HT). split; [exact HL|]. rewrite HF, HT. split.
  - apply (rep_forward m ps xs HS 0). lia.
  - pose proof (rep_backward m ps xs HS (length ps) (le_n _)) as B. destruct HS as (H1 & _).
    rewrite H1, firstn_all in B. rewrite H1. exact B.
Qed.

Lemma to_array_lemma : forall m l xs, holds_sequence m l xs ->
  to_array m l = Ok (match xs with [] => None | _ => Some xs end).
Proof.
  intros m l xs (H1 & H2 & _). unfold to_array. rewrite H1. destruct xs as [|x0 xs0] eqn:EX; [reflexivity|].
  rewrite <- EX in *. assert (N : length xs <> 0) by (rewrite EX; cbn; lia). clear EX.
  destruct (Nat.eqb_spec (length xs) 0); [lia|]. clear n N. unfold for_up. rewrite Nat.sub_0_r.
  assert (G : forall xs p a lo, forward m p xs ->
    loop_up (length xs) lo (fun _ '(ln, a) => let* c := load m ln in Ok (l_fwd c, a ++ [l_data c])) (p, a)
    = Ok (None, a ++ xs)).
  { clear. intros xs p a lo H. revert a lo. induction H as [|ad x f b xs E H IH]; intros a lo; cbn [length loop_up].
    - rewrite app_nil_r. reflexivity.
    - unfold load at 1. rewrite E. cbn [bind l_fwd l_data]. rewrite IH, <- app_assoc. reflexivity. }
  rewrite (G xs (h_first l) [] 0 H2). reflexivity.
Qed.

Lemma search_lemma : forall m l xs test, holds_sequence m l xs -> length xs <= length m ->
  search m l test = Ok (find test xs).
Proof.
  intros m l xs test (H1 & H2 & _) L. unfold search.
  assert (G : forall xs p fuel, forward m p xs -> length xs < fuel ->
    search_loop fuel m p test = Ok (find test xs)).
  { clear. intros xs p fuel H. revert fuel. induction H as [|ad x f b xs E H IH]; intros [|fuel] L;
      cbn [length] in L; try lia; cbn [search_loop find]; [reflexivity|].
    unfold load. rewrite E. cbn [bind l_fwd l_data]. destruct (test x); [reflexivity|]. apply IH. lia. }
  apply G; [exact H2|lia].
Qed.

(** ** Programs *)
(** The lists of the state, at disjoint addresses, and nothing else in memory. *)
Definition ok_at m (o : option header) (ps : list nat) (q : option (list A)) : Prop :=
  match o, q with
  | Some l, Some xs => rep m l ps xs
  | None, None => ps = []
  | _, _ => False
  end.

Definition inv (s : state A) (pss : list (list nat)) (ss : list (option (list A))) : Prop :=
  length (snd s) = length ss /\ length pss = length ss /\
  (forall k o ps q, nth_error (snd s) k = Some o -> nth_error pss k = Some ps -> nth_error ss k = Some q ->
     ok_at (fst s) o ps q) /\
  (forall k1 k2 p1 p2 a, nth_error pss k1 = Some p1 -> nth_error pss k2 = Some p2 ->
     In a p1 -> In a p2 -> k1 = k2) /\
  (forall a l, nth_error (fst s) a = Some (Some l) -> exists k ps, nth_error pss k = Some ps /\ In a ps).

Lemma ok_in : forall m o ps q a, ok_at m o ps q -> In a ps -> a < length m.
Proof.
  intros m [l|] ps [xs|] a H I; cbn in H; try contradiction.
  - destruct H as (HS & _). destruct (seg_in m ps xs a HS I) as (_ & _ & L). exact L.
  - subst. destruct I.
Qed.

Lemma ok_frame : forall m m' o ps q, ok_at m o ps q ->
  (forall a, In a ps -> nth_error m' a = nth_error m a) -> ok_at m' o ps q.
Proof.
  intros m m' [l|] ps [xs|] H F; cbn in *; try contradiction; [|exact H].
  destruct H as (HS & H). split; [eapply seg_frame; eassumption|exact H].
Qed.

(** Replacing one list. *)
Lemma inv_change : forall s pss ss k o ps q m' o' ps' q',
  inv s pss ss -> nth_error (snd s) k = Some o -> nth_error pss k = Some ps -> nth_error ss k = Some q ->
  ok_at m' o' ps' q' ->
  (forall a, In a ps' -> In a ps \/ length (fst s) <= a) ->
  (forall a, a < length (fst s) -> ~ In a ps -> nth_error m' a = nth_error (fst s) a) ->
  (forall a l, nth_error m' a = Some (Some l) -> In a ps \/ length (fst s) <= a -> In a ps') ->
  inv (m', set_nth (snd s) k o') (set_nth pss k ps') (set_nth ss k q').
Proof.
  intros s pss ss k o ps q m' o' ps' q' (I1 & I2 & I3 & I4 & I5) E1 E2 E3 OK NEW FR LV.
  assert (K1 : k < length (snd s)) by (apply nth_error_Some; rewrite E1; discriminate).
  assert (K2 : k < length pss) by lia. assert (K3 : k < length ss) by lia.
  split; [cbn; rewrite !set_nth_length; exact I1|]. split; [rewrite !set_nth_length; exact I2|].
  assert (DIS : forall j pj a, j <> k -> nth_error pss j = Some pj -> In a pj -> a < length (fst s) /\ ~ In a ps).
  { intros j pj a NJ EJ IA.
    assert (LJ : j < length pss) by (apply nth_error_Some; rewrite EJ; discriminate).
    destruct (nth_error (snd s) j) as [oj|] eqn:EO; [|apply nth_error_None in EO; lia].
    destruct (nth_error ss j) as [qj|] eqn:EQ; [|apply nth_error_None in EQ; lia].
    split; [eapply ok_in; [eapply I3; eassumption|exact IA]|].
    intros IB. apply NJ. eapply I4; eassumption. }
  split; [|split].
  - intros j oj pj qj. cbn [fst snd]. rewrite !nth_error_set_nth by assumption.
    destruct (Nat.eqb_spec j k) as [->|NJ].
    + intros Q1 Q2 Q3. injection Q1 as <-. injection Q2 as <-. injection Q3 as <-. exact OK.
    + intros Q1 Q2 Q3. eapply ok_frame; [eapply I3; eassumption|].
      intros a IA. destruct (DIS j pj a NJ Q2 IA). apply FR; assumption.
  - intros j1 j2 p1 p2 a. rewrite !nth_error_set_nth by assumption.
    destruct (Nat.eqb_spec j1 k) as [->|N1], (Nat.eqb_spec j2 k) as [->|N2]; intros Q1 Q2 IA IB.
    + reflexivity.
    + injection Q1 as <-. destruct (DIS j2 p2 a N2 Q2 IB) as [L NI]. destruct (NEW a IA); [contradiction|lia].
    + injection Q2 as <-. destruct (DIS j1 p1 a N1 Q1 IA) as [L NI]. destruct (NEW a IB); [contradiction|lia].
    + eapply I4; eassumption.
  - intros a l EA. cbn [fst] in EA.
    destruct (Nat.lt_ge_cases a (length (fst s))) as [L|L].
    + destruct (in_dec Nat.eq_dec a ps) as [IP|NP].
      * exists k, ps'. rewrite nth_error_set_nth by assumption. rewrite Nat.eqb_refl. split; [reflexivity|].
        eapply LV; [exact EA|left; exact IP].
      * rewrite FR in EA by assumption. destruct (I5 a l EA) as (j & pj & EJ & IJ).
        exists j, pj. rewrite nth_error_set_nth by assumption.
        destruct (Nat.eqb_spec j k) as [->|]; [rewrite E2 in EJ; injection EJ as <-; contradiction|].
        split; assumption.
    + exists k, ps'. rewrite nth_error_set_nth by assumption. rewrite Nat.eqb_refl. split; [reflexivity|].
      eapply LV; [exact EA|right; exact L].
Qed.

Lemma freed_gone : forall m ps m' a l, freed_except m 0 ps m' -> nth_error m' a = Some (Some l) ->
  In a ps \/ length m <= a -> False.
Proof.
  intros m ps m' a l (F1 & F2 & F3) E [I|I].
  - apply In_nth_error in I. destruct I as [i EI]. rewrite (F2 i a EI) in E. cbn in E. discriminate E.
  - assert (a < length m') by (apply nth_error_Some; rewrite E; discriminate). lia.
Qed.

Lemma step_ok : forall s pss ss c ss', inv s pss ss -> meaning ss c = Some ss' ->
  exists s' pss', step s c = Ok s' /\ inv s' pss' ss'.
Proof.
  intros s pss ss c ss' HI HM. pose proof HI as (I1 & I2 & I3 & I4 & I5).
  assert (GET : forall k f, change ss k f = Some ss' -> exists l ps xs,
    nth_error (snd s) k = Some (Some l) /\ nth_error pss k = Some ps /\ nth_error ss k = Some (Some xs) /\
    rep (fst s) l ps xs /\ ss' = set_nth ss k (f xs)).
  { intros k f HC. unfold change in HC. destruct (nth_error ss k) as [[xs|]|] eqn:E; try discriminate HC.
    injection HC as <-. assert (L : k < length ss) by (apply nth_error_Some; rewrite E; discriminate).
    destruct (nth_error (snd s) k) as [o|] eqn:EO; [|apply nth_error_None in EO; lia].
    destruct (nth_error pss k) as [ps|] eqn:EP; [|apply nth_error_None in EP; lia].
    pose proof (I3 k o ps (Some xs) EO EP E) as OK. destruct o as [l|]; cbn in OK; [|contradiction].
    exists l, ps, xs. auto. }
  destruct c as [|k x|k x|k|k]; cbn [meaning] in HM; cbn [step].
  - injection HM as <-. eexists. exists (pss ++ [[]]). split; [reflexivity|].
    split; [cbn; rewrite !app_length; cbn; lia|]. split; [rewrite !app_length; cbn; lia|].
    assert (EMP : forall k p, nth_error (pss ++ [[]]) k = Some p -> p = [] \/ (k < length pss /\ nth_error pss k = Some p)).
    { intros k p E. destruct (Nat.lt_ge_cases k (length pss)) as [L|L].
      - rewrite nth_error_app1 in E by exact L. right. split; assumption.
      - rewrite nth_error_app2 in E by exact L. destruct (k - length pss) as [|[|d]]; cbn in E; try discriminate E.
        injection E as <-. left. reflexivity. }
    split; [|split].
    + intros k o ps q Q1 Q2 Q3. cbn [fst snd] in *.
      destruct (Nat.lt_ge_cases k (length ss)) as [L|L].
      * rewrite nth_error_app1 in Q1, Q2, Q3 by lia. eapply I3; eassumption.
      * assert (k = length ss).
        { assert (k < length (ss ++ [Some []])) by (apply nth_error_Some; rewrite Q3; discriminate).
          rewrite app_length in H. cbn in H. lia. }
        subst k. rewrite nth_error_app2 in Q1, Q2, Q3 by lia.
        rewrite I1, Nat.sub_diag in Q1. rewrite I2, Nat.sub_diag in Q2. rewrite Nat.sub_diag in Q3.
        cbn in Q1, Q2, Q3. injection Q1 as <-. injection Q2 as <-. injection Q3 as <-.
        cbn. split; [|auto]. split; [reflexivity|]. split; [constructor|]. intros [|i] p x E; discriminate E.
    + intros k1 k2 p1 p2 a Q1 Q2 IA IB.
      destruct (EMP k1 p1 Q1) as [->|[L1 P1]]; [destruct IA|].
      destruct (EMP k2 p2 Q2) as [->|[L2 P2]]; [destruct IB|]. eapply I4; eassumption.
    + intros a l E. cbn [fst] in E. destruct (I5 a l E) as (k & ps & EK & IK). exists k, ps.
      split; [|exact IK]. rewrite nth_error_app1; [exact EK|]. apply nth_error_Some. rewrite EK. discriminate.
  - destruct (GET k _ HM) as (l & ps & xs & E1 & E2 & E3 & HR & ->).
    unfold get_list. rewrite E1. cbn [bind].
    destruct (append_ok (fst s) l ps xs x HR) as (m' & l' & EA & HR' & LM & FR). rewrite EA. cbn [bind].
    eexists. exists (set_nth pss k (ps ++ [length (fst s)])). split; [reflexivity|].
    eapply inv_change; [exact HI|exact E1|exact E2|exact E3|exact HR'| |exact FR|].
    + intros a IA. rewrite in_app_iff in IA. destruct IA as [IA|[<-|[]]]; [left; exact IA|right; lia].
    + intros a c EC [IA|LA]; rewrite in_app_iff; [left; exact IA|right]. left.
      assert (a < length m') by (apply nth_error_Some; rewrite EC; discriminate). lia.
  - destruct (GET k _ HM) as (l & ps & xs & E1 & E2 & E3 & HR & ->).
    unfold get_list. rewrite E1. cbn [bind].
    destruct (prepend_ok (fst s) l ps xs x HR) as (m' & l' & EA & HR' & LM & FR). rewrite EA. cbn [bind].
    eexists. exists (set_nth pss k (length (fst s) :: ps)). split; [reflexivity|].
    eapply inv_change; [exact HI|exact E1|exact E2|exact E3|exact HR'| |exact FR|].
    + intros a [<-|IA]; [right; lia|left; exact IA].
    + intros a c EC [IA|LA]; [right; exact IA|left].
      assert (a < length m') by (apply nth_error_Some; rewrite EC; discriminate). lia.
  - destruct (GET k _ HM) as (l & ps & xs & E1 & E2 & E3 & HR & ->).
    unfold get_list. rewrite E1. cbn [bind].
    destruct (empty_ok (fst s) l ps xs HR) as (m' & l' & EA & HR' & FX). rewrite EA. cbn [bind].
    eexists. exists (set_nth pss k []). split; [reflexivity|].
    eapply inv_change; [exact HI|exact E1|exact E2|exact E3|exact HR'| | |].
    + intros a [].
    + intros a _ NA. destruct FX as (_ & _ & F3). apply F3. exact NA.
    + intros a c EC X. exfalso. eapply freed_gone; eassumption.
  - destruct (GET k _ HM) as (l & ps & xs & E1 & E2 & E3 & HR & ->).
    unfold get_list. rewrite E1. cbn [bind].
    destruct (free_list_ok (fst s) l ps xs HR) as (m' & EA & FX). rewrite EA. cbn [bind].
    eexists. exists (set_nth pss k []). split; [reflexivity|].
    eapply inv_change; [exact HI|exact E1|exact E2|exact E3|reflexivity| | |].
    + intros a [].
    + intros a _ NA. destruct FX as (_ & _ & F3). apply F3. exact NA.
    + intros a c EC X. exfalso. eapply freed_gone; eassumption.
Qed.

Lemma run_calls_ok : forall cs s pss ss ss', inv s pss ss -> meanings ss cs = Some ss' ->
  exists s' pss', run_calls s cs = Ok s' /\ inv s' pss' ss'.
Proof.
  induction cs as [|c cs IH]; intros s pss ss ss' HI HM; cbn [meanings run_calls] in *.
  - injection HM as <-. exists s, pss. split; [reflexivity|exact HI].
  - destruct (meaning ss c) as [ss1|] eqn:E; [|discriminate HM].
    destruct (step_ok s pss ss c ss1 HI E) as (s1 & pss1 & E1 & HI1). rewrite E1. cbn [bind].
    eapply IH; eassumption.
Qed.

Lemma C51_lemma : forall (cs : list (call A)) ss, meanings [] cs = Some ss ->
  exists m ls, run_calls ([], []) cs = Ok (m, ls) /\ length ls = length ss /\
    (forall k, nth_error ss k = Some None -> nth_error ls k = Some None) /\
    (forall k xs, nth_error ss k = Some (Some xs) ->
      exists l, nth_error ls k = Some (Some l) /\ holds_sequence m l xs /\
        to_array m l = Ok (match xs with [] => None | _ => Some xs end) /\
        (forall test, search m l test = Ok (find test xs)) /\
        (exists m', free_list m l = Ok (m', rev xs))) /\
    ((forall k xs, nth_error ss k = Some (Some xs) -> xs = []) -> Forall (fun c => c = None) m).
Proof.
  intros cs ss HM.
  destruct (run_calls_ok cs ([], []) [] [] ss) as ([m ls] & pss & E & HI); [|exact HM|].
  { split; [reflexivity|]. split; [reflexivity|]. cbn. split; [intros [|k] ? ? ? Q; discriminate Q|].
    split; [intros [|k] ? ? ? ? Q; discriminate Q|intros [|a] ? Q; discriminate Q]. }
  pose proof HI as (I1 & I2 & I3 & I4 & I5). cbn [fst snd] in *.
  exists m, ls. split; [exact E|]. split; [exact I1|].
  assert (GET : forall k q, nth_error ss k = Some q -> exists o ps, nth_error ls k = Some o /\
    nth_error pss k = Some ps /\ ok_at m o ps q).
  { intros k q EQ. assert (L : k < length ss) by (apply nth_error_Some; rewrite EQ; discriminate).
    destruct (nth_error ls k) as [o|] eqn:EO; [|apply nth_error_None in EO; lia].
    destruct (nth_error pss k) as [ps|] eqn:EP; [|apply nth_error_None in EP; lia].
    exists o, ps. split; [reflexivity|]. split; [reflexivity|]. eapply I3; eassumption. }
  split; [|split].
  - intros k EK. destruct (GET k None EK) as (o & ps & EO & _ & OK). destruct o; [contradiction OK|]. exact EO.
  - intros k xs EK. destruct (GET k _ EK) as (o & ps & EO & _ & OK). destruct o as [l|]; [|contradiction OK].
    exists l. split; [exact EO|]. pose proof (rep_holds m l ps xs OK) as HH. split; [exact HH|].
    split; [apply to_array_lemma; exact HH|]. split.
    + intros test. apply search_lemma; [exact HH|]. destruct OK as (HS & _).
      pose proof (seg_small m ps xs HS). destruct HS as (H1 & _). lia.
    + destruct (free_list_ok m l ps xs OK) as (m' & EF & _). exists m'. exact EF.
  - intros HE. apply Forall_forall. intros [l|] IN; [|reflexivity]. exfalso.
    apply In_nth_error in IN. destruct IN as [a EA]. destruct (I5 a l EA) as (k & ps & EP & IP).
    assert (L : k < length ss) by (rewrite <- I2; apply nth_error_Some; rewrite EP; discriminate).
    destruct (nth_error ss k) as [q|] eqn:EQ; [|apply nth_error_None in EQ; lia].
    destruct (GET k q EQ) as (o & ps' & EO & EP' & OK). rewrite EP in EP'. injection EP' as <-.
    destruct o as [h|], q as [xs|]; cbn in OK; try contradiction; [|subst ps; destruct IP].
    rewrite (HE k xs EQ) in OK. destruct OK as ((H1 & _) & _). destruct ps; [destruct IP|discriminate H1].
Qed.
End P.
