(** * Proofs about data files, part 5: writing time series *)
From Coq Require Import String Ascii Permutation.
From Verif Require Import Base BaseProofs StringModel StringSpec StringProofs StringProofs2
  VariableModel VariableProofs NipModel NipSpec NipProofs3 SeriesFileModel SeriesFileSpec SeriesFileProofs SeriesFileProofs2
  SeriesFileProofs3 SeriesFileProofs4.
Import ListNotations.
Open Scope nat_scope.
Local Open Scope res_scope.
Local Notation len := List.length.

(** ** The union of the observed variables *)
Lemma new_in_nil : forall a, new_in [] a = a.
Proof. induction a as [|x a IH]; [reflexivity|]. cbn. f_equal. exact IH. Qed.

Lemma union_arrays : forall a b, NoDup a -> NoDup b ->
  variable_union (array_ref a) (array_ref b) (len a) (len b)
  = Ok (array_ref (a ++ new_in a b), Z.of_nat (len (a ++ new_in a b))).
Proof.
  intros a b Ha Hb. assert (E : variable_union (array_ref a) (array_ref b) (len a) (len b)
                             = variable_union (Some a) (Some b) (len a) (len b)).
  { destruct a as [|x a], b as [|y b]; reflexivity. }
  rewrite E. destruct (Nat.eq_dec (len a + len b) 0) as [Z|Z].
  - destruct a; [|cbn in Z; lia]. destruct b; [|cbn in Z; lia]. reflexivity.
  - rewrite union_ok by (auto; lia). f_equal. f_equal. destruct a as [|x a]; [|reflexivity].
    cbn [app]. rewrite new_in_nil. destruct b; [cbn in Z; lia|reflexivity].
Qed.

Definition joint (U : list nat) (ss : list series) : list nat :=
  fold_left (fun U ts => U ++ new_in U (s_observed ts)) ss U.

Lemma joint_ok : forall ss U, NoDup U -> Forall (fun ts => NoDup (s_observed ts)) ss ->
  NoDup (joint U ss) /\
  forall v, In v (joint U ss) <-> In v U \/ exists ts, In ts ss /\ In v (s_observed ts).
Proof.
  induction ss as [|ts ss IH]; intros U HU HS; cbn [joint fold_left].
  - split; [exact HU|]. intros v. split; [auto|]. intros [H|(ts & [] & _)]. exact H.
  - inversion HS as [|? ? HS1 HS2]; subst.
    destruct (IH (U ++ new_in U (s_observed ts))) as [A B]; [apply union_nodup; auto|exact HS2|].
    split; [exact A|]. intros v. rewrite (B v), (union_in U (s_observed ts) v). split.
    + intros [[H|H]|(t & H1 & H2)]; [auto| |]; right; [exists ts|exists t]; cbn [In]; auto.
    + intros [H|(t & [->|H1] & H2)]; [auto|auto|]. right. exists t. auto.
Qed.

Lemma observed_nodup : forall names ts, proper_series names ts ->
  NoDup (s_observed ts) /\ len (s_hidden ts) + len (s_observed ts) = len names /\
  forall v, In v (s_observed ts) -> v < len names.
Proof.
  intros names ts (HP & _). split; [|split].
  - assert (X : NoDup (s_hidden ts ++ s_observed ts)).
    { apply (Permutation_NoDup (Permutation_sym HP)), seq_NoDup. }
    clear HP. induction (s_hidden ts) as [|h l IH]; [exact X|]. cbn in X. inversion X; subst. auto.
  - rewrite <- app_length, (Permutation_length HP). apply seq_length.
  - intros v Hv. assert (X : In v (seq 0 (len names))).
    { apply (Permutation_in _ HP), in_or_app. auto. }
    apply in_seq in X. lia.
Qed.

Lemma observed_union_ok : forall names ss U, NoDup U -> Forall (proper_series names) ss ->
  observed_union (len names) ss (array_ref U) (Z.of_nat (len U))
  = Ok (array_ref (joint U ss), Z.of_nat (len (joint U ss))).
Proof.
  intros names. induction ss as [|ts ss IH]; intros U HU HS; [reflexivity|].
  inversion HS as [|? ? HS1 HS2]; subst. cbn [observed_union joint fold_left].
  destruct (observed_nodup names ts HS1) as (N1 & N2 & N3).
  destruct (Z.ltb_spec (Z.of_nat (len U)) 0); [lia|]. rewrite Nat2Z.id.
  replace (len names - len (s_hidden ts)) with (len (s_observed ts)) by lia.
  rewrite union_arrays by assumption. cbn [bind].
  apply IH; [apply union_nodup; assumption|exact HS2].
Qed.

(** ** Joined words *)
Fixpoint more (ws : list (list ascii)) : list ascii :=
  match ws with [] => [] | w :: r => comma :: w ++ more r end.
Definition join (ws : list (list ascii)) : list ascii :=
  match ws with [] => [] | w :: r => w ++ more r end.

Lemma plain_delimits : forall c, c <> comma -> member c white = false -> delimits [comma] true c = false.
Proof.
  intros c H1 H2. unfold delimits. rewrite H2. cbn [member existsb andb].
  rewrite (proj2 (Ascii.eqb_neq c comma) H1). cbn [orb].
  rewrite orb_false_r. apply Ascii.eqb_neq. intros ->. discriminate H2.
Qed.

Lemma pieces_plain : forall w r, plain w ->
  pieces (delimits [comma] true) none (w ++ more r)
  = w :: match r with [] => [] | _ => pieces (delimits [comma] true) none (join r) end.
Proof.
  intros w r (NE & HW).
  assert (HD : Forall (fun c => delimits [comma] true c = false) w).
  { eapply Forall_impl; [|exact HW]. intros c (_ & H1 & H2). now apply plain_delimits. }
  destruct r as [|x r]; cbn [more].
  - rewrite app_nil_r. apply pieces_whole, HD.
  - rewrite pieces_app by reflexivity. rewrite (pieces_whole _ _ w HD). reflexivity.
Qed.

Lemma fields_join : forall ws, Forall plain ws -> fields (delimits [comma] true) none (join ws) = ws.
Proof.
  intros ws H. unfold fields. induction H as [|w r HW HR IH]; [reflexivity|]. cbn [join].
  rewrite pieces_plain by exact HW. destruct r as [|x r].
  - destruct w as [|c w]; [destruct HW; congruence|reflexivity].
  - cbn [filter]. rewrite IH. destruct w as [|c w]; [destruct HW; congruence|reflexivity].
Qed.

Lemma in_more : forall c ws, In c (more ws) -> c = comma \/ exists w, In w ws /\ In c w.
Proof.
  intros c. induction ws as [|w r IH]; cbn [more]; [intros []|]. intros [H|H]; [auto|].
  apply in_app_or in H. destruct H as [H|H]; [right; exists w; cbn; auto|].
  destruct (IH H) as [A|(x & A & B)]; [auto|]. right. exists x. cbn. auto.
Qed.

Lemma in_join : forall c ws, In c (join ws) -> c = comma \/ exists w, In w ws /\ In c w.
Proof.
  intros c [|w r]; cbn [join]; [intros []|]. intros H. apply in_app_or in H. destruct H as [H|H].
  - right. exists w. cbn. auto.
  - destruct (in_more c r H) as [A|(x & A & B)]; [auto|]. right. exists x. cbn. auto.
Qed.

Lemma join_clean : forall ws, Forall plain ws -> ~ In zero (join ws) /\ ~ In NEWLINE (join ws).
Proof.
  intros ws H. rewrite Forall_forall in H.
  assert (X : forall c, In c (join ws) -> c <> zero /\ member c white = false).
  { intros c HC. destruct (in_join c ws HC) as [->|(w & A & B)]; [split; [discriminate|reflexivity]|].
    destruct (H w A) as (_ & HW). rewrite Forall_forall in HW. destruct (HW c B) as (P1 & _ & P2). auto. }
  split; intros Y; destruct (X _ Y) as [A B]; [congruence|discriminate B].
Qed.

Lemma more_length : forall ws, len (more ws) = fold_right Nat.add 0 (map (fun w => S (len w)) ws).
Proof. induction ws as [|w r IH]; [reflexivity|]. cbn [more len map fold_right]. rewrite app_length, IH. lia. Qed.

Lemma join_length : forall ws, ws <> [] -> S (len (join ws)) = fold_right Nat.add 0 (map (fun w => S (len w)) ws).
Proof.
  intros [|w r] H; [congruence|]. cbn [join map fold_right]. rewrite app_length, more_length. lia.
Qed.

(** ** Lines of a file *)
Definition unlines (ls : list (list ascii)) : list ascii := concat (map (fun l => l ++ [NEWLINE]) ls).

Lemma lines_unlines : forall ls, Forall (fun l => ~ In NEWLINE l) ls -> lines (unlines ls) = ls ++ [[]].
Proof.
  intros ls H. unfold lines. change (fun _ : ascii => false) with (@none ascii).
  induction H as [|l ls HL HR IH]; [reflexivity|]. unfold unlines in *. cbn [map concat app].
  rewrite <- app_assoc. cbn [app]. rewrite pieces_app by apply Ascii.eqb_refl. rewrite IH.
  rewrite pieces_whole; [reflexivity|]. apply Forall_forall. intros c HC. apply Ascii.eqb_neq. intros <-. exact (HL HC).
Qed.

Lemma unlines_app : forall a b, unlines (a ++ b) = unlines a ++ unlines b.
Proof. intros. unfold unlines. rewrite map_app, concat_app. reflexivity. Qed.

Lemma blocks_app : forall (rows rest : list row), Forall (fun r => r <> []) rows ->
  blocks (rows ++ [] :: rest) = match rows with [] => blocks rest | _ => rows :: blocks rest end.
Proof.
  intros rows rest H. unfold blocks. change (fun _ : row => false) with (@none row).
  rewrite pieces_app by reflexivity. rewrite filter_app.
  rewrite pieces_whole.
  - destruct rows; reflexivity.
  - eapply Forall_impl; [|exact H]. intros [|x r] N; [congruence|reflexivity].
Qed.

Lemma blocks_all : forall (bs : list (list row)), Forall (fun b => Forall (fun r => r <> []) b) bs ->
  blocks (concat (map (fun b => b ++ [[]]) bs) ++ [[]]) = filter nonempty bs.
Proof.
  intros bs H. induction H as [|b bs HB HR IH]; [reflexivity|]. cbn [map concat]. rewrite <- !app_assoc. cbn [app].
  rewrite blocks_app by exact HB. rewrite IH. destruct b; reflexivity.
Qed.
