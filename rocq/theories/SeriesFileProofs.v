(** * Proofs about data files, part 1: lines, fields and blocks *)
From Coq Require Import String Ascii.
From Verif Require Import Base BaseProofs StringModel StringSpec StringProofs StringProofs2
  VariableModel NipModel NipSpec SeriesFileModel SeriesFileSpec.
Import ListNotations.
Open Scope nat_scope.
Local Open Scope res_scope.
Local Notation len := List.length.

Definition none {A} : A -> bool := fun _ => false.

Lemma rev_case : forall A (l : list A), l = [] \/ exists b c, l = b ++ [c].
Proof.
  intros A l. destruct l as [|c l] using rev_ind; [left; reflexivity|]. right. exists l, c. reflexivity.
Qed.

(** ** Pieces *)
Lemma pieces_nil : forall A (d k : A -> bool) l, pieces d k l <> [].
Proof.
  intros A d k l. destruct l as [|c t]; cbn; [discriminate|].
  destruct (d c); [destruct (k c); discriminate|]. destruct (pieces d k t); discriminate.
Qed.

Lemma pieces_app : forall A (d : A -> bool) a c b, d c = true ->
  pieces d none (a ++ c :: b) = pieces d none a ++ pieces d none b.
Proof.
  intros A d a c b H. induction a as [|x a IH]; cbn [app pieces].
  - rewrite H. reflexivity.
  - destruct (d x) eqn:E; [change (@none A x) with false|]; cbn [app].
    + now rewrite IH.
    + rewrite IH. destruct (pieces d none a) as [|p ps] eqn:EP; [now apply pieces_nil in EP|]. reflexivity.
Qed.

Lemma pieces_whole : forall A (d : A -> bool) a, Forall (fun c => d c = false) a -> pieces d none a = [a].
Proof.
  intros A d a H. induction H as [|c a H1 H2 IH]; cbn [pieces]; [reflexivity|]. rewrite H1, IH. reflexivity.
Qed.

Lemma pieces_snoc : forall A (d : A -> bool) a c, d c = false ->
  exists ps p, pieces d none a = ps ++ [p] /\ pieces d none (a ++ [c]) = ps ++ [p ++ [c]].
Proof.
  intros A d a c H. induction a as [|x a (ps & p & E1 & E2)]; cbn [app pieces].
  - rewrite H. exists [], []. split; reflexivity.
  - destruct (d x) eqn:E; [change (@none A x) with false|]; rewrite E1, E2; cbn [app].
    + exists ([] :: ps), p. split; reflexivity.
    + destruct ps as [|q ps]; cbn [app].
      * exists [], (x :: p). split; reflexivity.
      * exists ((x :: q) :: ps), p. split; reflexivity.
Qed.

Lemma pieces_last : forall A (d : A -> bool) a,
  last (pieces d none a) [] = [] <-> (a = [] \/ exists b c, a = b ++ [c] /\ d c = true).
Proof.
  intros A d a. destruct (rev_case _ a) as [->|(b & c & ->)].
  - cbn. intuition.
  - destruct (d c) eqn:E.
    + rewrite pieces_app by exact E. cbn [pieces]. rewrite last_last. split; [|auto]. intros _. right.
      exists b, c. auto.
    + destruct (pieces_snoc A d b c E) as (ps & p & E1 & E2). rewrite E2, last_last. split.
      * intros X. destruct p; discriminate X.
      * intros [X|(b' & c' & X & Y)]; [destruct b; discriminate X|].
        apply app_inj_tail in X. destruct X; congruence.
Qed.

(** ** Fields of a line *)
Lemma fields_newline : forall sep l, fields (delimits [sep] true) none (l ++ [NEWLINE])
  = fields (delimits [sep] true) none l.
Proof.
  intros sep l. unfold fields. rewrite pieces_app.
  - rewrite filter_app. cbn [pieces filter nonempty]. apply app_nil_r.
  - unfold delimits. rewrite (Ascii.eqb_refl end_of_line : Ascii.eqb NEWLINE end_of_line = true).
    rewrite orb_true_r. reflexivity.
Qed.

Lemma line_tokens : forall sep line, text line ->
  let fs := fields (delimits [sep] true) none line in
  count_tokens line false (Some [sep]) 1 false true = Ok (len fs, len line) /\
  (fs <> [] -> exists ix,
     tokenise (Some line) (Z.of_nat (len fs)) false (Some [sep]) 1 false true = Ok (Some ix, NO_ERROR) /\
     forall k, k < len fs -> word line ix k = Ok (nth k fs [])).
Proof.
  intros sep line [H1 H2] fs.
  assert (HF : words_of line (scan false (Some [sep]) 1 false true 0 0 false line) = fs).
  { apply (scan_fields line false (Some [sep]) 1 false true [sep]); [|reflexivity|left; reflexivity].
    intros c. unfold sepc, member. reflexivity. }
  destruct (tokenise_lemma line false (Some [sep]) 1 false true H1) as (n & E1 & E2 & E3 & E4 & E5); [cbn; lia|exact H2|].
  assert (N : n = len fs).
  { pose proof (words_length line 0 _ E3) as L. rewrite HF in L. lia. }
  subst n. split; [exact E1|]. intros NE. eexists. split.
  - apply E5. destruct fs; [congruence|cbn; lia].
  - intros k Hk. rewrite <- HF. apply (word_ok line 0); [exact H1|exact E3|lia].
Qed.

Lemma words_from_ok : forall line ix fs n i,
  (forall k, k < len fs -> word line ix k = Ok (nth k fs [])) -> i + n <= len fs ->
  words_from line ix i n = Ok (firstn n (skipn i fs)).
Proof.
  intros line ix fs n. induction n as [|n IH]; intros i H L; [reflexivity|].
  cbn [words_from]. rewrite H by lia. cbn [bind]. rewrite IH by (auto; lia). cbn [bind].
  f_equal. assert (E : skipn i fs = nth i fs [] :: skipn (S i) fs).
  { clear IH H. revert i L. induction fs as [|x fs IH2]; intros i L; [cbn in L; lia|].
    destruct i; [reflexivity|]. cbn [nth]. cbn [len] in L. apply (IH2 i). lia. }
  rewrite E. reflexivity.
Qed.

(** ** fgets *)
Lemma fgets_line : forall p rest n, ~ In NEWLINE p -> len p < n ->
  fgets_chars n (p ++ NEWLINE :: rest) = (p ++ [NEWLINE], rest).
Proof.
  induction p as [|c p IH]; intros rest n H L; destruct n as [|n]; cbn [len] in L; try lia; cbn [app fgets_chars].
  - rewrite Ascii.eqb_refl. reflexivity.
  - destruct (Ascii.eqb_spec c NEWLINE) as [->|N]; [exfalso; apply H; left; reflexivity|].
    rewrite IH; [reflexivity| |lia]. intros X; apply H; right; exact X.
Qed.

Lemma fgets_last : forall p n, ~ In NEWLINE p -> len p < n -> fgets_chars n p = (p, []).
Proof.
  induction p as [|c p IH]; intros n H L; destruct n as [|n]; cbn [len] in L; try lia; cbn [fgets_chars]; auto.
  destruct (Ascii.eqb_spec c NEWLINE) as [->|N]; [exfalso; apply H; left; reflexivity|].
  rewrite IH; [reflexivity| |lia]. intros X; apply H; right; exact X.
Qed.

Lemma MAX_pred : MAX_LINELENGTH - 1 = Z.to_nat 9999.
Proof. unfold MAX_LINELENGTH. lia. Qed.

(** The file [f] is read as the rows [T] of fields. *)
Inductive reads (sep : ascii) : list ascii -> list (list (list ascii)) -> Prop :=
| reads_end : reads sep [] []
| reads_line : forall f line rest T, fgets f = Some (line, rest) -> text line -> len rest < len f ->
    reads sep rest T -> reads sep f (fields (delimits [sep] true) none line :: T).

Lemma split_newline : forall f, (~ In NEWLINE f) \/ exists p rest, f = p ++ NEWLINE :: rest /\ ~ In NEWLINE p.
Proof.
  induction f as [|c f [IH|(p & rest & -> & IH)]].
  - left. intros [].
  - destruct (Ascii.eqb_spec c NEWLINE) as [->|N].
    + right. exists [], f. split; [reflexivity|intros []].
    + left. intros [X|X]; auto.
  - destruct (Ascii.eqb_spec c NEWLINE) as [->|N].
    + right. exists [], (p ++ NEWLINE :: rest). split; [reflexivity|intros []].
    + right. exists (c :: p), rest. split; [reflexivity|]. intros [X|X]; auto.
Qed.

Lemma text_short : forall l, ~ In zero l -> len l <= Z.to_nat 9999 -> text l.
Proof. intros l H L. split; [exact H|]. unfold INT_MAX. lia. Qed.

Lemma readable_reads : forall sep f, readable f ->
  exists T, reads sep f T /\ (table sep f = T \/ table sep f = T ++ [[]]).
Proof.
  intros sep f. remember (len f) as n eqn:En. revert f En.
  induction n as [n IH] using lt_wf_ind. intros f En [HZ HL]. unfold table, lines in *.
  change (fun _ : ascii => false) with (@none ascii) in *.
  destruct (split_newline f) as [N|(p & rest & -> & N)].
  - destruct f as [|c f'] eqn:Ef.
    + exists []. split; [constructor|]. right. reflexivity.
    + rewrite <- Ef in *. assert (NF : f <> []) by (rewrite Ef; discriminate). clear Ef c f'.
      assert (PW : pieces (Ascii.eqb end_of_line) none f = [f]).
      { apply pieces_whole, Forall_forall. intros x X. apply Ascii.eqb_neq. intros <-. exact (N X). }
      rewrite PW in *.
      inversion HL as [|? ? HL1 _]; subst. exists [fields (delimits [sep] true) none f]. split; [|left; reflexivity].
      apply (reads_line sep f f [] []); [|apply text_short; [exact HZ|lia]|destruct f; [congruence|cbn; lia]|constructor].
      unfold fgets. destruct f as [|c f'] eqn:Ef; [congruence|]. rewrite <- Ef in *. rewrite MAX_pred.
      f_equal. apply fgets_last; [exact N|lia].
  - rewrite (pieces_app _ (Ascii.eqb end_of_line) p NEWLINE rest (Ascii.eqb_refl _)) in *.
    assert (PW : pieces (Ascii.eqb end_of_line) none p = [p]).
    { apply pieces_whole, Forall_forall. intros x X. apply Ascii.eqb_neq. intros <-. exact (N X). }
      rewrite PW in *.
    cbn [app] in *. inversion HL as [|? ? HL1 HL2]; subst.
    destruct (IH (len rest)) with (f := rest) as (T & R1 & R2).
    + rewrite app_length. cbn [len]. lia.
    + reflexivity.
    + split; [|exact HL2]. intros X. apply HZ. apply in_or_app. right. right. exact X.
    + exists (fields (delimits [sep] true) none p :: T). split.
      * rewrite <- fields_newline. apply (reads_line sep _ (p ++ [NEWLINE]) rest T).
        -- unfold fgets. destruct (p ++ NEWLINE :: rest) as [|c f'] eqn:Ef; [destruct p; discriminate Ef|].
           rewrite <- Ef. rewrite MAX_pred. f_equal. apply fgets_line; [exact N|lia].
        -- apply text_short.
           ++ intros X. apply HZ. apply in_app_or in X. apply in_or_app. destruct X as [X|[X|[]]]; [left; exact X|discriminate X].
           ++ rewrite app_length. cbn [len]. lia.
        -- rewrite app_length. cbn [len]. lia.
        -- exact R1.
      * cbn [map]. unfold none in R2 at 1. destruct R2 as [R2|R2]; [left|right]; cbn [app]; f_equal; exact R2.
Qed.

(** ** Blocks *)
Section Blocks.
Variable A : Type.
Implicit Types (P : list (list A)) (t : list A).

(** The last row is not blank. *)
Definition ends P : bool := nonempty (last P []).

Lemma blocks_blank : forall P, blocks (P ++ [[]]) = blocks P.
Proof.
  intros P. unfold blocks. change (fun _ : list A => false) with (@none (list A)). rewrite (pieces_app _ (@blank A) P [] []) by reflexivity.
  rewrite filter_app. cbn [pieces filter nonempty]. apply app_nil_r.
Qed.

Lemma pieces_last_ends : forall P, nonempty (last (pieces (@blank A) none P) []) = ends P.
Proof.
  intros P. destruct (rev_case _ P) as [->|(b & c & ->)]; [reflexivity|]. unfold ends. rewrite last_last.
  destruct c as [|a c].
  - rewrite pieces_app by reflexivity. cbn [pieces]. rewrite last_last. reflexivity.
  - destruct (pieces_snoc _ (@blank A) b (a :: c) eq_refl) as (ps & p & E1 & E2). rewrite E2, last_last.
    destruct p; reflexivity.
Qed.

Lemma blocks_start : forall P t, ends P = false -> t <> [] -> blocks (P ++ [t]) = blocks P ++ [[t]].
Proof.
  intros P t H N. rewrite <- pieces_last_ends in H. unfold blocks.
  destruct (pieces_snoc _ (@blank A) P t) as (ps & p & E1 & E2); [destruct t; [congruence|reflexivity]|].
  unfold none in E1, E2 |- *. rewrite E1, E2. rewrite !filter_app. unfold none in H. rewrite E1, last_last in H.
  destruct p; [|discriminate H]. cbn [filter nonempty app]. rewrite app_nil_r. reflexivity.
Qed.

Lemma blocks_more : forall P t, ends P = true -> t <> [] ->
  exists bs b, blocks P = bs ++ [b] /\ blocks (P ++ [t]) = bs ++ [b ++ [t]].
Proof.
  intros P t H N. rewrite <- pieces_last_ends in H. unfold blocks.
  destruct (pieces_snoc _ (@blank A) P t) as (ps & p & E1 & E2); [destruct t; [congruence|reflexivity]|].
  unfold none in E1, E2 |- *. rewrite E1, E2. rewrite !filter_app. unfold none in H. rewrite E1, last_last in H.
  destruct p as [|x p]; [discriminate H|]. cbn [filter nonempty app].
  exists (filter nonempty ps), (x :: p). split; reflexivity.
Qed.

Lemma ends_snoc : forall P t, ends (P ++ [t]) = nonempty t.
Proof. intros. unfold ends. rewrite last_last. reflexivity. Qed.

Lemma ends_blocks : forall P, ends P = true -> blocks P <> [].
Proof.
  intros P H. destruct (rev_case _ P) as [->|(b & c & ->)]; [discriminate H|]. rewrite ends_snoc in H.
  destruct c as [|a c]; [discriminate H|].
  destruct (ends b) eqn:E.
  - destruct (blocks_more b (a :: c) E) as (bs & x & _ & ->); [discriminate|]. destruct bs; discriminate.
  - rewrite blocks_start by (auto; discriminate). destruct (blocks b); discriminate.
Qed.

Lemma blocks_concat : forall P, concat (blocks P) = filter nonempty P.
Proof.
  induction P as [|t P IH] using rev_ind; [reflexivity|]. rewrite filter_app. cbn [filter].
  destruct t as [|a t]; cbn [nonempty].
  - rewrite blocks_blank, app_nil_r. exact IH.
  - destruct (ends P) eqn:E.
    + destruct (blocks_more P (a :: t) E) as (bs & b & E1 & E2); [discriminate|].
      rewrite E2. rewrite E1 in IH. rewrite concat_app in *. cbn [concat] in *. rewrite app_nil_r in *.
      rewrite app_assoc. f_equal. exact IH.
    + rewrite blocks_start by (auto; discriminate). rewrite concat_app, IH. reflexivity.
Qed.
End Blocks.
