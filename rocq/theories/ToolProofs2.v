(** * Proofs: written texts; write_uncertainseries *)
From Coq Require Import String Ascii.
From Verif Require Import Base BaseProofs StringModel StringSpec PotentialModel VariableModel VariableProofs NipModel NipSpec
  SeriesFileModel SeriesFileSpec NetSpec WriteModel WriteSpec WriteProofs ToolModel ToolSpec.
Import ListNotations.
Open Scope nat_scope.
Local Open Scope res_scope.
Local Notation len := List.length.
Local Notation chars := list_ascii_of_string.

(** ** Loops that append *)
Lemma append_loop : forall k (body : nat -> list ascii -> res (list ascii)) g out,
  (forall i o, i < k -> body i o = Ok (o ++ g i)) ->
  for_up 0 k body out = Ok (out ++ concat (map g (seq 0 k))).
Proof.
  induction k as [|k IH]; intros body g out H.
  - cbn. now rewrite app_nil_r.
  - rewrite for_up_snoc by lia. rewrite (IH body g out) by (intros; apply H; lia). cbn [bind]. rewrite H by lia.
    rewrite seq_S, map_app, concat_app. cbn [map concat Nat.add]. now rewrite app_nil_r, app_assoc.
Qed.
Lemma commas_snoc : forall l x, commas (l ++ [x]) = match l with [] => x | _ => commas l ++ comma :: x end.
Proof.
  induction l as [|a l IH]; intros x; [reflexivity|]. destruct l as [|b l]; [reflexivity|].
  change (commas ((a :: b :: l) ++ [x])) with (a ++ comma :: commas ((b :: l) ++ [x])). rewrite IH.
  change (commas (a :: b :: l)) with (a ++ comma :: commas (b :: l)). now rewrite <- app_assoc.
Qed.
Lemma separated_loop : forall k (body : nat -> list ascii -> res (list ascii)) g out,
  (forall i o, i < k -> body i o = Ok (separated i o ++ g i)) ->
  for_up 0 k body out = Ok (out ++ commas (map g (seq 0 k))).
Proof.
  induction k as [|k IH]; intros body g out H.
  - cbn. now rewrite app_nil_r.
  - rewrite for_up_snoc by lia. rewrite (IH body g out) by (intros; apply H; lia). cbn [bind]. rewrite H by lia.
    rewrite seq_S, map_app. cbn [map Nat.add]. rewrite commas_snoc. unfold separated. destruct k as [|k]; [cbn; now rewrite app_nil_r|].
    cbn [Nat.ltb Nat.leb seq map]. rewrite <- !app_assoc. reflexivity.
Qed.
Lemma followed_loop : forall k (body : nat -> list ascii -> res (list ascii)) g out x,
  (forall i o, i < k -> body i o = Ok (o ++ g i ++ [FIELD_SEPARATOR])) ->
  exists o, for_up 0 k body out = Ok o /\ o ++ x = out ++ commas (map g (seq 0 k) ++ [x]).
Proof.
  intros k body g out x H. rewrite (append_loop k body (fun i => g i ++ [FIELD_SEPARATOR]) out H). eexists. split; [reflexivity|].
  rewrite <- app_assoc. f_equal. clear H. induction (seq 0 k) as [|i l IH]; [reflexivity|]. cbn [map concat app].
  rewrite <- !app_assoc, IH. destruct (map g l) eqn:E; [reflexivity|]. cbn [app commas]. reflexivity.
Qed.
Lemma Forall2_len : forall A B (R : A -> B -> Prop) l l', Forall2 R l l' -> len l = len l'.
Proof. intros A B R l l' H. induction H; cbn; auto. Qed.
Arguments Forall2_len {A B R l l'}.
Lemma map_nth_seq : forall A (l : list A) d, map (fun i => nth i l d) (seq 0 (len l)) = l.
Proof.
  intros A l d. apply (list_ext_nth _ d); rewrite map_length, seq_length; auto. intros i Hi.
  rewrite (nth_map _ _ _ _ _ 0) by (now rewrite seq_length). now rewrite seq_nth.
Qed.
Lemma map_seq_nth : forall A B (f : A -> B) (l : list A) d, map (fun i => f (nth i l d)) (seq 0 (len l)) = map f l.
Proof. intros. rewrite <- (map_nth_seq _ l d) at 2. now rewrite map_map. Qed.

(** ** State names *)
Lemma state_name_ok : forall names v nv l i, nth_error names v = Some nv -> nv_states nv = Names l -> i < len l ->
  state_name_text names v i = Ok (chars (nth i l EmptyString)).
Proof.
  intros names v nv l i H1 H2 Hi. unfold state_name_text, rd. rewrite H1. cbn [bind]. unfold variable_state_name. rewrite H2.
  destruct (Z.ltb_spec (Z.of_nat i) 0); [lia|]. rewrite Nat2Z.id, (rd_ok _ l i EmptyString Hi). reflexivity.
Qed.
Lemma state_names_ok : forall names v nv l out, nth_error names v = Some nv -> nv_states nv = Names l ->
  write_state_names names v (len l) out = Ok (out ++ csv_line (map chars l)).
Proof.
  intros names v nv l out H1 H2. unfold write_state_names.
  rewrite (separated_loop (len l) _ (fun i => chars (nth i l EmptyString)) out).
  2:{ intros i o Hi. now rewrite (state_name_ok names v nv l i H1 H2 Hi). }
  cbn [bind]. unfold csv_line. rewrite (map_seq_nth _ _ chars), <- app_assoc. reflexivity.
Qed.

(** ** write_uncertainseries *)
Lemma first_at_nth : forall v l j, first_at v l j -> j < len l /\ nth j l 0 = v /\ forall i, i < j -> nth i l 0 <> v.
Proof.
  intros v l j (A & B). assert (L : j < len l) by (apply nth_error_Some; congruence).
  split; auto. split; [now apply nth_error_nth|]. intros i Hi E. apply (B i Hi). rewrite (nth_error_nth' l 0) by lia. now rewrite E.
Qed.
Lemma find_first : forall v l, exists o,
  find_up 0 (len l) (fun i => let* w := rd l i in Ok (equal_variables v w)) = Ok o /\
  match o with Some j => first_at v l j | None => ~ In v l end.
Proof.
  intros v l. destruct (find_up_ok (fun i => Nat.eqb v (nth i l 0)) 0 (len l) (fun i => let* w := rd l i in Ok (equal_variables v w))) as (o & E & H).
  { intros i Hi. rewrite (rd_ok _ l i 0) by lia. reflexivity. }
  exists o. split; auto. destruct o as [j|].
  - destruct H as (A & B & C). apply Nat.eqb_eq in B. split; [rewrite (nth_error_nth' l 0) by lia; now rewrite <- B|].
    intros i Hi K. assert (D := C i ltac:(lia)). apply Nat.eqb_neq in D. apply D. symmetry. now apply nth_error_nth.
  - intros I. apply In_nth with (d := 0) in I. destruct I as (j & Hj & E2). assert (D := H j ltac:(lia)). apply Nat.eqb_neq in D. auto.
Qed.
Lemma first_at_unique : forall v l i j, first_at v l i -> first_at v l j -> i = j.
Proof.
  intros v l i j (A & B) (C & D). destruct (Nat.lt_trichotomy i j) as [K|[K|K]]; auto; exfalso; [now apply (D i)|now apply (B j)].
Qed.
Lemma first_at_in : forall v l j, first_at v l j -> In v l.
Proof. intros v l j (A & _). eapply nth_error_In; eauto. Qed.

Lemma columns_for_ok : forall v us, (forall u, In u us -> In v (ucs_variables u)) ->
  exists l, columns_for us v = Ok (Some l) /\ Forall2 (fun u j => first_at v (ucs_variables u) j) us l.
Proof.
  intros v. induction us as [|u us IH]; intros H.
  - exists []. split; [reflexivity|constructor].
  - cbn [columns_for]. destruct (find_first v (ucs_variables u)) as (o & -> & F). cbn [bind]. destruct o as [j|].
    + destruct IH as (l & -> & Q). { intros w Hw. apply H. now right. } cbn [bind]. exists (j :: l). split; [reflexivity|now constructor].
    + exfalso. apply F, H. now left.
Qed.
Lemma columns_for_missing : forall v us, (exists u, In u us /\ ~ In v (ucs_variables u)) -> columns_for us v = Ok None.
Proof.
  intros v. induction us as [|u us IH]; intros (w & Hw & N); [destruct Hw|]. destruct Hw as [<-|Hw]; cbn [columns_for];
    destruct (find_first v (ucs_variables u)) as (o & -> & F); cbn [bind]; destruct o as [j|]; auto.
  - exfalso. apply N. eapply first_at_in; eauto.
  - rewrite IH by eauto. reflexivity.
Qed.

Lemma one_uncertain_ok : forall u v n ds j out, distributions (ucs_variables u) (ucs_data u) v n ds -> first_at v (ucs_variables u) j ->
  write_one_uncertain u j n out = Ok (out ++ csv_group (map (map print_f) ds)).
Proof.
  intros u v n ds j out (j' & F' & D) F. assert (j' = j) by (eapply first_at_unique; eauto). subst j'. unfold write_one_uncertain.
  rewrite (append_loop _ _ (fun t => csv_line (map print_f (nth t ds []))) out).
  - cbn [bind]. unfold csv_group. rewrite map_map. rewrite <- (map_seq_nth _ _ (fun d => csv_line (map print_f d)) ds []).
    rewrite (Forall2_len D), <- app_assoc. reflexivity.
  - intros t o Ht.
    assert (K : exists row d, nth_error (ucs_data u) t = Some row /\ nth_error ds t = Some d /\ nth_error row j = Some d /\ len d = n).
    { clear -D Ht. revert t Ht. induction D as [|row d l l' (A & B & _) D IH]; intros t Ht; [cbn in Ht; lia|].
      destruct t as [|t]; cbn [nth_error]; [exists row, d; auto|]. apply IH. cbn in Ht. lia. }
    destruct K as (row & d & K1 & K2 & K3 & K4). rewrite (nth_error_nth _ _ [] K2).
    rewrite (separated_loop n _ (fun i => print_f (nth i d 0%Qc)) o).
    + cbn [bind]. unfold csv_line. rewrite <- K4, (map_seq_nth _ _ print_f), <- app_assoc. reflexivity.
    + intros i o' Hi. unfold rd at 1. rewrite K1. cbn [bind]. unfold rd at 1. rewrite K3. cbn [bind].
      rewrite (rd_ok _ d i 0%Qc) by lia. reflexivity.
Qed.

Section Write.
Variable names : list named_variable.
Variable v : nat.
Variable nv : named_variable.
Variable l : list string.
Hypothesis H1 : nth_error names v = Some nv.
Hypothesis H2 : nv_states nv = Names l.
Hypothesis H3 : len l = nv_card nv.
Hypothesis H4 : l <> [].

Lemma card_some : Nat.ltb 0 (nv_card nv) = true.
Proof. rewrite <- H3. destruct l; [congruence|reflexivity]. Qed.

Lemma write_uncertain_text : forall closed us dss, us <> [] ->
  Forall2 (fun u ds => distributions (ucs_variables u) (ucs_data u) v (len l) ds) us dss ->
  write_uncertainseries true closed names us v =
    Ok (Some (csv (map chars l) (map (map (map print_f)) dss)), if closed then NO_ERROR else EIO).
Proof.
  intros closed us dss NE D. unfold write_uncertainseries, rd at 1. rewrite H1. cbn [bind]. rewrite card_some.
  replace (Nat.ltb 0 (len us)) with true by (destruct us; [congruence|reflexivity]). cbn [andb negb].
  destruct (columns_for_ok v us) as (js & -> & J).
  { intros u Hu. clear -D Hu. induction D as [|a b la lb (j & F & _) D IH]; [destruct Hu|]. destruct Hu as [<-|Hu]; auto. eapply first_at_in; eauto. }
  cbn [bind]. rewrite <- H3, (state_names_ok names v nv l [] H1 H2). cbn [bind app].
  rewrite (append_loop _ _ (fun s => csv_group (map (map print_f) (nth s dss []))) (csv_line (map chars l))).
  - cbn [bind]. unfold csv. do 3 f_equal. rewrite map_map. rewrite <- (map_seq_nth _ _ (fun ds => csv_group (map (map print_f) ds)) dss []).
    rewrite (Forall2_len D). reflexivity.
  - intros s o Hs.
    assert (K : exists u ds j, nth_error us s = Some u /\ nth_error dss s = Some ds /\ nth_error js s = Some j /\
       distributions (ucs_variables u) (ucs_data u) v (len l) ds /\ first_at v (ucs_variables u) j).
    { clear -D J Hs. revert js J s Hs. induction D as [|u ds la lb A D IH]; intros js J s Hs; [cbn in Hs; lia|].
      inversion J as [|? j ? js' B J']; subst. destruct s as [|s]; cbn [nth_error]; [exists u, ds, j; auto|]. apply IH; auto. cbn in Hs. lia. }
    destruct K as (u & ds & j & K1 & K2 & K3 & K4 & K5). unfold rd at 1. rewrite K1. cbn [bind]. unfold rd at 1. rewrite K3. cbn [bind].
    rewrite (nth_error_nth _ _ [] K2). eapply one_uncertain_ok; eauto.
Qed.

Lemma printed : forall q, (0 <= q)%Qc /\ (q <= 1)%Qc -> prints q (print_f q).
Proof. intros q (A & B). destruct (print_f_ok q A B) as (N & R & _). exists (round6 q). auto. Qed.

Lemma C74_lemma : forall closed us dss, us <> [] ->
  Forall2 (fun u ds => distributions (ucs_variables u) (ucs_data u) v (len l) ds) us dss ->
  exists groups, write_uncertainseries true closed names us v =
      Ok (Some (csv (map chars l) groups), if closed then NO_ERROR else EIO) /\
    Forall2 (Forall2 (Forall2 prints)) dss groups.
Proof.
  intros closed us dss NE D. exists (map (map (map print_f)) dss). split; [apply write_uncertain_text; auto|].
  clear NE. induction D as [|u ds us dss (j & _ & A) D IH]; cbn [map]; constructor; auto. clear IH D.
  induction A as [|row d rows ds (_ & _ & R) A IH]; cbn [map]; constructor; auto. clear IH A.
  induction R as [|q d R R' IH]; cbn [map]; constructor; auto using printed.
Qed.
Lemma C74_missing_lemma : forall opened closed us, (exists u, In u us /\ ~ In v (ucs_variables u)) ->
  write_uncertainseries opened closed names us v = Ok (None, EINVAL).
Proof.
  intros opened closed us H. unfold write_uncertainseries, rd at 1. rewrite H1. cbn [bind]. rewrite card_some.
  destruct us as [|u us]; [reflexivity|]. rewrite columns_for_missing by auto. reflexivity.
Qed.
Lemma C74_unopened_lemma : forall closed us, us <> [] -> (forall u, In u us -> In v (ucs_variables u)) ->
  write_uncertainseries false closed names us v = Ok (None, EIO).
Proof.
  intros closed us NE H. unfold write_uncertainseries, rd at 1. rewrite H1. cbn [bind]. rewrite card_some.
  destruct us as [|u us]; [congruence|]. destruct (columns_for_ok v (u :: us) H) as (js & -> & _). reflexivity.
Qed.
Lemma C74_empty_lemma : forall opened closed, write_uncertainseries opened closed names [] v = Ok (None, EINVAL).
Proof.
  intros opened closed. unfold write_uncertainseries, rd at 1. rewrite H1. cbn [bind]. rewrite card_some. reflexivity.
Qed.
End Write.
