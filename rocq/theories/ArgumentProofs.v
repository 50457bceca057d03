(** * Proofs about numbers given as arguments *)
From Coq Require Import String Ascii QArith_base QArith.
From Verif Require Import Base PotentialModel VariableModel JoinTreeModel NipModel StringModel GraphModel ParseModel NetLexModel NetGrammarModel
  StringSpec NetSpec NetLexProofs2 SliceModel SeriesFileModel LearnModel CostModel CostProofs SeedSpec SeedModel SeedProofs ToolModel ToolModel2
  ArgumentSpec ArgumentModel.
Import ListNotations.
Open Scope nat_scope.
Local Open Scope res_scope.
Local Open Scope list_scope.
Local Notation chars := list_ascii_of_string.

(** ** Text *)
Lemma strtod_blanks : forall ws s, Forall blank ws -> strtod (ws ++ s) = strtod s.
Proof. intros ws s H. unfold strtod. now rewrite skip_blanks. Qed.
Lemma full_blanks : forall ws s, Forall blank ws -> strtod_full (ws ++ s) = strtod_full s.
Proof. intros ws s H. unfold strtod_full. now rewrite strtod_blanks, skip_blanks. Qed.

Lemma lower_prefix : forall p s, Forall (fun c => In c (chars "infa")) p -> map lower (firstn (List.length p) s) = p -> prefix_nocase p s = true.
Proof.
  induction p as [|a p IH]; intros s F H; [reflexivity|]. inversion F as [|? ? A F']; subst.
  destruct s as [|b s]; [discriminate H|]. cbn [List.length firstn map] in H. injection H as Ha Hp.
  cbn [prefix_nocase]. rewrite (IH s F' Hp), Bool.andb_true_r. clear -A Ha.
  cbn [In chars] in A. destruct A as [<-|[<-|[<-|[<-|[]]]]].
  - rewrite nocase_i, Ha. reflexivity.
  - rewrite nocase_n, Ha. reflexivity.
  - rewrite nocase_f, Ha. reflexivity.
  - rewrite nocase_a, Ha. reflexivity.
Qed.

Lemma sign_word : forall neg sg c s, sign_text neg sg -> isspace c = false ->
  Ascii.eqb c (ascii_of_nat 45) = false -> Ascii.eqb c (ascii_of_nat 43) = false ->
  read_sign (skip_space (sg ++ c :: s)) = (neg, c :: s).
Proof.
  intros neg sg c s H A B C. destruct neg; cbn [sign_text] in H.
  - subst sg. reflexivity.
  - destruct H as [->| ->].
    + cbn [app skip_space]. rewrite A. cbn [read_sign]. now rewrite B, C.
    + reflexivity.
Qed.
Lemma lower_plain : forall a c, lower c = a -> a = "i"%char \/ a = "n"%char ->
  isspace c = false /\ Ascii.eqb c (ascii_of_nat 45) = false /\ Ascii.eqb c (ascii_of_nat 43) = false.
Proof.
  intros a c H D. destruct D as [D|D]; rewrite D in H; clear D; revert c H;
    intros [[] [] [] [] [] [] [] []] H; vm_compute in H; try discriminate H; repeat split; reflexivity.
Qed.

Lemma full_inf : forall neg sg s, sign_text neg sg -> map lower (firstn 3 s) = chars "inf" ->
  strtod_full (sg ++ s) = Some (D_infinite neg).
Proof.
  intros neg sg s HS H. destruct s as [|c s]; [discriminate H|].
  assert (P : prefix_nocase (str "inf") (c :: s) = true).
  { apply (lower_prefix (chars "inf")); [|exact H]. apply Forall_forall. intros x Hx. cbn in Hx |- *. tauto. }
  cbn [firstn map] in H. injection H as Hc _. destruct (lower_plain _ c Hc) as (A & B & C); [auto|].
  unfold strtod_full, strtod. rewrite (sign_word neg sg c s HS A B C). rewrite P. cbn [orb]. reflexivity.
Qed.
Lemma full_nan : forall neg sg s, sign_text neg sg -> map lower (firstn 3 s) = chars "nan" ->
  strtod_full (sg ++ s) = Some D_nan.
Proof.
  intros neg sg s HS H. destruct s as [|c s]; [discriminate H|].
  assert (P : prefix_nocase (str "nan") (c :: s) = true).
  { apply (lower_prefix (chars "nan")); [|exact H]. apply Forall_forall. intros x Hx. cbn in Hx |- *. tauto. }
  assert (N : prefix_nocase (str "inf") (c :: s) = false) by (apply prefix_inf; rewrite H; discriminate).
  cbn [firstn map] in H. injection H as Hc _. destruct (lower_plain _ c Hc) as (A & B & C); [auto|].
  unfold strtod_full, strtod. rewrite (sign_word neg sg c s HS A B C). rewrite P, N. cbn [orb]. reflexivity.
Qed.

Lemma map_firstn3 : forall s t, map lower s = t -> map lower (firstn 3 s) = firstn 3 t.
Proof. intros s t <-. now rewrite firstn_map. Qed.

Lemma full_text : forall s d, double_text s d -> strtod_full s = Some d.
Proof.
  intros s d H. destruct H as [ws s q W N|ws neg sg s W S H|ws neg sg s W S H]; rewrite full_blanks by assumption.
  - unfold strtod_full. now rewrite (strtod_numeral s q N).
  - apply full_inf; [assumption|]. destruct H as [H|H]; rewrite (map_firstn3 _ _ H); reflexivity.
  - apply (full_nan neg); [assumption|]. rewrite (map_firstn3 _ _ H); reflexivity.
Qed.

Lemma other_start : forall c, ~ blank c -> member c (list_ascii_of_string "0123456789+-.") = false ->
  isspace c = false /\ Ascii.eqb c (ascii_of_nat 45) = false /\ Ascii.eqb c (ascii_of_nat 43) = false /\
  Ascii.eqb c (ascii_of_nat 48) = false /\ digit_value 10 c = None /\ Ascii.eqb c (ascii_of_nat 46) = false.
Proof.
  intros c B M. split.
  - destruct (isspace c) eqn:E; [|reflexivity]. exfalso. apply B. now apply space_blank.
  - clear B. revert c M. intros [[] [] [] [] [] [] [] []] M; vm_compute in M; try discriminate M; repeat split; reflexivity.
Qed.
Lemma full_none : forall s, no_double_text s -> strtod_full s = None.
Proof.
  intros s H. destruct H as [ws W|ws c t W B L].
  - rewrite <- (app_nil_r ws), full_blanks by assumption. reflexivity.
  - rewrite full_blanks by assumption. unfold strtod_full.
    destruct (like_number_false c t L) as (L1 & L2 & L3).
    destruct (other_start c B L1) as (S1 & S2 & S3 & S5 & S6 & S7).
    assert (E : strtod (c :: t) = None); [|now rewrite E].
    unfold strtod. cbn [skip_space]. rewrite S1. cbn [read_sign]. rewrite S2, S3.
    rewrite (prefix_inf _ L2), (prefix_nan _ L3). cbn [orb].
    assert (R : read_real 10 101 10 1 (c :: t) = None).
    { unfold read_real. cbn [read_digits]. rewrite S6. rewrite S7. reflexivity. }
    destruct t as [|x t]; [rewrite R; reflexivity|]. rewrite S5. cbn [andb]. rewrite R. reflexivity.
Qed.

(** ** Conversion to int *)
Lemma quot_fraction : forall q : Qc, without_fraction q (Z.quot (Qnum q) (Zpos (Qden q))).
Proof.
  intros q. unfold without_fraction. destruct q as [[n d] c]. cbn [this Qnum Qden]. clear c.
  unfold Qle, Qlt, inject_Z. cbn [Qnum Qden].
  assert (E := Z.quot_rem' n (Zpos d)).
  destruct (Z.leb_spec 0 n).
  - assert (R := Z.rem_bound_pos n (Zpos d) H ltac:(lia)). nia.
  - assert (R := Z.rem_bound_pos_neg n (Zpos d) ltac:(lia) ltac:(lia)).
    nia.
Qed.
Lemma fraction_unique : forall q a b, without_fraction q a -> without_fraction q b -> a = b.
Proof.
  intros q a b. unfold without_fraction. destruct q as [[n d] c]. cbn [this Qnum Qden]. clear c.
  unfold Qle, Qlt, inject_Z. cbn [Qnum Qden]. destruct (Z.leb 0 n); intros [A B] [C D]; nia.
Qed.
Lemma fraction_int : forall q z, without_fraction q z -> (int_range q <-> (- INT_MAX - 1 <= z <= INT_MAX)%Z).
Proof.
  intros q z. unfold without_fraction, int_range, INT_MAX. destruct q as [[n d] c]. cbn [this Qnum Qden]. clear c.
  unfold Qle, Qlt, inject_Z. cbn [Qnum Qden]. rewrite !Z.mul_1_r.
  assert (D0 : (0 < Zpos d)%Z) by lia. set (e := Zpos d) in *. clearbody e. clear d.
  assert (M : forall a b, (a <= b)%Z -> (a * e <= b * e)%Z) by (intros; apply Z.mul_le_mono_nonneg_r; lia).
  destruct (Z.leb_spec 0 n); intros [A B]; split; intros [C D].
  - split.
    + assert (0 <= z)%Z by (destruct (Z.le_gt_cases 0 z) as [|G]; [assumption|specialize (M (z + 1) 0 ltac:(lia))%Z; lia]). lia.
    + destruct (Z.le_gt_cases z 2147483647) as [|G]; [assumption|specialize (M 2147483648 z ltac:(lia))%Z; lia].
  - split; [lia|]. specialize (M (z + 1) 2147483648 ltac:(lia))%Z. lia.
  - split.
    + destruct (Z.le_gt_cases (-2147483648) z) as [|G]; [lia|specialize (M z (-2147483649) ltac:(lia))%Z; lia].
    + assert (z <= 0)%Z by (destruct (Z.le_gt_cases z 0) as [|G]; [assumption|specialize (M 0 (z - 1) ltac:(lia))%Z; lia]). lia.
  - split; [|lia]. specialize (M (-2147483649) (z - 1) ltac:(lia))%Z. lia.
Qed.
Lemma to_int_ok : forall q z, without_fraction q z -> int_range q -> double_to_int (D_number q) = Ok z.
Proof.
  intros q z H R. cbn [double_to_int]. rewrite (fraction_unique q _ z (quot_fraction q) H).
  apply (fraction_int q z H) in R. unfold int_of.
  rewrite (proj2 (Z.leb_le (- INT_MAX - 1) z)), (proj2 (Z.leb_le z INT_MAX)) by lia. reflexivity.
Qed.
Lemma to_int_ub : forall q, ~ int_range q -> double_to_int (D_number q) = UB.
Proof.
  intros q H. cbn [double_to_int]. unfold int_of.
  destruct ((- INT_MAX - 1 <=? Z.quot (Qnum q) (Zpos (Qden q))) && (Z.quot (Qnum q) (Zpos (Qden q)) <=? INT_MAX))%Z%bool eqn:E; [|reflexivity].
  exfalso. apply H. apply andb_prop in E. destruct E as [E1 E2]. apply Z.leb_le in E1, E2.
  apply (fraction_int q _ (quot_fraction q)). lia.
Qed.
Lemma amount_int : forall q, amount q -> int_range q.
Proof.
  intros q. unfold amount, int_range, million. destruct q as [[n d] c]. cbn [this].
  unfold Qle, Qlt, inject_Z. cbn [Qnum Qden]. lia.
Qed.

(** ** Amounts *)
Lemma amount_ok : forall text q z, double_text text (D_number q) -> amount q -> without_fraction q z ->
  read_amount text = Ok (Some z) /\ (0 <= z <= 1000000)%Z.
Proof.
  intros text q z T A F. unfold read_amount. rewrite (full_text _ _ T). cbv zeta.
  rewrite (to_int_ok q z F (amount_int q A)). cbn [bind double_le double_gt]. destruct A as [A1 A2].
  assert (E1 : Qle_bool q 0 = false).
  { destruct (Qle_bool q 0) eqn:E; [|reflexivity]. apply Qle_bool_iff in E. exfalso. exact (Qlt_not_le _ _ A1 E). }
  assert (E2 : Qle_bool q (inject_Z 1000000) = true) by (now apply Qle_bool_iff).
  rewrite E1, E2. split; [reflexivity|]. clear E1 E2 T. unfold without_fraction, million in *.
  destruct q as [[n d] c]. cbn [this Qnum Qden] in *. unfold Qle, Qlt, inject_Z in *. cbn [Qnum Qden] in *.
  destruct (Z.leb_spec 0 n); [|lia]. destruct F as [F1 F2]. nia.
Qed.
Lemma amount_out : forall text q, double_text text (D_number q) -> int_range q -> ~ amount q -> read_amount text = Ok None.
Proof.
  intros text q T R A. unfold read_amount. rewrite (full_text _ _ T). cbv zeta.
  rewrite (to_int_ok q _ (quot_fraction q) R). cbn [bind double_le double_gt].
  destruct (Qle_bool q 0) eqn:E1; [reflexivity|]. destruct (Qle_bool q (inject_Z 1000000)) eqn:E2; [|reflexivity].
  exfalso. apply A. split.
  - apply Qnot_le_lt. intros L. apply Qle_bool_iff in L. congruence.
  - now apply Qle_bool_iff in E2.
Qed.
Lemma amount_none : forall text, no_double_text text -> read_amount text = Ok None.
Proof. intros text H. unfold read_amount. rewrite (full_none _ H). reflexivity. Qed.
Lemma amount_ub : forall text d, double_text text d -> (forall q, d = D_number q -> ~ int_range q) -> read_amount text = UB.
Proof.
  intros text d T H. unfold read_amount. rewrite (full_text _ _ T). cbv zeta. destruct d as [q| |].
  - rewrite (to_int_ub q (H q eq_refl)). reflexivity.
  - reflexivity.
  - reflexivity.
Qed.

(** ** Programs *)
Lemma threshold_number : forall text q, double_text text (D_number q) ->
  read_threshold text = Some (D_number q) /\ (0 < q)%Q /\ (q <= 1)%Q \/ read_threshold text = None /\ ~ ((0 < q)%Q /\ (q <= 1)%Q).
Proof.
  intros text q T. unfold read_threshold. rewrite (full_text _ _ T). cbn [double_le double_gt].
  destruct (Qle_bool q 0) eqn:E1.
  - right. split; [reflexivity|]. intros [A _]. apply Qle_bool_iff in E1. exact (Qlt_not_le _ _ A E1).
  - destruct (Qle_bool q 1) eqn:E2; cbn [negb orb].
    + left. split; [reflexivity|]. split; [|now apply Qle_bool_iff]. apply Qnot_le_lt. intros L. apply Qle_bool_iff in L. congruence.
    + right. split; [reflexivity|]. intros [_ A]. apply Qle_bool_iff in A. congruence.
Qed.
Lemma threshold_in : forall text q, double_text text (D_number q) -> (0 < q)%Q -> (q <= 1)%Q -> read_threshold text = Some (D_number q).
Proof. intros text q T A B. destruct (threshold_number text q T) as [[H _]|[_ H]]; [exact H|]. exfalso. auto. Qed.
Lemma threshold_out : forall text d, double_text text d \/ no_double_text text ->
  (double_text text d -> match d with D_number q => (q <= 0)%Q \/ (1 < q)%Q | D_infinite _ => True | D_nan => False end) ->
  read_threshold text = None.
Proof.
  intros text d [T|T] H.
  - specialize (H T). destruct d as [q|neg|]; [|unfold read_threshold; rewrite (full_text _ _ T); now destruct neg|destruct H].
    destruct (threshold_number text q T) as [(_ & A & B)|[E _]]; [|exact E]. exfalso.
    destruct H as [H|H]; [exact (Qlt_not_le _ _ A H)|exact (Qlt_not_le _ _ H B)].
  - unfold read_threshold. now rewrite (full_none _ T).
Qed.
Lemma lowest_in : forall text q, double_text text (D_number q) -> (q < 0)%Q -> read_lowest text = Some (D_number q).
Proof.
  intros text q T A. unfold read_lowest. rewrite (full_text _ _ T). cbn [double_ge].
  destruct (Qle_bool 0 q) eqn:E; [|reflexivity]. apply Qle_bool_iff in E. exfalso. exact (Qlt_not_le _ _ A E).
Qed.
Lemma lowest_out : forall text d, double_text text d \/ no_double_text text ->
  (double_text text d -> match d with D_number q => (0 <= q)%Q | D_infinite neg => neg = false | D_nan => False end) ->
  read_lowest text = None.
Proof.
  intros text d [T|T] H; unfold read_lowest.
  - specialize (H T). rewrite (full_text _ _ T). destruct d as [q|neg|]; cbn [double_ge].
    + apply Qle_bool_iff in H. now rewrite H.
    + now rewrite H.
    + destruct H.
  - now rewrite (full_none _ T).
Qed.

Section Main.
Variable fuel : nat.
Variable k1 k2 : list pvar -> list nat -> Z.
Variable g : globals.
Variable disk : list ascii -> option (list ascii).
Variable generator : Z -> nat -> nat -> nat -> Qc.
Variable pid : Z.
Variable now : time_of_day.
Local Notation main := (nipsample_main fuel k1 k2 g disk generator pid now).

Lemma main_run : forall net seed count length_ out rest z qn qt n t, integer_text seed z ->
  double_text count (D_number qn) -> amount qn -> without_fraction qn n ->
  double_text length_ (D_number qt) -> amount qt -> without_fraction qt t ->
  main (net :: seed :: count :: length_ :: out :: rest)
  = nipsample fuel k1 k2 g (disk net) (Z.to_nat n) (Z.to_nat t) (generator (nearest_long z mod 2 ^ 32)%Z).
Proof.
  intros net seed count length_ out rest z qn qt n t S C CA CF L LA LF.
  unfold nipsample_main, nipsample. destruct (disk net) as [text|]; [|reflexivity].
  destruct (parse_file k1 k2 g text) as [[[[[[names m] x] y] w]|]| |]; [|reflexivity..].
  cbn [bind]. rewrite (sample_ok seed z pid now S). cbn [bind].
  rewrite (proj1 (amount_ok count qn n C CA CF)). cbn [bind].
  rewrite (proj1 (amount_ok length_ qt t L LA LF)). cbn [bind]. reflexivity.
Qed.

Lemma bad_none : forall s, bad_amount s -> read_amount s = Ok None.
Proof. intros s [H|(q & T & R & A)]; [now apply amount_none|now apply (amount_out s q)]. Qed.
Lemma good_some : forall s, good_amount s -> exists z, read_amount s = Ok (Some z).
Proof. intros s (q & T & A). eexists. exact (proj1 (amount_ok s q _ T A (quot_fraction q))). Qed.
Lemma wild_ub : forall s, wild_amount s -> read_amount s = UB.
Proof. intros s (d & T & H). now apply (amount_ub s d). Qed.

Lemma main_rejects : forall net seed count length_ out rest text r, disk net = Some text ->
  parse_file k1 k2 g text = Ok r ->
  (forall z, ~ integer_text seed z) \/
  (exists z, integer_text seed z) /\ (bad_amount count \/ good_amount count /\ bad_amount length_) ->
  main (net :: seed :: count :: length_ :: out :: rest) = Ok failed.
Proof.
  intros net seed count length_ out rest text r E P H. unfold nipsample_main. rewrite E, P. cbn [bind].
  destruct r as [[[[[names m] x] y] w]|]; [|reflexivity].
  destruct H as [H|[[z Z] H]].
  - rewrite (sample_rejects seed pid now H). reflexivity.
  - rewrite (sample_ok seed z pid now Z). cbn [bind]. destruct H as [B|[G B]].
    + rewrite (bad_none _ B). reflexivity.
    + destruct (good_some _ G) as (n & ->). cbn [bind]. rewrite (bad_none _ B). reflexivity.
Qed.
Lemma main_undefined : forall net seed count length_ out rest text x z, disk net = Some text ->
  parse_file k1 k2 g text = Ok (Some x) -> integer_text seed z ->
  wild_amount count \/ good_amount count /\ wild_amount length_ ->
  main (net :: seed :: count :: length_ :: out :: rest) = UB.
Proof.
  intros net seed count length_ out rest text x z E P Z H. unfold nipsample_main. rewrite E, P. cbn [bind].
  destruct x as [[[[names m] x] y] w]. rewrite (sample_ok seed z pid now Z). cbn [bind]. destruct H as [B|[G B]].
  - rewrite (wild_ub _ B). reflexivity.
  - destruct (good_some _ G) as (n & ->). cbn [bind]. rewrite (wild_ub _ B). reflexivity.
Qed.
Lemma main_few : forall argv, List.length argv < 5 -> main argv = Ok (mkFinished 0 None).
Proof. intros argv H. destruct argv as [|a [|b [|c [|d [|e l]]]]]; try reflexivity. cbn in H. lia. Qed.
End Main.

Lemma integer_numeral : forall ds, ds <> [] -> Forall (fun d => d < 10) ds ->
  numeral (digits ds) (Q2Qc (inject_Z (decimal ds))).
Proof.
  intros ds NE F. assert (H := numeral_of false [] ds [] [] [] 0%Z (or_introl eq_refl)).
  rewrite !app_nil_r in H. specialize (H F NE (or_intror (conj eq_refl eq_refl)) no_exponent).
  cbn [app digits map signed List.length] in H. change (0 - Z.of_nat 0)%Z with 0%Z in H.
  replace (Q2Qc (inject_Z (decimal ds))) with (Q2Qc (inject_Z (decimal ds)) * power_of_ten 0)%Qc; [exact H|].
  replace (power_of_ten 0) with 1%Qc by (apply Qc_is_canon; reflexivity). ring.
Qed.
Lemma integer_value : forall z, this (Q2Qc (inject_Z z)) = inject_Z z.
Proof. intros z. apply Qred_identity. cbn. now rewrite Z.gcd_1_r. Qed.
Lemma integer_fraction : forall z, without_fraction (Q2Qc (inject_Z z)) z.
Proof.
  intros z. unfold without_fraction. rewrite integer_value.
  change (Qnum (inject_Z z)) with z.
  destruct (Z.leb_spec 0 z); rewrite <- Zle_Qle, <- Zlt_Qlt; lia.
Qed.
Lemma integer_amount : forall z, (1 <= z <= 1000000)%Z -> amount (Q2Qc (inject_Z z)).
Proof.
  intros z H. unfold amount, million. rewrite integer_value. change 0%Q with (inject_Z 0).
  rewrite <- Zle_Qle, <- Zlt_Qlt. lia.
Qed.
