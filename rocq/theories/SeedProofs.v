(** * Proofs about seeds *)
From Coq Require Import String Ascii.
From Verif Require Import Base VariableModel StringModel NetLexModel NetSpec NetLexProofs2 WriteModel WriteProofs SeedSpec CostModel CostProofs SeedModel.
Import ListNotations.
Open Scope nat_scope.
Local Open Scope res_scope.
Local Open Scope list_scope.
Local Notation chars := list_ascii_of_string.

(** ** Text *)
Lemma blank_space : forall c, blank c -> isspace c = true.
Proof.
  intros c H. unfold isspace. destruct H as [H|H].
  - rewrite H. reflexivity.
  - rewrite (proj2 (Nat.leb_le 9 _)), (proj2 (Nat.leb_le _ 13)) by lia. now rewrite Bool.orb_true_r.
Qed.
Lemma space_blank : forall c, isspace c = true -> blank c.
Proof.
  intros c H. unfold isspace in H. apply Bool.orb_true_iff in H. destruct H as [H|H].
  - left. now apply Nat.eqb_eq.
  - right. apply andb_prop in H. destruct H as [H1 H2]. apply Nat.leb_le in H1, H2. lia.
Qed.
Lemma skip_blanks : forall ws s, Forall blank ws -> skip_space (ws ++ s) = skip_space s.
Proof. intros ws s H. induction H as [|c ws B _ IH]; [reflexivity|]. cbn [app skip_space]. now rewrite (blank_space c B). Qed.

Lemma digit_is : forall c d, digit_value 10 c = Some d -> d < 10 /\ c = digit d.
Proof.
  intros c d H. unfold digit_value, isdigit, in_range in H.
  destruct ((Nat.leb 48 (nat_of_ascii c) && Nat.leb (nat_of_ascii c) 57)%bool) eqn:E; [|discriminate].
  apply andb_prop in E. destruct E as [E1 E2]. apply Nat.leb_le in E1, E2. injection H as <-.
  split; [lia|]. unfold digit. replace (48 + (nat_of_ascii c - 48)) with (nat_of_ascii c) by lia. now rewrite ascii_nat_embedding.
Qed.
Lemma rest_no_digit : forall rest, (forall c r, rest = c :: r -> ~ is_digit c) -> no_digit rest.
Proof.
  intros [|c r] H; [exact I|]. cbn. destruct (digit_value 10 c) as [d|] eqn:E; [|reflexivity].
  destruct (digit_is c d E) as [L ->]. exfalso. apply (H _ r eq_refl). exists d. auto.
Qed.

Lemma strtol_value : forall text z, integer_text text z -> strtol text = Some (nearest_long z).
Proof.
  intros text z H. destruct H as [ws neg sg ds rest HW HS NE HD HR].
  unfold strtol. rewrite skip_blanks by assumption.
  assert (X : read_sign (skip_space (sg ++ digits ds ++ rest)) = (neg, digits ds ++ rest)).
  { destruct ds as [|d ds]; [congruence|]. inversion HD as [|? ? D1 D2]; subst.
    assert (NS : forall r, skip_space (digits (d :: ds) ++ r) = digits (d :: ds) ++ r).
    { intros r. cbn [digits map app skip_space]. do 10 (destruct d as [|d]; [reflexivity|]). lia. }
    assert (RS := digits_no_sign (d :: ds) ltac:(discriminate) HD rest).
    destruct neg; cbn [sign_text] in HS.
    - subst sg. cbn [chars app]. reflexivity.
    - destruct HS as [->| ->].
      + cbn [app]. rewrite NS. exact RS.
      + reflexivity. }
  rewrite X. rewrite read_digits_ok by (auto; now apply rest_no_digit).
  cbn [Nat.add]. destruct ds as [|d ds]; [congruence|]. cbn [List.length Nat.eqb].
  unfold signed, decimal. destruct neg; reflexivity.
Qed.

Lemma skip_split : forall s, exists ws, Forall blank ws /\ s = ws ++ skip_space s.
Proof.
  induction s as [|c s (ws & F & E)]; [exists []; auto|]. cbn [skip_space]. destruct (isspace c) eqn:B.
  - exists (c :: ws). split; [constructor; auto using space_blank|]. cbn [app]. now rewrite <- E.
  - exists []. auto.
Qed.
Lemma digits_split : forall s acc n v k r, read_digits 10 s acc n = (v, k, r) ->
  exists ds, s = digits ds ++ r /\ Forall (fun d => d < 10) ds /\ k = n + List.length ds /\ no_digit r.
Proof.
  induction s as [|c s IH]; intros acc n v k r H; cbn [read_digits] in H.
  - injection H as <- <- <-. exists []. split; [reflexivity|]. split; [constructor|]. split; [cbn; lia|exact I].
  - destruct (digit_value 10 c) as [d|] eqn:E.
    + destruct (IH _ _ _ _ _ H) as (ds & -> & F & K & N). destruct (digit_is c d E) as [L ->].
      exists (d :: ds). split; [reflexivity|]. split; [constructor; auto|]. cbn [List.length]. split; [lia|auto].
    + injection H as <- <- <-. exists []. split; [reflexivity|]. split; [constructor|]. split; [cbn; lia|exact E].
Qed.
Lemma no_digit_rest : forall r, no_digit r -> forall c t, r = c :: t -> ~ is_digit c.
Proof. intros r H c t -> (d & L & ->). unfold no_digit in H. rewrite digit_value_digit in H by auto. discriminate. Qed.

Lemma strtol_none : forall text, (forall z, ~ integer_text text z) -> strtol text = None.
Proof.
  intros text H. unfold strtol. destruct (read_sign (skip_space text)) as [neg s] eqn:ES.
  destruct (read_digits 10 s 0 0) as [[v n] r] eqn:ED.
  destruct (Nat.eqb_spec n 0) as [|NZ]; [reflexivity|]. exfalso.
  destruct (skip_split text) as (ws & F & E). destruct (digits_split _ _ _ _ _ _ ED) as (ds & E2 & F2 & K & N).
  assert (SG : exists sg, sign_text neg sg /\ skip_space text = sg ++ s).
  { unfold read_sign in ES. destruct (skip_space text) as [|c t]; [injection ES as <- <-; exists []; split; [left|]; reflexivity|].
    destruct (Ascii.eqb_spec c (ascii_of_nat 45)); [injection ES as <- <-; subst; exists (chars "-"); split; reflexivity|].
    destruct (Ascii.eqb_spec c (ascii_of_nat 43)); [injection ES as <- <-; subst; exists (chars "+"); split; [right|]; reflexivity|].
    injection ES as <- <-. exists []. split; [left|]; reflexivity. }
  destruct SG as (sg & S1 & S2). apply (H (signed neg (decimal ds))).
  rewrite E, S2, E2. constructor; auto.
  - intros ->. cbn in K. lia.
  - now apply no_digit_rest.
Qed.

Lemma print_integer : forall z, integer_text (print_d z) z.
Proof.
  intros z. unfold print_d. destruct (Z.ltb_spec z 0).
  - destruct (print_nat_digits (- z)) as (l & E & D & F & NE & _); [lia|]. rewrite E.
    assert (Q := an_integer [] true (chars "-") l [] (Forall_nil _) eq_refl NE F ltac:(discriminate)).
    cbn [app signed] in Q. rewrite D, Z.opp_involutive, app_nil_r in Q. exact Q.
  - destruct (print_nat_digits z) as (l & E & D & F & NE & _); [lia|]. rewrite E.
    assert (Q := an_integer [] false [] l [] (Forall_nil _) (or_introl eq_refl) NE F ltac:(discriminate)).
    cbn [app signed] in Q. rewrite D, app_nil_r in Q. exact Q.
Qed.

Definition is_long (z : Z) : Prop := (LONG_MIN <= z <= LONG_MAX)%Z.
Lemma nearest_is_long : forall z, is_long (nearest_long z).
Proof. intros z. unfold is_long, nearest_long, LONG_MIN, LONG_MAX. lia. Qed.
Lemma nearest_same : forall z, is_long z -> nearest_long z = z.
Proof. intros z. unfold is_long, nearest_long. lia. Qed.
Lemma strtol_print : forall z, is_long z -> strtol (print_d z) = Some z.
Proof. intros z H. rewrite (strtol_value _ z (print_integer z)). now rewrite nearest_same. Qed.

(** ** Programs *)
Lemma sample_ok : forall text z pid now, integer_text text z ->
  nipsample_seed text pid now = Ok (Some (print_d (nearest_long z), Z.modulo (nearest_long z) (2 ^ 32))).
Proof. intros text z pid now H. unfold nipsample_seed. rewrite (strtol_value _ z H). reflexivity. Qed.
Lemma sample_rejects : forall text pid now, (forall z, ~ integer_text text z) -> nipsample_seed text pid now = Ok None.
Proof. intros text pid now H. unfold nipsample_seed. now rewrite strtol_none. Qed.
Lemma strtol_long : forall text s, strtol text = Some s -> is_long s.
Proof.
  intros text s H. unfold strtol in H. destruct (read_sign _) as [neg r]. destruct (read_digits _ _ _ _) as [[v n] r2].
  destruct (Nat.eqb n 0); [discriminate|]. injection H as <-. apply nearest_is_long.
Qed.

(** ** The clock *)
Lemma seed_value : forall pid now, valid_time now -> (0 <= pid <= 65534)%Z ->
  random_seed None pid now = Ok (Z.lxor (seconds now) (32769 * pid), Z.lxor (seconds now) (32769 * pid)) /\
  (0 <= Z.lxor (seconds now) (32769 * pid) < 2 ^ 31)%Z.
Proof.
  intros pid [s m h] (HS & HM & HH) HP. unfold seconds. cbn [t_sec t_min t_hour] in *.
  assert (B : (0 <= Z.lxor (s + 60 * m + 3600 * h) (32769 * pid) < 2 ^ 31)%Z).
  { assert (N : (0 <= Z.lxor (s + 60 * m + 3600 * h) (32769 * pid))%Z) by (apply Z.lxor_nonneg; lia).
    split; [exact N|].
    destruct (Z.eq_dec (Z.lxor (s + 60 * m + 3600 * h) (32769 * pid)) 0) as [->|NZ]; [reflexivity|].
    apply Z.log2_lt_pow2; [lia|].
    eapply Z.le_lt_trans; [apply Z.log2_lxor; lia|].
    apply Z.max_lub_lt.
    - eapply Z.le_lt_trans; [apply Z.log2_le_mono with (b := (2 ^ 17)%Z); lia|reflexivity].
    - eapply Z.le_lt_trans; [apply Z.log2_le_mono with (b := (2 ^ 31 - 1)%Z); lia|reflexivity]. }
  split; [|exact B]. unfold random_seed. cbn [t_sec t_min t_hour].
  rewrite int_of_ok by (unfold INT_MAX; lia). cbn [bind]. rewrite int_of_ok by (unfold INT_MAX; lia). cbn [bind].
  rewrite int_of_ok by (unfold INT_MAX; lia). cbn [bind]. rewrite int_of_ok by (unfold INT_MAX; lia). cbn [bind].
  unfold int_shift. destruct (Z.ltb_spec pid 0); [lia|]. change (2 ^ 15)%Z with 32768%Z.
  rewrite int_of_ok by (unfold INT_MAX; lia). cbn [bind]. rewrite int_of_ok by (unfold INT_MAX; lia). cbn [bind].
  replace (pid + pid * 32768)%Z with (32769 * pid)%Z by ring. rewrite Z.mod_small by lia. reflexivity.
Qed.

Lemma seed_undefined : forall pid now, valid_time now -> (65535 <= pid)%Z -> random_seed None pid now = UB.
Proof.
  intros pid [s m h] (HS & HM & HH) HP. unfold random_seed. cbn [t_sec t_min t_hour] in *.
  rewrite int_of_ok by (unfold INT_MAX; lia). cbn [bind]. rewrite int_of_ok by (unfold INT_MAX; lia). cbn [bind].
  rewrite int_of_ok by (unfold INT_MAX; lia). cbn [bind]. rewrite int_of_ok by (unfold INT_MAX; lia). cbn [bind].
  unfold int_shift. destruct (Z.ltb_spec pid 0); [lia|]. change (2 ^ 15)%Z with 32768%Z.
  destruct (Z.leb_spec (pid * 32768) INT_MAX).
  - rewrite int_of_ok by lia. cbn [bind]. rewrite int_of_ub by (unfold INT_MAX; lia). reflexivity.
  - rewrite int_of_ub by auto. reflexivity.
Qed.

Lemma lxor_inj : forall a b c, Z.lxor a b = Z.lxor a c -> b = c.
Proof.
  intros a b c H. apply (f_equal (Z.lxor a)) in H. rewrite <- !Z.lxor_assoc, Z.lxor_nilpotent, !Z.lxor_0_l in H. exact H.
Qed.
Lemma seeds_differ : forall pid pid' now now', valid_time now -> valid_time now' ->
  (0 <= pid <= 65534)%Z -> (0 <= pid' <= 65534)%Z ->
  (pid <> pid' /\ seconds now = seconds now') \/ (pid = pid' /\ seconds now <> seconds now') ->
  exists s s', random_seed None pid now = Ok (s, s) /\ random_seed None pid' now' = Ok (s', s') /\ s <> s'.
Proof.
  intros pid pid' now now' V V' P P' H.
  destruct (seed_value pid now V P) as [E _]. destruct (seed_value pid' now' V' P') as [E' _].
  do 2 eexists. split; [exact E|]. split; [exact E'|]. intros Q. destruct H as [[N T]|[N T]].
  - rewrite T in Q. apply lxor_inj in Q. lia.
  - subst pid'. rewrite !(Z.lxor_comm _ (32769 * pid)) in Q. apply lxor_inj in Q. contradiction.
Qed.

Lemma benchmark_repeats : forall pid now printed u, valid_time now -> (0 <= pid)%Z ->
  nipbenchmark_seed pid now = Ok (printed, u) ->
  forall pid' now', nipsample_seed printed pid' now' = Ok (Some (printed, u)) /\
    niptrain_seed printed pid' now' = Ok (printed, u, true).
Proof.
  intros pid now printed u V P H pid' now'.
  destruct (Z.leb_spec pid 65534) as [L|L].
  - destruct (seed_value pid now V ltac:(lia)) as [E B]. unfold nipbenchmark_seed in H. rewrite E in H. cbn [bind] in H.
    remember (Z.lxor (seconds now) (32769 * pid)) as s. injection H as <- <-.
    assert (IL : is_long s) by (unfold is_long, LONG_MIN, LONG_MAX; lia).
    unfold nipsample_seed, niptrain_seed. rewrite (strtol_print _ IL). cbn [random_seed bind].
    rewrite Z.mod_small by lia. auto.
  - unfold nipbenchmark_seed in H. rewrite seed_undefined in H by (auto; lia). discriminate.
Qed.

Lemma sample_repeats : forall text pid now printed u, nipsample_seed text pid now = Ok (Some (printed, u)) ->
  forall pid' now', nipsample_seed printed pid' now' = Ok (Some (printed, u)) /\
    niptrain_seed printed pid' now' = Ok (printed, u, true).
Proof.
  intros text pid now printed u H pid' now'. unfold nipsample_seed in H.
  destruct (strtol text) as [s|] eqn:E; [|discriminate]. cbn [random_seed bind] in H. injection H as <- <-.
  unfold nipsample_seed, niptrain_seed. rewrite (strtol_print _ (strtol_long _ _ E)). auto.
Qed.
Lemma train_repeats : forall text pid now printed u b, valid_time now -> (0 <= pid)%Z ->
  niptrain_seed text pid now = Ok (printed, u, b) ->
  forall pid' now', niptrain_seed printed pid' now' = Ok (printed, u, true).
Proof.
  intros text pid now printed u b V P H pid' now'. unfold niptrain_seed in H. destruct (strtol text) as [s|] eqn:E.
  - assert (S1 : nipsample_seed text pid now = Ok (Some (printed, u))).
    { unfold nipsample_seed. rewrite E. cbn [random_seed bind] in *. congruence. }
    apply (sample_repeats _ _ _ _ _ S1).
  - assert (S1 : nipbenchmark_seed pid now = Ok (printed, u)).
    { unfold nipbenchmark_seed. destruct (random_seed None pid now) as [[s v]| |]; cbn [bind] in *; congruence. }
    apply (benchmark_repeats _ _ _ _ V P S1).
Qed.

Lemma wide_seeds : forall z, is_long z -> is_long (z + 2 ^ 32) -> forall pid now,
  exists u, random_seed (Some z) pid now = Ok (z, u) /\ random_seed (Some (z + 2 ^ 32)%Z) pid now = Ok ((z + 2 ^ 32)%Z, u).
Proof.
  intros z _ _ pid now. exists (z mod 2 ^ 32)%Z. split; [reflexivity|]. unfold random_seed. cbn [bind].
  replace ((z + 2 ^ 32) mod 2 ^ 32)%Z with (z mod 2 ^ 32)%Z; [reflexivity|].
  replace (z + 2 ^ 32)%Z with (z + 1 * 2 ^ 32)%Z by ring. now rewrite Z.mod_add.
Qed.

(** ** For the theorems *)
Lemma argument_ok : forall text z, integer_text text z ->
  forall pid now, exists printed,
    nipsample_seed text pid now = Ok (Some (printed, (nearest_long z mod 2 ^ 32)%Z)) /\
    niptrain_seed text pid now = Ok (printed, (nearest_long z mod 2 ^ 32)%Z, true) /\
    integer_text printed (nearest_long z).
Proof.
  intros text z H pid now. exists (print_d (nearest_long z)). split; [now apply sample_ok|]. split.
  - unfold niptrain_seed. rewrite (strtol_value _ z H). reflexivity.
  - apply print_integer.
Qed.
Lemma defined : forall pid now, valid_time now -> (0 <= pid <= 65534)%Z ->
  exists s, random_seed None pid now = Ok (s, s) /\ (0 <= s < 2 ^ 31)%Z.
Proof. intros pid now V P. eexists. now apply seed_value. Qed.
Lemma programs_undefined : forall pid now, valid_time now -> (65535 <= pid)%Z ->
  nipbenchmark_seed pid now = UB /\
  forall text, (forall z, ~ integer_text text z) -> niptrain_seed text pid now = UB.
Proof.
  intros pid now V P. unfold nipbenchmark_seed. rewrite seed_undefined by auto. split; [reflexivity|].
  intros text H. unfold niptrain_seed. rewrite (strtol_none _ H), seed_undefined by auto. reflexivity.
Qed.
Lemma collision : exists pid pid' now now' r, valid_time now /\ valid_time now' /\
  pid <> pid' /\ (0 < pid <= 65534)%Z /\ (0 < pid' <= 65534)%Z /\
  random_seed None pid now = Ok r /\ random_seed None pid' now' = Ok r.
Proof.
  exists 1000%Z, 1001%Z, (mkTime 0 0 0), (mkTime 9 6 9). eexists. unfold valid_time. cbn [t_sec t_min t_hour].
  split; [lia|]. split; [lia|]. split; [lia|]. split; [lia|]. split; [lia|]. split; vm_compute; reflexivity.
Qed.
Lemma wide_texts : forall text text' z, (0 <= z)%Z -> (z + 2 ^ 32 <= LONG_MAX)%Z ->
  integer_text text z -> integer_text text' (z + 2 ^ 32)%Z ->
  forall pid now, exists printed printed' u, printed <> printed' /\
    nipsample_seed text pid now = Ok (Some (printed, u)) /\ nipsample_seed text' pid now = Ok (Some (printed', u)).
Proof.
  intros text text' z Z0 ZM H H' pid now.
  assert (L : is_long z) by (unfold is_long, LONG_MIN; lia).
  assert (L' : is_long (z + 2 ^ 32)) by (unfold is_long, LONG_MIN; lia).
  exists (print_d z), (print_d (z + 2 ^ 32)), (z mod 2 ^ 32)%Z. split.
  - intros E. apply (f_equal strtol) in E. rewrite !strtol_print in E by auto. injection E as E. lia.
  - rewrite (sample_ok _ _ pid now H), (sample_ok _ _ pid now H'), !nearest_same by auto. split; [reflexivity|].
    destruct (wide_seeds z L L' pid now) as (u & E1 & E2). unfold random_seed in E1, E2. cbn [bind] in E1, E2. congruence.
Qed.
Lemma train_differs : forall text pid now, (forall z, ~ integer_text text z) ->
  valid_time now -> (0 <= pid <= 65534)%Z ->
  exists printed u, niptrain_seed text pid now = Ok (printed, u, false) /\
    niptrain_seed printed pid now = Ok (printed, u, true).
Proof.
  intros text pid now H V P. destruct (seed_value pid now V P) as [E _].
  assert (T : exists u, niptrain_seed text pid now = Ok (print_d (Z.lxor (seconds now) (32769 * pid)), u, false)).
  { unfold niptrain_seed. rewrite (strtol_none _ H), E. cbn [bind]. eauto. }
  destruct T as [u T]. do 2 eexists. split; [exact T|]. apply (train_repeats _ _ _ _ _ _ V (proj1 P) T).
Qed.

Lemma text_value : forall text z, integer_text text z -> exists s, strtol text = Some s.
Proof. intros text z H. rewrite (strtol_value _ _ H). eauto. Qed.
Lemma case_text : integer_text (chars " -12x") (-12) /\ integer_text (chars "4294967301") (5 + 2 ^ 32) /\
  integer_text (chars "5") 5 /\ forall z, ~ integer_text (chars "random") z.
Proof.
  split; [|split; [|split]].
  - refine (an_integer (chars " ") true (chars "-") [1;2] (chars "x") _ eq_refl _ _ _).
    + repeat constructor.
    + discriminate.
    + repeat constructor.
    + intros c r E (d & L & ->). injection E as E _. do 10 (destruct d as [|d]; [discriminate|]). lia.
  - exact (print_integer 4294967301).
  - exact (print_integer 5).
  - intros z H. destruct (text_value _ _ H) as [s E]. discriminate.
Qed.
