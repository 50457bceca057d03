(** * C99: Seeds of random numbers *)
From Coq Require Import String Ascii.
From Verif Require Import Base VariableModel NetSpec WriteModel SeedSpec SeedModel SeedProofs.
Import ListNotations.
Open Scope nat_scope.
Local Open Scope list_scope.
Local Notation chars := list_ascii_of_string.

(** C99: the argument of nipsample that begins with an integer seeds the generator with
    it: with the nearest value of type long, modulo 2^32, whatever process and time. *)
Theorem C99_argument : forall text z, integer_text text z ->
  forall pid now, exists printed,
    nipsample_seed text pid now = Ok (Some (printed, (nearest_long z mod 2 ^ 32)%Z)) /\
    niptrain_seed text pid now = Ok (printed, (nearest_long z mod 2 ^ 32)%Z, true) /\
    integer_text printed (nearest_long z).
Proof. exact argument_ok. Qed.

(** Other arguments are rejected by nipsample. *)
Theorem C99_rejected : forall text, (forall z, ~ integer_text text z) ->
  forall pid now, nipsample_seed text pid now = Ok None.
Proof. intros text H pid now. exact (sample_rejects text pid now H). Qed.

(** C99: the seed that is printed, given to a program, gives the same random numbers,
    whatever process and time. *)
Theorem C99_sample_repeated : forall text pid now printed u,
  nipsample_seed text pid now = Ok (Some (printed, u)) ->
  forall pid' now', nipsample_seed printed pid' now' = Ok (Some (printed, u)).
Proof. intros text pid now printed u H pid' now'. exact (proj1 (sample_repeats text pid now printed u H pid' now')). Qed.

Theorem C99_train_repeated : forall text pid now printed u b, valid_time now -> (0 <= pid)%Z ->
  niptrain_seed text pid now = Ok (printed, u, b) ->
  forall pid' now', niptrain_seed printed pid' now' = Ok (printed, u, true).
Proof. exact train_repeats. Qed.

(** The seed that nipbenchmark makes up can be given to the other programs. *)
Theorem C99_benchmark_repeated : forall pid now printed u, valid_time now -> (0 <= pid)%Z ->
  nipbenchmark_seed pid now = Ok (printed, u) ->
  forall pid' now', nipsample_seed printed pid' now' = Ok (Some (printed, u)) /\
    niptrain_seed printed pid' now' = Ok (printed, u, true).
Proof. exact benchmark_repeats. Qed.

(** C99: without an argument, seeds are defined for processes below 65535 ... *)
Theorem C99_defined : forall pid now, valid_time now -> (0 <= pid <= 65534)%Z ->
  exists s, random_seed None pid now = Ok (s, s) /\ (0 <= s < 2 ^ 31)%Z.
Proof. exact defined. Qed.

(** ... and differ between processes in the same second, and between seconds (of the day)
    for the same process. *)
Theorem C99_different : forall pid pid' now now', valid_time now -> valid_time now' ->
  (0 <= pid <= 65534)%Z -> (0 <= pid' <= 65534)%Z ->
  (pid <> pid' /\ seconds now = seconds now') \/ (pid = pid' /\ seconds now <> seconds now') ->
  exists s s', random_seed None pid now = Ok (s, s) /\ random_seed None pid' now' = Ok (s', s') /\ s <> s'.
Proof. exact seeds_differ. Qed.

(** Refuted: that they are defined for every process.  Above 65534 (Linux counts to
    4194304) an int overflows. *)
Theorem C99_process_refuted : forall pid now, valid_time now -> (65535 <= pid)%Z ->
  nipbenchmark_seed pid now = UB /\
  forall text, (forall z, ~ integer_text text z) -> niptrain_seed text pid now = UB.
Proof. exact programs_undefined. Qed.

(** Refuted: that different processes have different seeds at any time. *)
Theorem C99_different_refuted : exists pid pid' now now' r, valid_time now /\ valid_time now' /\
  pid <> pid' /\ (0 < pid <= 65534)%Z /\ (0 < pid' <= 65534)%Z /\
  random_seed None pid now = Ok r /\ random_seed None pid' now' = Ok r.
Proof. exact collision. Qed.

(** Refuted: that different seeds give different numbers: those that are 2^32 apart
    do not. *)
Theorem C99_wide_refuted : forall text text' z, (0 <= z)%Z -> (z + 2 ^ 32 <= LONG_MAX)%Z ->
  integer_text text z -> integer_text text' (z + 2 ^ 32)%Z ->
  forall pid now, exists printed printed' u, printed <> printed' /\
    nipsample_seed text pid now = Ok (Some (printed, u)) /\ nipsample_seed text' pid now = Ok (Some (printed', u)).
Proof. exact wide_texts. Qed.

(** Refuted: that niptrain repeats what it did when it is given the seed that it
    printed.  If it made the seed up, the parameters were not initialised at random;
    with the seed, they are. *)
Theorem C99_train_refuted : forall text pid now, (forall z, ~ integer_text text z) ->
  valid_time now -> (0 <= pid <= 65534)%Z ->
  exists printed u, niptrain_seed text pid now = Ok (printed, u, false) /\
    niptrain_seed printed pid now = Ok (printed, u, true).
Proof. exact train_differs. Qed.

(** A seed with a sign and something behind it, and one that is too large. *)
Example C99_case : forall pid now,
  nipsample_seed (chars " -12x") pid now = Ok (Some (chars "-12", 4294967284%Z)) /\
  nipsample_seed (chars "99999999999999999999") pid now = Ok (Some (chars "9223372036854775807", 4294967295%Z)) /\
  nipsample_seed (chars "random") pid now = Ok None.
Proof. intros. repeat split; vm_compute; reflexivity. Qed.
Example C99_case_text : integer_text (chars " -12x") (-12) /\ integer_text (chars "4294967301") (5 + 2 ^ 32) /\
  integer_text (chars "5") 5 /\ forall z, ~ integer_text (chars "random") z.
Proof. exact case_text. Qed.
Example C99_case_clock : valid_time (mkTime 59 4 13) /\ nipbenchmark_seed 1234 (mkTime 59 4 13) = Ok (chars "40481577", 40481577%Z) /\
  nipsample_seed (chars "40481577") 1 (mkTime 0 0 0) = Ok (Some (chars "40481577", 40481577%Z)).
Proof. split; [unfold valid_time; cbn; lia|split; vm_compute; reflexivity]. Qed.
Print Assumptions C99_argument.
Print Assumptions C99_rejected.
Print Assumptions C99_sample_repeated.
Print Assumptions C99_train_repeated.
Print Assumptions C99_benchmark_repeated.
Print Assumptions C99_defined.
Print Assumptions C99_different.
Print Assumptions C99_process_refuted.
Print Assumptions C99_different_refuted.
Print Assumptions C99_wide_refuted.
Print Assumptions C99_train_refuted.
