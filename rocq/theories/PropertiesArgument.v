(** * C101: Numbers given as arguments of programs *)
From Coq Require Import String Ascii QArith Qcanon.
From Verif Require Import Base StringSpec PotentialModel VariableModel NipModel SeriesFileModel SeriesFileSpec ParseModel ParseSpec ParseCheck
  NetLexModel NetGrammarModel NetSpec NetCheck WriteSpec ToolModel ToolSpec ToolModel2 ToolSpec2 ToolCheck SeedSpec SeedModel
  ArgumentSpec ArgumentModel ArgumentProofs ArgumentProofs2.
Import ListNotations.
Open Scope nat_scope.
Local Open Scope list_scope.
Local Notation len := List.length.
Local Notation chars := list_ascii_of_string.

(** C101: nipsample, given a seed and two amounts, is what it is for the numbers in the
    text, without their fractions, and for the random numbers of the seed. *)
Theorem C101_run : forall fuel k1 k2 g disk generator pid now net seed count length_ out rest z qn qt n t,
  integer_text seed z ->
  double_text count (D_number qn) -> amount qn -> without_fraction qn n ->
  double_text length_ (D_number qt) -> amount qt -> without_fraction qt t ->
  nipsample_main fuel k1 k2 g disk generator pid now (net :: seed :: count :: length_ :: out :: rest)
  = nipsample fuel k1 k2 g (disk net) (Z.to_nat n) (Z.to_nat t) (generator (nearest_long z mod 2 ^ 32)%Z).
Proof. exact main_run. Qed.

(** C101: from the text of the arguments to the file: as many series as the third
    argument says, of as many steps as the fourth says, if they are numbers from 1 to a
    million in digits. *)
Theorem C101_file : forall k1 k2 c net_text t, net_file k1 k2 c net_text t ->
  forall fuel disk generator pid now net seed ns ts out rest z, disk net = Some net_text -> n_nodes t <> [] ->
  plain_names (named_in t) -> (Z.of_nat (line_width (named_in t)) <= 9999)%Z -> ParseSpec.size t <= fuel ->
  integer_text seed z -> Forall (fun d => d < 10) (ns ++ ts) ->
  (1 <= decimal ns <= 1000000)%Z -> (1 <= decimal ts <= 1000000)%Z ->
  exists f cols ss,
    nipsample_main fuel k1 k2 (fresh_globals c) disk generator pid now (net :: seed :: digits ns :: digits ts :: out :: rest)
    = Ok (mkFinished 0 (Some f)) /\
    data_file t f cols ss /\ Z.of_nat (len ss) = decimal ns /\
    forall s, In s ss -> Z.of_nat (s_length s) = decimal ts /\ s_hidden s = [].
Proof. exact main_file. Qed.

(** C101: without an integer as seed, or with an amount that is no number or not above 0
    and up to a million (but not too large for an int), nipsample fails and writes
    nothing. *)
Theorem C101_rejected : forall fuel k1 k2 g disk generator pid now net seed count length_ out rest text r,
  disk net = Some text -> parse_file k1 k2 g text = Ok r ->
  (forall z, ~ integer_text seed z) \/
  (exists z, integer_text seed z) /\ (bad_amount count \/ good_amount count /\ bad_amount length_) ->
  nipsample_main fuel k1 k2 g disk generator pid now (net :: seed :: count :: length_ :: out :: rest) = Ok failed.
Proof. exact main_rejects. Qed.

(** Refuted: that amounts too large are rejected.  Those that no int holds, the infinities
    and what is not a number are converted before they are checked, which is not
    defined. *)
Theorem C101_large_refuted : forall fuel k1 k2 g disk generator pid now net seed count length_ out rest text x z,
  disk net = Some text -> parse_file k1 k2 g text = Ok (Some x) -> integer_text seed z ->
  wild_amount count \/ good_amount count /\ wild_amount length_ ->
  nipsample_main fuel k1 k2 g disk generator pid now (net :: seed :: count :: length_ :: out :: rest) = UB.
Proof. exact main_undefined. Qed.

(** Refuted: that amounts below 1 are rejected.  A length below 1 gives a file
    of series without steps, and the program succeeds. *)
Theorem C101_small_refuted : exists disk length_ q, double_text length_ (D_number q) /\ (0 < q)%Q /\ (q < 1)%Q /\
  net_file kz kz 0 px_text px_net /\ disk (chars "net") = Some px_text /\
  forall generator pid now,
  nipsample_main 3 kz kz (fresh_globals 0) disk generator pid now
    [chars "net"; chars "1"; chars "2"; length_; chars "out"]
  = Ok (mkFinished 0 (Some (chars "X0,X,Y


"))).
Proof. exact main_small. Qed.

(** Refuted: that the status tells that arguments are missing. *)
Theorem C101_missing_refuted : forall fuel k1 k2 g disk generator pid now argv, len argv < 5 ->
  nipsample_main fuel k1 k2 g disk generator pid now argv = Ok (mkFinished 0 None).
Proof. exact main_few. Qed.

(** C101: niptrain and nipbenchmark take thresholds above 0 up to 1, and log-likelihoods
    below 0. *)
Theorem C101_threshold : forall text q, double_text text (D_number q) ->
  ((0 < q)%Q /\ (q <= 1)%Q -> read_threshold text = Some (D_number q)) /\
  (~ ((0 < q)%Q /\ (q <= 1)%Q) -> read_threshold text = None).
Proof. exact threshold_both. Qed.
Theorem C101_lowest : forall text q, double_text text (D_number q) ->
  ((q < 0)%Q -> read_lowest text = Some (D_number q)) /\ ((0 <= q)%Q -> read_lowest text = None).
Proof. exact lowest_both. Qed.
Theorem C101_no_numbers : forall text, no_double_text text -> read_threshold text = None /\ read_lowest text = None.
Proof. exact both_none. Qed.

(** Refuted: that they take nothing else.  What is not a number passes as both, and minus
    infinity as a log-likelihood. *)
Theorem C101_nan_refuted : forall text, double_text text D_nan ->
  read_threshold text = Some D_nan /\ read_lowest text = Some D_nan.
Proof. exact both_nan. Qed.
Theorem C101_infinite : forall text neg, double_text text (D_infinite neg) ->
  read_threshold text = None /\ read_lowest text = if neg then Some (D_infinite true) else None.
Proof. exact both_infinite. Qed.

(** niptrain takes any integer as number of iterations, and any other text for no limit. *)
Theorem C101_iterations : forall text,
  (forall z, integer_text text z -> read_iterations text = nearest_long z) /\
  ((forall z, ~ integer_text text z) -> read_iterations text = LONG_MAX).
Proof. exact iterations_both. Qed.

Example C101_case :
  read_amount (chars "12") = Ok (Some 12%Z) /\ read_amount (chars " 2.5e1x") = Ok (Some 25%Z) /\
  read_amount (chars "0.5") = Ok (Some 0%Z) /\ read_amount (chars "-3") = Ok None /\ read_amount (chars "ten") = Ok None /\
  read_amount (chars "1000001") = Ok None /\ read_amount (chars "1e10") = UB /\ read_amount (chars "nan") = UB /\
  read_amount (chars "-Infinity") = UB /\ read_threshold (chars "0.001") <> None /\ read_threshold (chars "1.1") = None.
Proof. exact case_amounts. Qed.
Example C101_case_text : good_amount (chars "12") /\ bad_amount (chars "-3") /\ bad_amount (chars "ten") /\
  wild_amount (chars "1e10") /\ wild_amount (chars "nan") /\ double_text (chars " -INF") (D_infinite true) /\
  decimal [1; 2] = 12%Z /\ digits [1; 2] = chars "12".
Proof. exact case_texts. Qed.
Print Assumptions C101_run.
Print Assumptions C101_file.
Print Assumptions C101_rejected.
Print Assumptions C101_large_refuted.
Print Assumptions C101_small_refuted.
Print Assumptions C101_missing_refuted.
Print Assumptions C101_threshold.
Print Assumptions C101_lowest.
Print Assumptions C101_no_numbers.
Print Assumptions C101_nan_refuted.
Print Assumptions C101_infinite.
Print Assumptions C101_iterations.
