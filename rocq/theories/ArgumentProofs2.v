(** * Proofs about numbers given as arguments: files and cases *)
From Coq Require Import String Ascii QArith Qcanon.
From Verif Require Import Base StringSpec PotentialModel VariableModel NipModel SeriesFileModel SeriesFileSpec ParseModel ParseSpec ParseCheck
  NetLexModel NetGrammarModel NetSpec NetCheck WriteSpec ToolModel ToolSpec ToolModel2 ToolSpec2 ToolCheck ToolProofs8 SeedSpec SeedModel SeedProofs
  ArgumentSpec ArgumentModel ArgumentProofs.
Import ListNotations.
Open Scope nat_scope.
Local Open Scope list_scope.
Local Notation len := List.length.
Local Notation chars := list_ascii_of_string.

Lemma positive_digits : forall ds, (1 <= decimal ds)%Z -> ds <> [].
Proof. intros [|d ds] H; [cbn in H; lia|discriminate]. Qed.
Lemma digits_double : forall ds, (1 <= decimal ds)%Z -> Forall (fun d => d < 10) ds ->
  double_text (digits ds) (D_number (Q2Qc (inject_Z (decimal ds)))).
Proof.
  intros ds H F. exact (text_number [] (digits ds) _ (Forall_nil _) (integer_numeral ds (positive_digits ds H) F)).
Qed.

Lemma main_file : forall k1 k2 c net_text t, net_file k1 k2 c net_text t ->
  forall fuel disk generator pid now net seed ns ts out rest z, disk net = Some net_text -> n_nodes t <> [] ->
  plain_names (named_in t) -> (Z.of_nat (line_width (named_in t)) <= 9999)%Z -> ParseSpec.size t <= fuel ->
  integer_text seed z -> Forall (fun d => d < 10) (ns ++ ts) ->
  (1 <= decimal ns <= 1000000)%Z -> (1 <= decimal ts <= 1000000)%Z ->
  exists f cols ss,
    nipsample_main fuel k1 k2 (fresh_globals c) disk generator pid now (net :: seed :: digits ns :: digits ts :: out :: rest)
    = Ok (mkFinished 0 (Some f)) /\
    data_file t f cols ss /\ Z.of_nat (len ss) = decimal ns /\
    forall s, In s ss -> Z.of_nat (s_length s) = decimal ts /\ s_hidden s = [].
Proof.
  intros k1 k2 c net_text t N fuel disk generator pid now net seed ns ts out rest z D NE P W S Z F A B.
  apply Forall_app in F. destruct F as [F1 F2].
  rewrite (main_run fuel k1 k2 (fresh_globals c) disk generator pid now net seed (digits ns) (digits ts) out rest z
             (Q2Qc (inject_Z (decimal ns))) (Q2Qc (inject_Z (decimal ts))) (decimal ns) (decimal ts) Z
             (digits_double ns ltac:(lia) F1) (integer_amount _ A) (integer_fraction _)
             (digits_double ts ltac:(lia) F2) (integer_amount _ B) (integer_fraction _)).
  rewrite D.
  destruct (C80_lemma k1 k2 c net_text t N fuel (Z.to_nat (decimal ns)) (Z.to_nat (decimal ts))
              (generator (nearest_long z mod 2 ^ 32)%Z) NE P W S ltac:(lia) ltac:(lia)) as (f & cols & ss & E & DF & H).
  exists f, cols, ss. split; [exact E|]. split; [exact DF|]. split.
  - assert (L : len (seq 0 (Z.to_nat (decimal ns))) = len ss) by (clear -H; induction H; cbn [List.length]; congruence).
    rewrite seq_length in L. rewrite <- L. lia.
  - intros s I. assert (Q : exists i, s_length s = Z.to_nat (decimal ts) /\ s_hidden s = [] /\ i = 0).
    { clear -H I. induction H as [|i y l l' (X & Y & _) _ IH]; [destruct I|]. destruct I as [<-|I]; [exists 0; auto|auto]. }
    destruct Q as (_ & Q & R & _). split; [rewrite Q; lia|exact R].
Qed.

(** ** Thresholds *)
Lemma threshold_both : forall text q, double_text text (D_number q) ->
  ((0 < q)%Q /\ (q <= 1)%Q -> read_threshold text = Some (D_number q)) /\
  (~ ((0 < q)%Q /\ (q <= 1)%Q) -> read_threshold text = None).
Proof.
  intros text q T. destruct (threshold_number text q T) as [(E & A)|[E A]]; split; intros H; try exact E; exfalso; auto.
Qed.
Lemma lowest_both : forall text q, double_text text (D_number q) ->
  ((q < 0)%Q -> read_lowest text = Some (D_number q)) /\ ((0 <= q)%Q -> read_lowest text = None).
Proof.
  intros text q T. split; intros H; [now apply lowest_in|]. apply (lowest_out text (D_number q)); auto.
Qed.
Lemma both_none : forall text, no_double_text text -> read_threshold text = None /\ read_lowest text = None.
Proof. intros text H. unfold read_threshold, read_lowest. rewrite (full_none _ H). auto. Qed.
Lemma both_nan : forall text, double_text text D_nan -> read_threshold text = Some D_nan /\ read_lowest text = Some D_nan.
Proof. intros text H. unfold read_threshold, read_lowest. rewrite (full_text _ _ H). auto. Qed.
Lemma both_infinite : forall text neg, double_text text (D_infinite neg) ->
  read_threshold text = None /\ read_lowest text = if neg then Some (D_infinite true) else None.
Proof. intros text neg H. unfold read_threshold, read_lowest. rewrite (full_text _ _ H). destruct neg; auto. Qed.
Lemma iterations_both : forall text,
  (forall z, integer_text text z -> read_iterations text = nearest_long z) /\
  ((forall z, ~ integer_text text z) -> read_iterations text = LONG_MAX).
Proof.
  intros text. unfold read_iterations. split; [intros z H; now rewrite (strtol_value _ z H)|].
  intros H. now rewrite (strtol_none _ H).
Qed.

(** ** Cases *)
Lemma case_amounts :
  read_amount (chars "12") = Ok (Some 12%Z) /\ read_amount (chars " 2.5e1x") = Ok (Some 25%Z) /\
  read_amount (chars "0.5") = Ok (Some 0%Z) /\ read_amount (chars "-3") = Ok None /\ read_amount (chars "ten") = Ok None /\
  read_amount (chars "1000001") = Ok None /\ read_amount (chars "1e10") = UB /\ read_amount (chars "nan") = UB /\
  read_amount (chars "-Infinity") = UB /\ read_threshold (chars "0.001") <> None /\ read_threshold (chars "1.1") = None.
Proof. repeat split; try (vm_compute; reflexivity). vm_compute. discriminate. Qed.

Lemma half_text : double_text (chars "0.5") (D_number (Q2Qc (1 # 2))).
Proof.
  assert (H := text_number [] _ _ (Forall_nil _)
    (numeral_of false [] [0] [5] (chars ".") [] 0%Z (or_introl eq_refl)
       ltac:(repeat constructor; lia) ltac:(discriminate) (or_introl eq_refl) no_exponent)).
  match type of H with double_text _ (D_number ?q) => replace q with (Q2Qc (1 # 2)) in H by (apply Qc_is_canon; vm_compute; reflexivity) end.
  exact H.
Qed.
Lemma ten_digits : double_text (chars "1e10") (D_number (Q2Qc (inject_Z 10000000000))).
Proof.
  assert (X := exponent (chars "e") false [] [1; 0] (or_introl eq_refl) (or_introl eq_refl) ltac:(discriminate) ltac:(repeat constructor; lia)).
  assert (H := text_number [] _ _ (Forall_nil _)
    (numeral_of false [] [1] [] [] _ _ (or_introl eq_refl)
       ltac:(repeat constructor; lia) ltac:(discriminate) (or_intror (conj eq_refl eq_refl)) X)).
  match type of H with double_text _ (D_number ?q) => replace q with (Q2Qc (inject_Z 10000000000)) in H by (apply Qc_is_canon; vm_compute; reflexivity) end.
  exact H.
Qed.
Lemma minus_three : double_text (chars "-3") (D_number (Q2Qc (inject_Z (-3)))).
Proof.
  assert (H := text_number [] _ _ (Forall_nil _)
    (numeral_of true (chars "-") [3] [] [] [] 0%Z eq_refl
       ltac:(repeat constructor; lia) ltac:(discriminate) (or_intror (conj eq_refl eq_refl)) no_exponent)).
  match type of H with double_text _ (D_number ?q) => replace q with (Q2Qc (inject_Z (-3))) in H by (apply Qc_is_canon; vm_compute; reflexivity) end.
  exact H.
Qed.
Lemma case_texts : good_amount (chars "12") /\ bad_amount (chars "-3") /\ bad_amount (chars "ten") /\
  wild_amount (chars "1e10") /\ wild_amount (chars "nan") /\ double_text (chars " -INF") (D_infinite true) /\
  decimal [1; 2] = 12%Z /\ digits [1; 2] = chars "12".
Proof.
  split; [exists (Q2Qc (inject_Z 12)); split; [exact (digits_double [1; 2] ltac:(cbn; lia) ltac:(repeat constructor; lia))|now apply integer_amount]|].
  split. { right. eexists. split; [exact minus_three|]. unfold int_range, amount. rewrite integer_value.
    split; [split; reflexivity|]. intros [H _]. discriminate H. }
  split. { left. apply (text_other [] "t"%char (chars "en")); [constructor| |reflexivity]. intros [H|H]; cbn in H; lia. }
  split. { eexists. split; [exact ten_digits|]. intros q E. injection E as <-. unfold int_range. rewrite integer_value. intros [_ H]. discriminate H. }
  split. { eexists. split; [exact (text_nan [] false [] (chars "nan") (Forall_nil _) (or_introl eq_refl) eq_refl)|discriminate]. }
  split. { apply (text_infinite (chars " ") true (chars "-") (chars "INF")); [|reflexivity|left; reflexivity].
    constructor; [left; reflexivity|constructor]. }
  split; reflexivity.
Qed.

Lemma main_small : exists disk length_ q, double_text length_ (D_number q) /\ (0 < q)%Q /\ (q < 1)%Q /\
  net_file kz kz 0 px_text px_net /\ disk (chars "net") = Some px_text /\
  forall generator pid now,
  nipsample_main 3 kz kz (fresh_globals 0) disk generator pid now
    [chars "net"; chars "1"; chars "2"; length_; chars "out"]
  = Ok (mkFinished 0 (Some (chars "X0,X,Y


"))).
Proof.
  exists (fun _ => Some px_text), (chars "0.5"), (Q2Qc (1 # 2)). split; [exact half_text|].
  split; [reflexivity|]. split; [reflexivity|]. split; [exact tx_net_file|]. split; [reflexivity|].
  intros generator pid now. vm_compute. reflexivity.
Qed.
