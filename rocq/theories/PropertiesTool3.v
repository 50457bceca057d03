(** * niptrain, from file to file (Property C81) *)
From Coq Require Import String Ascii QArith Qcanon.
From Verif Require Import Base StringSpec PotentialModel PotentialSpec VariableModel AssignSpec JoinTreeSpec NipModel NipSpec LearnModel LearnSpec
  SeriesFileModel SeriesFileSpec ParseModel ParseSpec ParseCheck NetLexModel NetGrammarModel NetSpec NetCheck WriteModel WriteSpec WriteCheck
  ToolModel ToolModel3 ToolSpec ToolSpec3 ToolCheck ToolCheck3 ToolProofs12 ToolProofs14.
Import ListNotations.
Open Scope nat_scope.
Local Notation len := List.length.

(** ** C81: niptrain

    If niptrain ends, its status is 0 and it has written a NET file.  The tables
    [u] behind this file belong to the same network, are distributions without
    zeros and give the data at least the probability asked for.  They result from
    at least three estimates that start from random tables or from earlier tables
    without priors; the probabilities printed last are those of these estimates.
    Up to 32 iterations there is only one batch, and it ends when the probability
    does not improve any more or the iterations are used up.  The file contains
    the tables rounded to six decimals and can be read again. *)
Theorem C81_trained : forall k1 k2 c net_text t, net_file k1 k2 c net_text t -> printable t ->
  forall data_text cols ss, data_file t data_text cols ss -> ss <> [] -> cols <> [] ->
  forall rnd, (forall n k v i, (0 < rnd n k v i)%Qc) ->
  forall randomise, randomise = true \/ positive_tables t ->
  forall growth tiny low max_iterations fuel batches,
  let result := niptrain fuel batches k1 k2 (fresh_globals c) (Some net_text) (Some data_text) randomise growth tiny low max_iterations rnd in
  result = NoFuel \/
  exists text curve u, result = Ok (0%Z, Some text, curve) /\ same_network t u /\ proper u /\ positive_tables u /\
    (exists before ls u1, curve = (before ++ ls)%list /\ 3 <= len ls /\
       started rnd ss t (negb randomise) u1 /\ estimates ss u1 ls u /\
       ((max_iterations <= 32)%Z -> before = [] /\
          (~ improves growth (nth (len ls - 2) ls 0%Qc) (last ls 0%Qc) \/ (max_iterations <= Z.of_nat (len ls))%Z))) /\
    last curve 0%Qc = probability u ss /\ (low <= probability u ss)%Qc /\ (probability u ss <= 1)%Qc /\
    len curve <= Z.to_nat (Z.max 1 max_iterations) + 2 /\
    exists ks size,
      (exists toks ts, text_tokens net_text toks /\ Forall2 reads_as toks ts /\ document t ks size ts) /\
      exists toks ts t', text_tokens text toks /\ Forall2 reads_as toks ts /\ document t' (map labelled ks) size ts /\
        net_ok t' /\ same_declarations t t' /\
        (forall v a, v < ParseSpec.size t -> valid (card_in t) a -> rounded (WriteSpec.entry u v a) (WriteSpec.entry t' v a)) /\
        forall k1 k2 c, cliques_fit k1 k2 t -> (c + Z.of_nat (ParseSpec.size t) <= LONG_MAX)%Z ->
          exists names2 pages2 m2 g2, load k1 k2 (fresh_globals c) text = Ok (Some (names2, pages2, size, m2, g2)) /\ parsed t' names2 m2.
Proof. intros k1 k2 c net_text t NF PR data_text cols ss DF NE NC rnd RP randomise PO growth tiny low mx fuel batches.
  exact (C81_lemma k1 k2 c net_text t NF PR data_text cols ss DF NE NC rnd RP randomise PO growth tiny low mx fuel batches).
Qed.
Print Assumptions C81_trained.

(** The loop over the batches always ends: more fuel for it changes nothing.  So
    the only way not to end is to begin another run forever. *)
Theorem C81_runs_end : forall k1 k2 c net_text t, net_file k1 k2 c net_text t -> printable t ->
  forall data_text cols ss, data_file t data_text cols ss -> ss <> [] -> cols <> [] ->
  forall rnd, (forall n k v i, (0 < rnd n k v i)%Qc) ->
  forall randomise, randomise = true \/ positive_tables t ->
  forall growth tiny low max_iterations fuel b b', Z.to_nat max_iterations < b -> Z.to_nat max_iterations < b' ->
  niptrain fuel b k1 k2 (fresh_globals c) (Some net_text) (Some data_text) randomise growth tiny low max_iterations rnd =
  niptrain fuel b' k1 k2 (fresh_globals c) (Some net_text) (Some data_text) randomise growth tiny low max_iterations rnd.
Proof. exact C81_batches_lemma. Qed.
Print Assumptions C81_runs_end.

(** It never ends if no tables give the data the probability asked for. *)
Theorem C81_endless : forall k1 k2 c net_text t, net_file k1 k2 c net_text t -> printable t ->
  forall data_text cols ss, data_file t data_text cols ss -> ss <> [] -> cols <> [] ->
  forall rnd, (forall n k v i, (0 < rnd n k v i)%Qc) ->
  forall randomise, randomise = true \/ positive_tables t ->
  forall growth tiny low max_iterations,
  (forall u, same_network t u -> proper u -> positive_tables u -> (probability u ss <= 1)%Qc -> (probability u ss < low)%Qc) ->
  forall fuel batches,
  niptrain fuel batches k1 k2 (fresh_globals c) (Some net_text) (Some data_text) randomise growth tiny low max_iterations rnd = NoFuel.
Proof. exact C81_endless_lemma. Qed.
Print Assumptions C81_endless.

Definition numbers : nat -> nat -> nat -> nat -> Qc := fun _ _ _ i => Q2Qc (inject_Z (Z.of_nat (1 + i))).
Lemma numbers_positive : forall n k v i, (0 < numbers n k v i)%Qc.
Proof. intros n k v i. unfold numbers, Qclt. cbn [this Q2Qc]. rewrite !Qred_correct. unfold Qlt. cbn [Qnum Qden inject_Z]. lia. Qed.
Lemma px_positive : positive_tables px_net.
Proof.
  intros v a Hv Ha. change (ParseSpec.size px_net) with 3 in Hv. assert (A0 := Ha 0). assert (A1 := Ha 1). assert (A2 := Ha 2).
  change (card_in px_net 0) with 3 in A0. change (card_in px_net 1) with 2 in A1. change (card_in px_net 2) with 2 in A2.
  unfold WriteSpec.entry, den.
  destruct v as [|[|[|v]]]; [| | |lia].
  - change (family_of px_net (decl_of px_net 0)) with [0; 1]. cbn [map]. destruct (a 0) as [|[|[|]]], (a 1) as [|[|]]; try lia; reflexivity.
  - change (family_of px_net (decl_of px_net 1)) with [1; 2]. cbn [map]. destruct (a 1) as [|[|]], (a 2) as [|[|]]; try lia; reflexivity.
  - change (family_of px_net (decl_of px_net 2)) with [2]. cbn [map]. destruct (a 2) as [|[|]]; try lia; reflexivity.
Qed.

(** niptrain does not always end, although the data are possible and the numbers
    are accepted (the threshold is positive, the minimum likelihood negative). *)
Theorem C81_ends_refuted : ~ forall k1 k2 c net_text t, net_file k1 k2 c net_text t -> printable t -> positive_tables t ->
  forall data_text cols ss, data_file t data_text cols ss -> ss <> [] -> cols <> [] ->
  forall rnd, (forall n k v i, (0 < rnd n k v i)%Qc) ->
  forall growth tiny low max_iterations, (1 < growth)%Qc -> (tiny <= 1)%Qc -> (0 < low)%Qc -> (low < 1)%Qc -> (0 < max_iterations)%Z -> exists fuel batches,
  niptrain fuel batches k1 k2 (fresh_globals c) (Some net_text) (Some data_text) true growth tiny low max_iterations rnd <> NoFuel.
Proof.
  intros H.
  destruct (H kz kz 0%Z px_text px_net tx_net_file px_printable px_positive cx_data tx_cols cx_series cx_data_file
              ltac:(discriminate) ltac:(discriminate) numbers numbers_positive (1 + 1)%Qc 0%Qc (Q2Qc (1 # 2)) 100%Z
              ltac:(reflexivity) ltac:(discriminate) ltac:(reflexivity) ltac:(reflexivity) ltac:(reflexivity)) as (fuel & batches & K).
  apply K. apply (C81_endless kz kz 0%Z px_text px_net tx_net_file px_printable cx_data tx_cols cx_series cx_data_file
              ltac:(discriminate) ltac:(discriminate) numbers numbers_positive true (or_introl eq_refl)).
  intros u S PR PT _. now apply cx_all.
Qed.
Print Assumptions C81_ends_refuted.

(** But the first run is the last one if it is not asked for too much: if the data
    are possible for some tables and the random numbers are not too different, all
    thresholds and demands beyond some limit let it end. *)
Theorem C81_ends : forall k1 k2 c net_text t, net_file k1 k2 c net_text t -> printable t ->
  forall data_text cols ss, data_file t data_text cols ss -> ss <> [] -> cols <> [] ->
  forall rnd lo hi, (0 < lo)%Qc -> (forall n k v i, (lo <= rnd n k v i)%Qc /\ (rnd n k v i <= hi)%Qc) ->
  forall randomise, randomise = true \/ positive_tables t ->
  (exists u, same_network t u /\ probability u ss <> 0%Qc) ->
  exists b, (0 < b)%Qc /\
    forall growth tiny low max_iterations, (1 <= growth * b)%Qc -> (tiny <= 1)%Qc -> (low <= b)%Qc ->
    forall fuel batches, 0 < fuel -> Z.to_nat max_iterations < batches ->
    niptrain fuel batches k1 k2 (fresh_globals c) (Some net_text) (Some data_text) randomise growth tiny low max_iterations rnd <> NoFuel.
Proof. exact C81_ends_lemma. Qed.
Print Assumptions C81_ends.

Definition few_numbers : nat -> nat -> nat -> nat -> Qc := fun _ _ _ i => if Nat.even i then 1%Qc else (1 + 1)%Qc.
Example C81_ends_case : (forall n k v i, (1 <= few_numbers n k v i)%Qc /\ (few_numbers n k v i <= 1 + 1)%Qc) /\
  (exists u, same_network px_net u /\ probability u tx_series <> 0%Qc) /\
  exists growth fuel batches, (1 < growth)%Qc /\
    niptrain fuel batches kz kz (fresh_globals 0) (Some px_text) (Some tx_data) true growth 0%Qc 0%Qc 100 few_numbers <> NoFuel.
Proof.
  assert (A : forall n k v i, (1 <= few_numbers n k v i)%Qc /\ (few_numbers n k v i <= 1 + 1)%Qc).
  { intros n k v i. unfold few_numbers. destruct (Nat.even i); split; discriminate. }
  assert (B : exists u, same_network px_net u /\ probability u tx_series <> 0%Qc).
  { exists px_net. split; [now repeat split|]. intros E. apply (f_equal this) in E. vm_compute in E. discriminate E. }
  split; [exact A|]. split; [exact B|].
  destruct (C81_ends kz kz 0%Z px_text px_net tx_net_file px_printable tx_data tx_cols tx_series tx_data_file
              ltac:(discriminate) ltac:(discriminate) few_numbers 1%Qc (1 + 1)%Qc ltac:(reflexivity) A true (or_introl eq_refl) B) as (b & PB & H).
  exists (1 + 1 + / b)%Qc, 1, 101. split.
  - apply Qclt_le_trans with (1 + 1)%Qc; [reflexivity|]. rewrite <- (Qcplus_0_r (1 + 1)) at 1. apply Qcplus_le_compat; [apply Qcle_refl|].
    apply Qclt_le_weak. now apply SliceProofs4.Qc_inv_pos.
  - apply H; [|discriminate|now apply Qclt_le_weak|lia|cbn; lia].
    rewrite Qcmult_plus_distr_l. rewrite (Qcmult_comm (/ b)), Qcmult_inv_r by (now apply ToolProofs9.Qc_pos_neq).
    rewrite <- (Qcplus_0_l 1) at 1. apply Qcplus_le_compat; [|apply Qcle_refl]. apply Qclt_le_weak. now apply SliceProofs4.Qc_mul_pos.
Qed.

Example C81_case : net_file kz kz 0 px_text px_net /\ printable px_net /\ positive_tables px_net /\
  data_file px_net tx_data tx_cols tx_series /\ tx_series <> [] /\ tx_cols <> [] /\ (forall n k v i, (0 < numbers n k v i)%Qc).
Proof.
  split; [exact tx_net_file|]. split; [exact px_printable|]. split; [exact px_positive|]. split; [exact tx_data_file|].
  split; [discriminate|]. split; [discriminate|]. exact numbers_positive.
Qed.
