(** * What learning never lowers (Property C84) *)
From Coq Require Import String Ascii QArith Qcanon.
From Verif Require Import Base PotentialModel PotentialSpec VariableModel AssignSpec JoinTreeSpec NipModel NipSpec LearnModel LearnSpec
  SeriesFileModel SeriesFileSpec ParseModel ParseSpec ParseCheck NetLexModel NetGrammarModel NetSpec NetCheck WriteModel WriteSpec WriteCheck
  ToolModel ToolModel3 ToolSpec ToolSpec3 ToolSpec4 ToolCheck ParseProofs10 ParseProofs8 PropertiesTool3 EmProofs3.
Import ListNotations.
Open Scope nat_scope.
Local Open Scope list_scope.
Local Notation len := List.length.

(** ** C84: learning

    Learning with em_learn from random tables, for a model read from a NET file:
    the probabilities in the learning curve are those of tables [us].  The first
    of these are the random tables, each of the others is the next estimate after
    the one before, and the probability of the data times the product of all
    entries never decreases.  The model that results has the last of these
    tables.  (The probability of the data alone may decrease: C58.) *)
Theorem C84_learning : forall t, net_ok t -> children_first t -> two_slices t -> forall names m, parsed t names m ->
  forall ss, ss <> [] -> Forall (proper_series (named_in t)) ss ->
  forall rnd, (forall v i, (0 < rnd v i)%Qc) -> forall max_iterations growth tiny,
  exists m' o, em_learn (all_marked m) (map to_ts ss) (Some rnd) max_iterations growth tiny [] = Ok (m', o) /\
    (o_code o = NO_ERROR ->
     exists us, o_curve o = map (fun u => probability u ss) us /\ 3 <= len us /\ random_tables rnd t (hd t us) /\
       (forall u, In u us -> same_network t u /\ proper u /\ positive_tables u) /\
       (forall i, S i < len us -> next_estimate ss (nth i us t) (nth (S i) us t) /\
          (posterior ss (nth i us t) <= posterior ss (nth (S i) us t))%Qc) /\
       exists m2, same_model m' m2 /\ parsed (last us t) names m2).
Proof. exact C84_learning_lemma. Qed.
Print Assumptions C84_learning.

Example C84_learning_case : net_ok px_net /\ children_first px_net /\ two_slices px_net /\ (exists names m, parsed px_net names m) /\
  tx_series <> [] /\ Forall (proper_series (named_in px_net)) tx_series /\ (forall v i, (0 < numbers 0 0 v i)%Qc) /\
  (exists ts, In ts tx_series /\ 1 < s_length ts) /\ (exists v, from_before px_net v = true) /\
  (0 < weight px_net)%Qc /\ (weight px_net < 1)%Qc.
Proof.
  split; [exact px_ok|]. split; [exact px_children_first|]. split; [exact px_two_slices|]. split.
  { destruct (parse_succeeds px_net px_ok 0 kz kz ltac:(discriminate) px_fits) as (names & m & _ & _ & P). eauto. }
  split; [discriminate|]. split.
  { constructor; [|constructor; [|constructor]]; (split; [change (Permutation.Permutation ([1; 2] ++ [0]) [0; 1; 2]); apply (Permutation.Permutation_app_comm [1; 2] [0])|]);
      (split; [reflexivity|]); repeat constructor. }
  split; [apply numbers_positive|]. split; [eexists; split; [left; reflexivity|cbn; lia]|].
  split; [exists 2; vm_compute; reflexivity|]. split; vm_compute; reflexivity.
Qed.

(** The same for niptrain: in its last batch the weighted probability never
    decreases, and the file that it writes has the last of these tables, rounded
    to six decimals. *)
Theorem C84_training : forall k1 k2 c net_text t, net_file k1 k2 c net_text t -> printable t ->
  forall data_text cols ss, data_file t data_text cols ss -> ss <> [] -> cols <> [] ->
  forall rnd, (forall n k v i, (0 < rnd n k v i)%Qc) ->
  forall randomise, randomise = true \/ positive_tables t ->
  forall growth tiny low max_iterations fuel batches code text curve,
  niptrain fuel batches k1 k2 (fresh_globals c) (Some net_text) (Some data_text) randomise growth tiny low max_iterations rnd =
    Ok (code, Some text, curve) ->
  exists before us, curve = before ++ map (fun u => probability u ss) us /\ 3 <= len us /\
    (forall u, In u us -> same_network t u /\ proper u /\ positive_tables u) /\
    (forall i, S i < len us -> (posterior ss (nth i us t) <= posterior ss (nth (S i) us t))%Qc) /\
    exists toks ts t' ks size, text_tokens text toks /\ Forall2 reads_as toks ts /\ document t' ks size ts /\ same_declarations t t' /\
      forall v a, v < ParseSpec.size t -> valid (card_in t) a ->
        rounded (WriteSpec.entry (last us t) v a) (WriteSpec.entry t' v a).
Proof. exact C84_training_lemma. Qed.
Print Assumptions C84_training.

Example C84_training_case : exists growth fuel batches code text curve,
  niptrain fuel batches kz kz (fresh_globals 0) (Some px_text) (Some tx_data) true growth 0%Qc 0%Qc 100 few_numbers = Ok (code, Some text, curve).
Proof.
  destruct C81_ends_case as (A & _ & growth & fuel & batches & _ & K). exists growth, fuel, batches.
  assert (P : forall n k v i, (0 < few_numbers n k v i)%Qc) by (intros; eapply Qclt_le_trans; [|apply A]; reflexivity).
  destruct (C81_trained kz kz 0%Z px_text px_net tx_net_file px_printable tx_data tx_cols tx_series tx_data_file
              ltac:(discriminate) ltac:(discriminate) few_numbers P true (or_introl eq_refl) growth 0%Qc 0%Qc 100%Z fuel batches) as [E|(text & curve & u & E & _)];
    [congruence|]. eauto.
Qed.
