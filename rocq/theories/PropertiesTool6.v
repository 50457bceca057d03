(** * nipbenchmark, from file to file (Property C93) *)
From Coq Require Import String Ascii QArith Qcanon.
From Verif Require Import Base StringSpec PotentialModel PotentialSpec VariableModel AssignSpec JoinTreeSpec NipModel NipSpec LearnModel LearnSpec
  SeriesFileModel SeriesFileSpec ParseModel ParseSpec ParseCheck NetLexModel NetGrammarModel NetSpec NetCheck WriteModel WriteSpec WriteCheck
  ToolModel ToolModel5 ToolSpec ToolSpec3 ToolSpec6 ToolCheck ToolCheck3 ToolProofs19 PropertiesTool3.
Import ListNotations.
Open Scope nat_scope.
Local Open Scope list_scope.
Local Notation len := List.length.
Local Notation chars := list_ascii_of_string.

(** ** C93: nipbenchmark

    If nipbenchmark ends for at least two series, its status is 0 and it has
    written, for every series and step, the probabilities of the states of the
    variable: those by tables that were learned from the other series alone, given
    the records of this series except those of the variable itself ([predicts]). *)
Theorem C93_predicted : forall k1 k2 c net_text t, net_file k1 k2 c net_text t ->
  forall data_text cols ss, data_file t data_text cols ss -> 2 <= len ss ->
  forall rnd, (forall i k v x, (0 < rnd i k v x)%Qc) ->
  forall fuel growth tiny low symbol closed, In symbol (symbols t) ->
  let v := ParseSpec.number t symbol in
  let result := nipbenchmark fuel k1 k2 (fresh_globals c) (Some net_text) (Some data_text) true growth tiny low symbol rnd true closed in
  result = NoFuel \/
  exists groups lls,
    result = Ok (mkFinished 0 (Some (csv (map chars (states (node t v))) groups)), lls) /\
    len groups = len ss /\ len lls = len ss /\
    forall i, i < len ss -> predicts rnd 1024 growth low t ss v i (nth i groups []) (nth i lls []).
Proof. intros k1 k2 c net_text t NF data_text cols ss DF TWO rnd RP fuel growth tiny low symbol closed HS.
  exact (C93_lemma k1 k2 c net_text t NF data_text cols ss DF rnd TWO RP fuel growth tiny low symbol closed HS).
Qed.
Print Assumptions C93_predicted.

(** It fails without a file if there are less than two series, a number is invalid
    or the variable is unknown. *)
Theorem C93_rejects : forall k1 k2 c net_text t, net_file k1 k2 c net_text t ->
  forall data_text cols ss, data_file t data_text cols ss ->
  forall rnd fuel valid_numbers growth tiny low symbol opened closed,
  len ss < 2 \/ valid_numbers = false \/ ~ In symbol (symbols t) ->
  nipbenchmark fuel k1 k2 (fresh_globals c) (Some net_text) (Some data_text) valid_numbers growth tiny low symbol rnd opened closed = Ok (mkFinished (-1) None, []).
Proof. exact C93_rejects_lemma. Qed.
Print Assumptions C93_rejects.

(** The status is 0 although the file could not be opened. *)
Theorem C93_unwritten : forall k1 k2 c net_text t, net_file k1 k2 c net_text t ->
  forall data_text cols ss, data_file t data_text cols ss -> 2 <= len ss ->
  forall rnd, (forall i k v x, (0 < rnd i k v x)%Qc) ->
  forall fuel growth tiny low symbol closed, In symbol (symbols t) ->
  let result := nipbenchmark fuel k1 k2 (fresh_globals c) (Some net_text) (Some data_text) true growth tiny low symbol rnd false closed in
  result = NoFuel \/ exists lls, result = Ok (mkFinished 0 None, lls).
Proof. intros k1 k2 c net_text t NF data_text cols ss DF TWO rnd. exact (C93_unwritten_lemma k1 k2 c net_text t NF data_text cols ss DF rnd TWO). Qed.
Print Assumptions C93_unwritten.

(** It never ends if for one of the series no tables give the others the
    probability asked for. *)
Theorem C93_endless : forall k1 k2 c net_text t, net_file k1 k2 c net_text t ->
  forall data_text cols ss, data_file t data_text cols ss -> 2 <= len ss ->
  forall rnd, (forall i k v x, (0 < rnd i k v x)%Qc) ->
  forall growth tiny low symbol i, In symbol (symbols t) -> i < len ss ->
  (forall u, same_network t u -> proper u -> positive_tables u -> (probability u (all_but i ss) <= 1)%Qc -> (probability u (all_but i ss) < low i)%Qc) ->
  forall fuel closed,
  nipbenchmark fuel k1 k2 (fresh_globals c) (Some net_text) (Some data_text) true growth tiny low symbol rnd true closed = NoFuel.
Proof. intros k1 k2 c net_text t NF data_text cols ss DF TWO rnd. exact (C93_endless_lemma k1 k2 c net_text t NF data_text cols ss DF rnd TWO). Qed.
Print Assumptions C93_endless.

(** So it does not always end, although the data are possible and the numbers are
    accepted. *)
Theorem C93_ends_refuted : ~ forall k1 k2 c net_text t, net_file k1 k2 c net_text t -> positive_tables t ->
  forall data_text cols ss, data_file t data_text cols ss -> 2 <= len ss ->
  forall rnd, (forall i k v x, (0 < rnd i k v x)%Qc) ->
  forall growth tiny low symbol closed, (forall i, (1 < growth i)%Qc /\ (0 < low i)%Qc /\ (low i < 1)%Qc) -> (tiny <= 1)%Qc -> In symbol (symbols t) -> exists fuel,
  nipbenchmark fuel k1 k2 (fresh_globals c) (Some net_text) (Some data_text) true growth tiny low symbol rnd true closed <> NoFuel.
Proof.
  intros H. assert (IY : In "Y"%string (symbols px_net)) by (vm_compute; tauto).
  destruct (H kz kz 0%Z px_text px_net tx_net_file px_positive cx_data tx_cols cx_series cx_data_file ltac:(cbn; lia) numbers numbers_positive
              (fun _ => 1 + 1)%Qc 0%Qc (fun _ => Q2Qc (1 # 2)) "Y"%string true ltac:(intros; repeat split) ltac:(discriminate) IY) as (fuel & K).
  apply K. apply (C93_endless kz kz 0%Z px_text px_net tx_net_file cx_data tx_cols cx_series cx_data_file ltac:(cbn; lia) numbers numbers_positive
              (fun _ => 1 + 1)%Qc 0%Qc (fun _ => Q2Qc (1 # 2)) "Y"%string 2 IY ltac:(cbn; lia)).
  intros u S PR PT _. now apply cx_pair.
Qed.
Print Assumptions C93_ends_refuted.

(** One attempt per series is enough if it is not asked for too much. *)
Theorem C93_ends : forall k1 k2 c net_text t, net_file k1 k2 c net_text t ->
  forall data_text cols ss, data_file t data_text cols ss -> 2 <= len ss ->
  forall rnd, (forall i k v x, (0 < rnd i k v x)%Qc) ->
  forall lo hi, (0 < lo)%Qc -> (forall i k v x, (lo <= rnd i k v x)%Qc /\ (rnd i k v x <= hi)%Qc) ->
  (exists u, same_network t u /\ probability u ss <> 0%Qc) ->
  exists b : nat -> Qc, (forall i, (0 < b i)%Qc) /\
    forall growth tiny low, (forall i, i < len ss -> (1 <= growth i * b i)%Qc /\ (low i <= b i)%Qc) -> (tiny <= 1)%Qc ->
    forall fuel symbol closed, 0 < fuel -> In symbol (symbols t) ->
    nipbenchmark fuel k1 k2 (fresh_globals c) (Some net_text) (Some data_text) true growth tiny low symbol rnd true closed <> NoFuel.
Proof. intros k1 k2 c net_text t NF data_text cols ss DF TWO rnd. exact (C93_ends_lemma k1 k2 c net_text t NF data_text cols ss DF rnd TWO). Qed.
Print Assumptions C93_ends.

(** Two series of which one says nothing; the first theorem is about a run that
    ends. *)
Example C93_case : net_file kz kz 0 px_text px_net /\ data_file px_net tx_data tx_cols tx_series /\ 2 <= len tx_series /\
  (forall i k v x, (0 < few_numbers i k v x)%Qc) /\ In "Y"%string (symbols px_net) /\ ParseSpec.number px_net "Y" = 0 /\
  (exists growth low, (forall i, (1 < growth i)%Qc /\ (0 < low i)%Qc) /\ exists groups lls,
     nipbenchmark 1 kz kz (fresh_globals 0) (Some px_text) (Some tx_data) true growth 0%Qc low "Y" few_numbers true true =
       Ok (mkFinished 0 (Some (csv (map chars (states (node px_net 0))) groups)), lls) /\
     len groups = 2 /\ forall i, i < 2 -> predicts few_numbers 1024 growth low px_net tx_series 0 i (nth i groups []) (nth i lls [])).
Proof.
  assert (FP : forall i k v x, (0 < few_numbers i k v x)%Qc) by (intros; unfold few_numbers; destruct (Nat.even x); reflexivity).
  assert (FB : forall i k v x, (1 <= few_numbers i k v x)%Qc /\ (few_numbers i k v x <= 1 + 1)%Qc)
    by (intros; unfold few_numbers; destruct (Nat.even x); split; discriminate).
  assert (IY : In "Y"%string (symbols px_net)) by (vm_compute; tauto).
  assert (NY : ParseSpec.number px_net "Y" = 0) by reflexivity.
  split; [exact tx_net_file|]. split; [exact tx_data_file|]. split; [cbn; lia|]. split; [exact FP|]. split; [exact IY|]. split; [exact NY|].
  - destruct (C93_ends kz kz 0%Z px_text px_net tx_net_file tx_data tx_cols tx_series tx_data_file ltac:(cbn; lia) few_numbers FP
                1%Qc (1 + 1)%Qc ltac:(reflexivity) FB (proj1 (proj2 C81_ends_case))) as (b & PB & H).
    exists (fun i => 1 + 1 + / b i)%Qc, b. split.
    + intros i. split; [|auto]. apply Qclt_le_trans with (1 + 1)%Qc; [reflexivity|]. rewrite <- (Qcplus_0_r (1 + 1)) at 1.
      apply Qcplus_le_compat; [apply Qcle_refl|]. apply Qclt_le_weak. now apply SliceProofs4.Qc_inv_pos.
    + destruct (C93_predicted kz kz 0%Z px_text px_net tx_net_file tx_data tx_cols tx_series tx_data_file ltac:(cbn; lia) few_numbers FP
                  1 (fun i => 1 + 1 + / b i)%Qc 0%Qc b "Y"%string true IY) as [E|(gs & lls & E & L1 & L2 & Q)].
      * exfalso. revert E. apply H; [|discriminate|lia|exact IY]. intros i _. split; [|apply Qcle_refl].
        rewrite Qcmult_plus_distr_l. rewrite (Qcmult_comm (/ b i)), Qcmult_inv_r by (now apply ToolProofs9.Qc_pos_neq).
        rewrite <- (Qcplus_0_l 1) at 1. apply Qcplus_le_compat; [|apply Qcle_refl]. apply Qclt_le_weak. now apply SliceProofs4.Qc_mul_pos.
      * rewrite NY in E, Q. exists gs, lls. split; [exact E|]. split; [exact L1|exact Q].
Qed.
