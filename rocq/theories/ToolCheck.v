(** * A data file for the hidden Markov model of ParseCheck.v *)
From Coq Require Import String Ascii.
From Verif Require Import Base StringSpec PotentialModel PotentialSpec VariableModel NipSpec SeriesFileModel SeriesFileSpec ParseModel ParseSpec
  ParseCheck ParseProofs10 NetLexModel NetGrammarModel NetSpec NetCheck NetProofs3 ToolModel ToolSpec.
Import ListNotations.
Open Scope nat_scope.
Local Notation len := List.length.

Definition tx_data : list ascii := join ["Y,other"; "low,1"; "high,2"; ""; "?,1"]%string.
Definition tx_cols : list (nat * nat) := [(0, 0)].
Definition tx_series : list series := [mkSeries [1; 2] [0] 2 [[0]; [1]]%Z; mkSeries [1; 2] [0] 1 [[-1]]%Z].

Lemma tx_net_file : net_file kz kz 0 px_text px_net.
Proof.
  constructor.
  - exists px_tokens, px_terminals, px_looks, (80, 40)%Z. split; [exact px_text_tokens|]. split; [exact px_reads|exact px_document].
  - exact px_ok.
  - exact px_children_first.
  - exact px_proper.
  - exact px_two_slices.
  - intros [|[|[|v]]]; cbn; try (repeat constructor; lia). destruct v; cbn; repeat constructor; lia.
  - exact px_fits.
  - vm_compute. discriminate.
Qed.
Lemma tx_data_file : data_file px_net tx_data tx_cols tx_series.
Proof.
  exists (map list_ascii_of_string ["Y"; "other"]%string),
    (map (map list_ascii_of_string) [["low"; "1"]; ["high"; "2"]; []; ["?"; "1"]; []])%string.
  split. { split; [vm_compute; intuition discriminate|]. vm_compute. repeat constructor. }
  split. { exists 0. split; [vm_compute; reflexivity|discriminate]. }
  split; [reflexivity|]. split; [repeat constructor; intros []|]. vm_compute. reflexivity.
Qed.
Lemma tx_possible : Forall (possible_series px_net) tx_series.
Proof. apply Forall_forall. intros ts _. left. exists 2. reflexivity. Qed.
