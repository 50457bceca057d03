(** * nipjoint from the files to the output (Property C85) *)
From Coq Require Import String Ascii QArith Qcanon.
From Verif Require Import Base StringSpec PotentialModel PotentialSpec VariableModel JoinTreeModel NipModel NipSpec SeriesFileModel
  ParseModel ParseSpec ParseCheck NetLexModel NetGrammarModel NetSpec NetCheck WriteSpec ToolModel ToolSpec ToolCheck ToolCheck2
  ToolModel4 ToolSpec5 ToolProofs16 ToolProofs17.
From Verif Require MemoryModel MemorySpec.
Import ListNotations.
Open Scope nat_scope.
Local Notation len := List.length.
Local Notation chars := list_ascii_of_string.

(** If every two variables are connected in the NET file: nipjoint prints one line
    for every combination of states of the asked variables, with the probability
    of that combination given the first record of the data, by the tables of the
    file; m1 is one and m2 the probability of that record.  Missing: networks of
    several cliques, see below. *)
Theorem C85_joint_partial : forall k1 k2 c net_text t, net_file k1 k2 c net_text t ->
  forall data_text cols ts ss, data_file t data_text cols (ts :: ss) ->
  forall asked, (forall u v, u < ParseSpec.size t -> v < ParseSpec.size t -> u <> v -> connected t u v) ->
  incl asked (symbols t) -> NoDup asked ->
  exists out m1, nipjoint k1 k2 (fresh_globals c) (Some net_text) (Some data_text) asked =
      Ok (0%Z, out, Some (m1, record_mass t ts (fun _ => true))) /\
    (roots_given t -> m1 = 1%Qc) /\
    joint_output t (joint_asked t cols asked) (joint_chance t ts (joint_asked t cols asked)) out.
Proof. exact C85_lemma. Qed.
Print Assumptions C85_joint_partial.

(** C85 is false of every network with at least two cliques: the program never
    ends in an orderly way, whatever was asked for. *)
Theorem C85_cliques_refuted : forall k1 k2 c net_text t, net_file k1 k2 c net_text t ->
  forall data_text cols ts ss, data_file t data_text cols (ts :: ss) ->
  forall asked names m g ks size,
  parse_file k1 k2 (fresh_globals c) net_text = Ok (Some (names, m, g, ks, size)) -> 2 <= len (cls (m_jt m)) ->
  incl asked (symbols t) -> NoDup asked ->
  forall r, nipjoint k1 k2 (fresh_globals c) (Some net_text) (Some data_text) asked <> Ok r.
Proof. exact C85_cliques_lemma. Qed.
Print Assumptions C85_cliques_refuted.

(** An unknown symbol, or no series. *)
Theorem C85_unknown : forall k1 k2 c net_text t, net_file k1 k2 c net_text t ->
  forall data_text cols ts ss, data_file t data_text cols (ts :: ss) ->
  forall asked, ~ incl asked (symbols t) ->
  exists out, nipjoint k1 k2 (fresh_globals c) (Some net_text) (Some data_text) asked = Ok ((-1)%Z, out, None).
Proof. exact C85_unknown_lemma. Qed.
Print Assumptions C85_unknown.
Theorem C85_no_series : forall k1 k2 c net_text t, net_file k1 k2 c net_text t ->
  forall data_text cols asked, data_file t data_text cols [] ->
  exists out, nipjoint k1 k2 (fresh_globals c) (Some net_text) (Some data_text) asked = Ok ((-1)%Z, out, None).
Proof. exact C85_no_series_lemma. Qed.
Print Assumptions C85_no_series.

(** The list of variables and the series are released if the variables were
    given by their symbols. *)
Theorem C85_released : forall hidden observed steps asked, exists m y m1 a m2,
  MemoryModel.new_timeseries [] (Some hidden) observed steps = Ok (m, y) /\
  joint_array m true asked hidden y = Ok (m1, a) /\
  joint_release m1 a y = Ok m2 /\ MemorySpec.all_free m2.
Proof. exact joint_named_lemma. Qed.
Print Assumptions C85_released.
(** Otherwise an array of the series is freed twice, whatever the series is. *)
Theorem C85_freed_twice_refuted : forall hidden observed steps asked, 0 < hidden + observed -> exists m y m1 a,
  MemoryModel.new_timeseries [] (Some hidden) observed steps = Ok (m, y) /\
  joint_array m false asked hidden y = Ok (m1, a) /\
  joint_release m1 a y = UB.
Proof. exact joint_twice_lemma. Qed.
Print Assumptions C85_freed_twice_refuted.

Example C85_case : net_file kz kz 0 jx_text jx_net /\ data_file jx_net jx_data jx_cols [jx_series] /\
  (forall u v, u < ParseSpec.size jx_net -> v < ParseSpec.size jx_net -> u <> v -> connected jx_net u v) /\
  roots_given jx_net /\ joint_asked jx_net jx_cols ["B"; "C"]%string = [2; 0] /\ joint_asked jx_net jx_cols [] = [1; 2] /\
  nipjoint kz kz (fresh_globals 0) (Some jx_text) (Some jx_data) ["B"; "C"]%string =
    Ok (0%Z, chars "nipjoint:
P(B, C) equals: 
P(0, 0) = 0.000000
P(1, 0) = 0.000000
P(0, 1) = 0.181818
P(1, 1) = 0.818182
", Some (1%Qc, Q2Qc (33 # 64))).
Proof.
  split; [exact jx_net_file|]. split; [exact jx_data_file|]. split; [exact jx_connected|].
  split; [intros d Hd; cbn in Hd; destruct Hd as [<-|[<-|[<-|[]]]]; discriminate|]. split; [reflexivity|]. split; [reflexivity|].
  vm_compute. reflexivity.
Qed.
Example C85_cliques_case : net_file kz kz 0 px_text px_net /\ data_file px_net tx_data tx_cols tx_series /\
  exists names m g ks size, parse_file kz kz (fresh_globals 0) px_text = Ok (Some (names, m, g, ks, size)) /\ 2 <= len (cls (m_jt m)).
Proof. split; [exact tx_net_file|]. split; [exact tx_data_file|]. do 5 eexists. split; [vm_compute; reflexivity|]. vm_compute. repeat constructor. Qed.
