(** * The programs in util, from the input files to the output file (Properties C74 to C78) *)
From Coq Require Import String Ascii QArith Qcanon.
From Verif Require Import Base StringSpec PotentialModel PotentialSpec VariableModel JoinTreeSpec NipModel NipSpec SeriesFileModel SeriesFileSpec
  ParseModel ParseSpec ParseCheck NetLexModel NetGrammarModel NetSpec NetCheck WriteModel WriteSpec ToolModel ToolSpec ToolCheck
  ToolProofs2 ToolProofs4 ToolProofs5.
Import ListNotations.
Open Scope nat_scope.
Local Notation len := List.length.
Local Notation chars := list_ascii_of_string.

(** ** C74: files of distributions

    write_uncertainseries writes the names of the states, and for each series a
    line with the probabilities of the states for each step, and an empty line. *)
Theorem C74_written : forall names v nv l, nth_error names v = Some nv -> nv_states nv = Names l ->
  len l = nv_card nv -> l <> [] -> forall closed us dss, us <> [] ->
  Forall2 (fun u ds => distributions (ucs_variables u) (ucs_data u) v (len l) ds) us dss ->
  exists groups,
    write_uncertainseries true closed names us v
    = Ok (Some (csv (map chars l) groups), if closed then NO_ERROR else EIO) /\
    Forall2 (Forall2 (Forall2 prints)) dss groups.
Proof. exact C74_lemma. Qed.
Print Assumptions C74_written.

(** Nothing is opened if the variable is missing from one of the series. *)
Theorem C74_missing : forall names v nv l, nth_error names v = Some nv -> nv_states nv = Names l ->
  len l = nv_card nv -> l <> [] -> forall opened closed us,
  (exists u, In u us /\ ~ In v (ucs_variables u)) ->
  write_uncertainseries opened closed names us v = Ok (None, EINVAL).
Proof. exact C74_missing_lemma. Qed.
Print Assumptions C74_missing.

Theorem C74_unopened : forall names v nv l, nth_error names v = Some nv -> nv_states nv = Names l ->
  len l = nv_card nv -> l <> [] -> forall closed us, us <> [] ->
  (forall u, In u us -> In v (ucs_variables u)) ->
  write_uncertainseries false closed names us v = Ok (None, EIO).
Proof. exact C74_unopened_lemma. Qed.
Print Assumptions C74_unopened.

Definition ex_names : list named_variable :=
  [mkNamed 0 (Some "rain"%string) 2 (Names ["yes"; "no"]%string) [];
   mkNamed 0 (Some "sun"%string) 3 (Names ["low"; "mid"; "high"]%string) []].
Definition third : Qc := Q2Qc (1 # 3)%Q.
Definition half : Qc := Q2Qc (1 # 2)%Q.
Definition ex_us : list uncertain_series :=
  [mkUCS [0; 1] [[[half; half]; [third; third; third]]; [[1; 0]; [0; half; half]]]%Qc;
   mkUCS [1] [[[1; 0; 0]]]%Qc].
Example C74_case :
  Forall2 (fun u ds => distributions (ucs_variables u) (ucs_data u) 1 3 ds) ex_us
    [[[third; third; third]; [0; half; half]]; [[1; 0; 0]]]%Qc /\
  write_uncertainseries true true ex_names ex_us 1
  = Ok (Some (chars "low,mid,high
0.333333,0.333333,0.333333
0.000000,0.500000,0.500000

1.000000,0.000000,0.000000

"), NO_ERROR) /\
  write_uncertainseries true true ex_names ex_us 0 = Ok (None, EINVAL).
Proof.
  assert (P : forall q, (0 <= this q)%Q -> (this q <= 1)%Q -> (0 <= q)%Qc /\ (q <= 1)%Qc)
    by (intros q A B; split; assumption).
  split; [|split; vm_compute; reflexivity].
  constructor; [|constructor; [|constructor]].
  - exists 1. split; [split; [reflexivity|intros [|i] L; [discriminate|lia]]|].
    repeat constructor; vm_compute; discriminate.
  - exists 0. split; [split; [reflexivity|intros i L; lia]|].
    repeat constructor; vm_compute; discriminate.
Qed.

(** ** C75: nipinference

    From the texts of a NET file and of a data file to the text of the output:
    the probabilities of the states of the variable at every step of every
    series, given all records of the series, in the process of the NET file. *)
Theorem C75_inference : forall k1 k2 c net_text t, net_file k1 k2 c net_text t ->
  forall data_text cols ss, data_file t data_text cols ss -> forall symbol closed,
  ss <> [] -> Forall (possible_series t) ss -> In symbol (symbols t) ->
  exists groups lls,
    nipinference k1 k2 (fresh_globals c) (Some net_text) (Some data_text) symbol true closed
    = Ok (mkFinished 0 (Some (csv (map chars (states (node t (ParseSpec.number t symbol)))) groups)), lls) /\
    Forall2 (fun ts g => reports t ts (ParseSpec.number t symbol) g) ss groups /\
    (roots_given t -> Forall2 (likelihood_of t) ss lls).
Proof. exact C75_lemma. Qed.
Print Assumptions C75_inference.

(** An unknown variable, a data file without series and a missing data file are
    reported by the status, and nothing is written. *)
Theorem C75_unknown_variable : forall k1 k2 c net_text t, net_file k1 k2 c net_text t ->
  forall data_text cols ss, data_file t data_text cols ss -> forall symbol opened closed,
  ~ In symbol (symbols t) ->
  nipinference k1 k2 (fresh_globals c) (Some net_text) (Some data_text) symbol opened closed
  = Ok (mkFinished (-1) None, []).
Proof. exact C75_unknown_lemma. Qed.
Print Assumptions C75_unknown_variable.

Theorem C75_no_series : forall k1 k2 c net_text t, net_file k1 k2 c net_text t ->
  forall data_text cols ss, data_file t data_text cols ss -> forall symbol opened closed, ss = [] ->
  nipinference k1 k2 (fresh_globals c) (Some net_text) (Some data_text) symbol opened closed
  = Ok (mkFinished (-1) None, []).
Proof. exact C75_no_series_lemma. Qed.
Print Assumptions C75_no_series.

Theorem C75_no_data_file : forall k1 k2 c net_text t, net_file k1 k2 c net_text t ->
  forall symbol opened closed,
  nipinference k1 k2 (fresh_globals c) (Some net_text) None symbol opened closed = Ok (mkFinished (-1) None, []).
Proof. exact C75_no_data_lemma. Qed.
Print Assumptions C75_no_data_file.

(** False: the status tells whether the results were written.  It is 0 also if
    the output file cannot be opened. *)
Theorem C75_status_refuted : forall k1 k2 c net_text t, net_file k1 k2 c net_text t ->
  forall data_text cols ss, data_file t data_text cols ss -> forall symbol closed,
  ss <> [] -> Forall (possible_series t) ss -> In symbol (symbols t) ->
  exists lls, nipinference k1 k2 (fresh_globals c) (Some net_text) (Some data_text) symbol false closed
    = Ok (mkFinished 0 None, lls).
Proof. exact C75_unwritten_lemma. Qed.
Print Assumptions C75_status_refuted.

Example C75_case : net_file kz kz 0 px_text px_net /\ data_file px_net tx_data tx_cols tx_series /\
  Forall (possible_series px_net) tx_series /\ roots_given px_net /\ ParseSpec.number px_net "X" = 1 /\
  exists lls, nipinference kz kz (fresh_globals 0) (Some px_text) (Some tx_data) "X" true true
  = Ok (mkFinished 0 (Some (chars "a,b
0.642857,0.357143
0.602041,0.397959

0.375000,0.625000

")), lls).
Proof.
  split; [exact tx_net_file|]. split; [exact tx_data_file|]. split; [exact tx_possible|]. split; [exact px_roots|].
  split; [reflexivity|]. eexists. vm_compute. reflexivity.
Qed.

(** ** C76: nipmap

    For every step and every variable without a column the first of its most
    probable states.  The states of a line are chosen one by one. *)
Theorem C76_most_probable : forall k1 k2 c net_text t, net_file k1 k2 c net_text t ->
  forall data_text cols ss, data_file t data_text cols ss -> forall closed,
  ss <> [] -> Forall (possible_series t) ss -> without_column t cols <> [] ->
  exists groups,
    nipmap k1 k2 (fresh_globals c) (Some net_text) (Some data_text) true closed
    = Ok (mkFinished (if closed then 0 else -1)
            (Some (csv (map (fun v => chars (nth v (symbols t) EmptyString)) (without_column t cols)) groups))) /\
    Forall2 (fun ts g => explains t ts (without_column t cols) g) ss groups.
Proof. exact C76_lemma. Qed.
Print Assumptions C76_most_probable.

(** If all variables have columns there is nothing to report: the status tells,
    but the output file was emptied before. *)
Theorem C76_nothing_hidden : forall k1 k2 c net_text t, net_file k1 k2 c net_text t ->
  forall data_text cols ss, data_file t data_text cols ss -> forall closed,
  ss <> [] -> without_column t cols = [] ->
  nipmap k1 k2 (fresh_globals c) (Some net_text) (Some data_text) true closed = Ok (mkFinished (-1) (Some [])).
Proof. exact C76_nothing_hidden_lemma. Qed.
Print Assumptions C76_nothing_hidden.

Example C76_case : without_column px_net tx_cols = [1; 2] /\
  nipmap kz kz (fresh_globals 0) (Some px_text) (Some tx_data) true true
  = Ok (mkFinished 0 (Some (chars "X,X0
a,b
a,a

b,b

"))).
Proof. split; vm_compute; reflexivity. Qed.

(** ** C77: nipnext

    The names of the states on the first line; then for every series a line with
    the logarithms of the probabilities of the states at the last step, given all
    records.  [show] is what is printed for the logarithm of a number. *)
Theorem C77_last_step : forall show k1 k2 c net_text t, net_file k1 k2 c net_text t ->
  forall data_text cols ss, data_file t data_text cols ss -> forall symbol,
  ss <> [] -> Forall (possible_series t) ss -> In symbol (symbols t) ->
  let v := ParseSpec.number t symbol in
  nipnext show k1 k2 (fresh_globals c) (Some net_text) (Some data_text) symbol
  = Ok (0%Z, csv_line (map chars (states (node t v))) ++
      concat (map (fun ts => csv_line (map (fun x => show (chance t ts (s_length ts) (s_length ts) (s_length ts - 1) v x))
                                           (seq 0 (card_in t v)))) ss)).
Proof. intros show k1 k2 c net_text t NF data_text cols ss DF symbol. exact (C77_lemma k1 k2 c net_text t NF data_text cols ss DF show symbol). Qed.
Print Assumptions C77_last_step.

(** With the decimals of the numbers themselves in place of their logarithms. *)
Example C77_case : nipnext print_f kz kz (fresh_globals 0) (Some px_text) (Some tx_data) "X"
  = Ok (0%Z, chars "a,b
0.602041,0.397959
0.375000,0.625000
").
Proof. vm_compute. reflexivity. Qed.

(** ** C78: nipconvert

    One column for each state of the variable of the first known column, with
    a one at the state of the record and zeros elsewhere. *)
Theorem C78_converted : forall k1 k2 c net_text t, net_file k1 k2 c net_text t ->
  forall data_text cols ss, data_file t data_text cols ss -> forall i v cols' opened closed,
  ss <> [] -> cols = (i, v) :: cols' ->
  exists groups,
    nipconvert k1 k2 (fresh_globals c) (Some net_text) (Some data_text) opened closed
    = Ok (if opened
          then mkFinished (if closed then 0 else -1) (Some (csv (map chars (states (node t v))) groups))
          else mkFinished (-1) None) /\
    Forall2 (fun ts g => indicates t ts v g) ss groups.
Proof. exact C78_lemma. Qed.
Print Assumptions C78_converted.

Theorem C78_no_known_column : forall k1 k2 c net_text t, net_file k1 k2 c net_text t ->
  forall data_text cols ss, data_file t data_text cols ss -> forall opened closed, cols = [] ->
  nipconvert k1 k2 (fresh_globals c) (Some net_text) (Some data_text) opened closed = Ok (mkFinished (-1) None).
Proof. exact C78_nothing_lemma. Qed.
Print Assumptions C78_no_known_column.

Example C78_case : nipconvert kz kz (fresh_globals 0) (Some px_text) (Some tx_data) true true
  = Ok (mkFinished 0 (Some (chars "low,high,off
1,0,0
0,1,0

0,0,0

"))).
Proof. vm_compute. reflexivity. Qed.
