(** * niplikelihood and nipsample, from file to file (Properties C79 and C80) *)
From Coq Require Import String Ascii QArith Qcanon.
From Verif Require Import Base StringSpec PotentialModel PotentialSpec VariableModel JoinTreeSpec NipModel NipSpec LearnSpec SeriesFileModel
  SeriesFileSpec ParseModel ParseSpec ParseCheck NetLexModel NetGrammarModel NetSpec NetCheck WriteSpec ToolModel ToolSpec
  ToolModel2 ToolSpec2 ToolCheck ToolProofs7 ToolProofs8.
Import ListNotations.
Open Scope nat_scope.
Local Notation len := List.length.
Local Notation chars := list_ascii_of_string.

(** ** C79: niplikelihood

    For every step of every series, two numbers: the weights, by the tables of
    the NET file for this one step, of the record without the variables that
    were asked for, and of the whole record. *)
Theorem C79_masses : forall k1 k2 c net_text t, net_file k1 k2 c net_text t ->
  forall data_text cols ss, data_file t data_text cols ss -> forall asked_for, ss <> [] ->
  exists ls,
    niplikelihood k1 k2 (fresh_globals c) (Some net_text) (Some data_text) asked_for = Ok (0%Z, ls) /\
    Forall2 (fun ts l => len l = s_length ts /\
      forall s, s < s_length ts ->
        nth s l (0, 0)%Qc = (step_mass t ts s (fun v => negb (asked t asked_for v)), step_mass t ts s (fun _ => true)))
      ss ls.
Proof. exact C79_lemma. Qed.
Print Assumptions C79_masses.

(** False: the product of the quotients is the probability of the data that were
    asked for, given the other data of the series.  In the case all the data are
    asked for, but the product is not their probability: every step after the
    first is weighed without the steps before, and without a distribution for
    the variables of the previous time slice. *)
Definition quotient (x : Qc * Qc) : Qc := (snd x / fst x)%Qc.
Theorem C79_likelihood_refuted :
  ~ (forall k1 k2 c net_text t, net_file k1 k2 c net_text t -> roots_given t ->
     forall data_text cols ss, data_file t data_text cols ss -> forall asked_for, ss <> [] ->
     (forall ts v, In ts ss -> In v (s_observed ts) -> asked t asked_for v = true) ->
     forall ls, niplikelihood k1 k2 (fresh_globals c) (Some net_text) (Some data_text) asked_for = Ok (0%Z, ls) ->
     Forall2 (fun ts l => fold_right Qcmult 1%Qc (map quotient l) = evidence t ts (s_length ts) (s_length ts)) ss ls).
Proof.
  intro H.
  destruct (C79_masses kz kz 0%Z px_text px_net tx_net_file tx_data tx_cols tx_series tx_data_file ["Y"%string] ltac:(discriminate))
    as (ls & E & F).
  specialize (H kz kz 0%Z px_text px_net tx_net_file px_roots tx_data tx_cols tx_series tx_data_file ["Y"%string] ltac:(discriminate)
                ltac:(intros ts v [<-|[<-|[]]] [<-|[]]; reflexivity) ls E).
  clear E. inversion H as [|ts l ? ll A _ E1 E2]. subst ls. inversion F as [|? ? ? ? [L N] _]. clear H F. subst.
  cbn [s_length] in L, N. pose proof (N 0 ltac:(lia)) as N0. pose proof (N 1 ltac:(lia)) as N1. clear N.
  destruct l as [|x [|y [|z l]]]; [discriminate L..| |discriminate L]. cbn [nth] in N0, N1. subst x y.
  apply (f_equal this) in A. vm_compute in A. discriminate A.
Qed.
Print Assumptions C79_likelihood_refuted.

Example C79_case : net_file kz kz 0 px_text px_net /\ data_file px_net tx_data tx_cols tx_series /\
  exists ls, niplikelihood kz kz (fresh_globals 0) (Some px_text) (Some tx_data) ["Y"%string] = Ok (0%Z, ls) /\
    map (map (fun x => (this (fst x), this (snd x)))) ls
    = [[(1 # 1, 17 # 64); (2 # 1, 49 # 80)]; [(1 # 1, 1 # 1)]]%Q.
Proof.
  split; [exact tx_net_file|]. split; [exact tx_data_file|].
  eexists. split; [vm_compute; reflexivity|]. vm_compute. reflexivity.
Qed.

(** ** C80: nipsample

    From the text of a NET file to a data file with [count] series of [T]
    complete records.  Each series is a sample of the process of the NET file,
    drawn with the random numbers of the series, and it is possible. *)
Theorem C80_sample : forall k1 k2 c net_text t, net_file k1 k2 c net_text t ->
  forall fuel count T rnd, n_nodes t <> [] -> plain_names (named_in t) ->
  (Z.of_nat (line_width (named_in t)) <= 9999)%Z -> ParseSpec.size t <= fuel -> 0 < count -> 0 < T ->
  exists f cols ss,
    nipsample fuel k1 k2 (fresh_globals c) (Some net_text) count T rnd = Ok (mkFinished 0 (Some f)) /\
    data_file t f cols ss /\
    Forall2 (fun i ts => s_length ts = T /\ s_hidden ts = [] /\
      (forall v s, v < ParseSpec.size t -> s < T -> exists x, said ts v s = Some x /\ x < card_in t v) /\
      ((exists u, from_before t u = true) \/ (roots_given t /\ positive_random (rnd i)) -> sampled t (rnd i) ts) /\
      (roots_given t -> positive_random (rnd i) -> evidence t ts T T <> 0%Qc)) (seq 0 count) ss.
Proof. exact C80_lemma. Qed.
Print Assumptions C80_sample.

Ltac nodup := repeat (apply NoDup_cons; [cbn; intuition discriminate|]); apply NoDup_nil.
Ltac plain := repeat (apply Forall_cons; [split; [discriminate|repeat (apply Forall_cons; [repeat split; discriminate|]); apply Forall_nil]|]);
  apply Forall_nil.
Example C80_case : net_file kz kz 0 px_text px_net /\ n_nodes px_net <> [] /\ plain_names (named_in px_net) /\
  (Z.of_nat (line_width (named_in px_net)) <= 9999)%Z /\ roots_given px_net /\ from_before px_net 2 = true /\
  positive_random (fun _ _ => Q2Qc (1 # 2)) /\
  nipsample 3 kz kz (fresh_globals 0) (Some px_text) 2 2 (fun i s v => Q2Qc (Z.of_nat (1 + i + s + v) # 6))
  = Ok (mkFinished 0 (Some (chars "X0,X,Y
a,a,low
a,a,high

b,b,off
b,b,off

"))).
Proof.
  split; [exact tx_net_file|]. split; [discriminate|].
  split. { split; [|split; [|split]].
    - repeat (apply Forall_cons; [split; [discriminate|eexists; split; reflexivity]|]). constructor.
    - vm_compute. nodup.
    - vm_compute. plain.
    - vm_compute. repeat (apply Forall_cons; [split; [nodup|split; [plain|intuition discriminate]]|]). constructor. }
  split; [vm_compute; discriminate|]. split; [exact px_roots|]. split; [reflexivity|].
  split; [intros s i; split; [reflexivity|discriminate]|]. vm_compute. reflexivity.
Qed.
