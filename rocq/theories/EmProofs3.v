(** * Learning never lowers the weighted probability: the code *)
From Coq Require Import String Ascii Permutation QArith.Qcanon.
From Verif Require Import Base BaseProofs PotentialModel PotentialSpec VariableModel AssignSpec JoinTreeSpec NipModel NipSpec SliceModel LearnModel LearnSpec
  SeriesFileModel SeriesFileSpec ParseModel ParseSpec NetLexModel NetGrammarModel NetSpec WriteModel WriteSpec
  ToolModel ToolModel3 ToolSpec ToolSpec3 ToolSpec4 ToolProofs FactorProofs LearnProofs8 LearnProofs3 ToolProofs9 ToolProofs10 ToolProofs11 ToolProofs12 EmProofs EmProofs2.
Import ListNotations.
Open Scope nat_scope.
Local Open Scope list_scope.
Local Notation len := List.length.

Lemma C84_training_lemma : forall k1 k2 c net_text t, net_file k1 k2 c net_text t -> printable t ->
  forall data_text cols ss, data_file t data_text cols ss -> ss <> [] -> cols <> [] ->
  forall rnd, (forall n k v i, (0 < rnd n k v i)%Qc) ->
  forall randomise, randomise = true \/ positive_tables t ->
  forall growth tiny low max_iterations fuel batches code text curve,
  niptrain fuel batches k1 k2 (fresh_globals c) (Some net_text) (Some data_text) randomise growth tiny low max_iterations rnd = Ok (code, Some text, curve) ->
  exists before us, curve = before ++ map (fun u => probability u ss) us /\ 3 <= len us /\
    (forall u, In u us -> same_network t u /\ proper u /\ positive_tables u) /\
    (forall i, S i < len us -> (posterior ss (nth i us t) <= posterior ss (nth (S i) us t))%Qc) /\
    exists toks ts t' ks size, text_tokens text toks /\ Forall2 reads_as toks ts /\ document t' ks size ts /\ same_declarations t t' /\
      forall v a, v < ParseSpec.size t -> valid (card_in t) a -> rounded (WriteSpec.entry (last us t) v a) (WriteSpec.entry t' v a).
Proof.
  intros k1 k2 c net_text t NF PR data_text cols ss DF NE NC rnd RP randomise PO growth tiny low mx fuel batches code text curve E.
  destruct (C81_lemma k1 k2 c net_text t NF PR data_text cols ss DF NE NC rnd RP randomise PO growth tiny low mx fuel batches) as
    [K|(text' & curve' & u & K & S & PU & PT & (before & ls & u1 & EC & L3 & ST & ES & _) & _ & _ & _ & _ & ks & size & _ & toks & ts & t' & T1 & T2 & T3 & _ & T4 & T5 & _)];
    rewrite E in K; [discriminate|]. injection K as _ <- <-.
  assert (F : fine t u1).
  { apply (started_fine t (nf_ok _ _ _ _ _ NF) ss rnd RP (negb randomise)); auto. intros B. split; [exact (nf_proper _ _ _ _ _ NF)|]. destruct PO as [->|PO]; [discriminate|exact PO]. }
  destruct (estimates_trail t (nf_ok _ _ _ _ _ NF) ss u1 ls u ES F) as (us & -> & NEU & _ & LA & FI & MO).
  exists before, us. split; auto. split; [now rewrite map_length in L3|]. split; [exact FI|]. split; [intros i Hi; apply (MO i Hi)|].
  exists toks, ts, t', (map labelled ks), size. rewrite LA. auto.
Qed.

Lemma proper_fits : forall names ts, proper_series names ts -> fit_series (len names) ts.
Proof.
  intros names ts (P & L & F). assert (ND : NoDup (s_hidden ts ++ s_observed ts)) by (eapply Permutation_NoDup; [symmetry; exact P|apply seq_NoDup]).
  split; [exact (FactorProofs.NoDup_app_remove_l _ _ _ ND)|]. split.
  - intros v I. assert (K : In v (seq 0 (len names))) by (eapply Permutation_in; [exact P|]; apply in_app_iff; auto). apply in_seq in K. lia.
  - split; auto. eapply Forall_impl; [|exact F]. intros row R. clear -R. revert R. generalize (s_observed ts). intros l R. induction R; cbn; auto.
Qed.

Lemma C84_learning_lemma : forall t, net_ok t -> children_first t -> two_slices t -> forall names m, parsed t names m ->
  forall ss, ss <> [] -> Forall (proper_series (named_in t)) ss ->
  forall rnd, (forall v i, (0 < rnd v i)%Qc) -> forall max_iterations growth tiny,
  exists m' o, em_learn (all_marked m) (map to_ts ss) (Some rnd) max_iterations growth tiny [] = Ok (m', o) /\
    (o_code o = NO_ERROR ->
     exists us, o_curve o = map (fun u => probability u ss) us /\ 3 <= len us /\ random_tables rnd t (hd t us) /\
       (forall u, In u us -> same_network t u /\ proper u /\ positive_tables u) /\
       (forall i, S i < len us -> next_estimate ss (nth i us t) (nth (S i) us t) /\ (posterior ss (nth i us t) <= posterior ss (nth (S i) us t))%Qc) /\
       exists m2, same_model m' m2 /\ parsed (last us t) names m2).
Proof.
  intros t NO CF TS names m P ss NE PS rnd RP mx growth tiny.
  assert (PM := parsed_marked t names m P).
  assert (MK : forall v, v < len (m_vars (all_marked m)) -> v_mark (var (all_marked m) v) = MARK_ON).
  { intros v Hv. rewrite all_marked_len in Hv. now rewrite all_marked_var. }
  assert (LN : len (named_in t) = ParseSpec.size t) by (unfold named_in; apply map_length).
  assert (FS : Forall (fit_series (ParseSpec.size t)) ss). { eapply Forall_impl; [|exact PS]. intros ts H. rewrite <- LN. now apply proper_fits. }
  assert (R : ready t (all_marked m) (Some rnd) (all_marked m)).
  { split; [exact (base_learnable t NO CF TS names _ PM)|]. split; [apply same_structure_refl|exact RP]. }
  destruct (batch_ok t NO CF TS names _ PM MK ss FS (Some rnd) (all_marked m) mx growth tiny [] R NE) as
    (m' & o & u1 & qs & ls & vs & E & ST & HT & ES & OC & _ & FIN).
  exists m', o. split; auto. intros OK. destruct FIN as [(_ & -> & L3 & _)|(K & _)]; [|congruence]. cbn [batch_start] in ST.
  destruct (estimates_trail t NO ss u1 ls _ ES (random_fine t NO rnd u1 RP ST)) as (us & -> & NEU & HD & LA & FI & MO).
  exists us. split; [exact OC|]. split; [now rewrite map_length in L3|]. split; [now rewrite HD|]. split; [exact FI|]. split; [exact MO|].
  destruct (stands t NO CF names _ PM MK qs m' HT) as (m2 & S2 & P2 & _). exists m2. rewrite LA. auto.
Qed.
