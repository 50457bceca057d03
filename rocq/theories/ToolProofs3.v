(** * Proofs: the programs nipinference, nipmap and nipnext *)
From Coq Require Import String Ascii Permutation.
From Verif Require Import Base BaseProofs StringModel StringSpec PotentialModel PotentialSpec VariableModel AssignSpec AssignProofs
  JoinTreeModel JoinTreeSpec NipModel NipSpec NipProofs NipProofs3 SliceModel SliceSpec SliceProofs2 SliceProofs4 SliceProofs5
  LearnModel LearnSpec LearnProofs6 LearnProofs8 SeriesFileModel SeriesFileSpec SeriesFileProofs4
  GraphModel ParseModel ParseSpec ParseProofs8 ParseProofs9 ParseProofs10
  NetLexModel NetGrammarModel NetSpec NetLexProofs NetProofs3 NetGrammarProofs NetGrammarProofs2 WriteModel WriteSpec WriteProofs9 ToolModel ToolSpec ToolProofs ToolProofs2.
Import ListNotations.
Open Scope nat_scope.
Local Open Scope res_scope.
Local Notation len := List.length.
Local Notation chars := list_ascii_of_string.

(** ** Reading *)
Lemma columns_ext : forall names names', map symbol_of names = map symbol_of names' ->
  forall header i, columns_from names i header = columns_from names' i header.
Proof.
  intros names names' E. induction header as [|s r IH]; intros i; [reflexivity|]. cbn [columns_from]. rewrite E, IH. reflexivity.
Qed.
Lemma columns_lt : forall names header i c, In c (columns_from names i header) -> snd c < len names.
Proof.
  intros names. induction header as [|s r IH]; intros i c H; [destruct H|]. cbn [columns_from] in H.
  assert (Q := position_spec (string_of_list_ascii s) (map symbol_of names)). destruct (position _ _) as [v|].
  - destruct H as [<-|H]; [|eauto]. rewrite map_length in Q. apply Q.
  - eauto.
Qed.
Lemma series_ext : forall names names', len names = len names' -> (forall v, states_at names v = states_at names' v) ->
  forall cols block, series_of_block names cols block = series_of_block names' cols block.
Proof.
  intros names names' L E cols block. unfold series_of_block. rewrite L. f_equal. destruct cols as [|c0 cols]; [reflexivity|].
  apply map_ext. intros line. unfold data_of_line. apply map_ext. intros (i & v). unfold datum. now rewrite E.
Qed.

Lemma named_symbols : forall t, map symbol_of (named_in t) = symbols t.
Proof. intros t. unfold named_in, symbols. rewrite map_map. apply map_ext. reflexivity. Qed.
Lemma named_len : forall t, len (named_in t) = ParseSpec.size t.
Proof. intros t. unfold named_in. apply map_length. Qed.

Section Read.
Variable k1 k2 : list pvar -> list nat -> Z.
Variable c : Z.
Variable net_text : list ascii.
Variable t : net.
Hypothesis NF : net_file k1 k2 c net_text t.
Local Notation card := (card_in t).
Local Notation n := (ParseSpec.size t).

Lemma net_reads : exists names m g ks size, parse_file k1 k2 (fresh_globals c) net_text = Ok (Some (names, m, g, ks, size)) /\ parsed t names m.
Proof.
  destruct NF as [(toks & ts & ks & size & A & B & C) NO _ _ _ _ FIT LC].
  destruct (parse_succeeds t NO c k1 k2 LC FIT) as (names & m & g & E & P). exists names, m, g, ks, size. split; auto.
  rewrite (C69_lemma k1 k2 (fresh_globals c) net_text toks ts t ks size A B C), E. reflexivity.
Qed.

Lemma parsed_states : forall names m, parsed t names m -> forall v nv, nth_error names v = Some nv ->
  nv_states nv = Names (states (node t v)) /\ len (states (node t v)) = nv_card nv.
Proof.
  intros names m P v nv H. assert (S := pa_states _ _ _ P v nv H (nf_states _ _ _ _ _ NF v)).
  destruct (pa_names _ _ _ P) as (_ & Q). destruct (Q v nv H) as (_ & C & l & E & L). unfold states_of in S. rewrite E in S. subst l.
  split; auto; unfold card_in in *; congruence.
Qed.
Lemma parsed_len : forall names m, parsed t names m -> len names = n.
Proof. intros names m P. destruct (pa_names _ _ _ P) as (L & _). rewrite L. apply P. Qed.
Lemma states_at_named : forall names m, parsed t names m -> forall v, states_at names v = states_at (named_in t) v.
Proof.
  intros names m P v. unfold states_at. destruct (nth_error names v) as [nv|] eqn:E.
  - assert (Hv : v < n). { rewrite <- (parsed_len names m P). apply nth_error_Some. congruence. }
    unfold states_of. rewrite (proj1 (parsed_states names m P v nv E)). unfold named_in. rewrite nth_error_map.
    unfold node. rewrite (nth_error_nth' (n_nodes t) (mkNode EmptyString None (Some [EmptyString]) None)) by exact Hv. reflexivity.
  - apply nth_error_None in E. rewrite (parsed_len names m P) in E. rewrite (proj2 (nth_error_None _ _)); [reflexivity|]. now rewrite named_len.
Qed.
Lemma parsed_named : forall names m, parsed t names m -> named names.
Proof.
  intros names m P. apply Forall_forall. intros nv H. apply In_nth_error in H. destruct H as (v & H).
  destruct (parsed_states names m P v nv H) as (A & B). split; [|eexists; split; eauto].
  destruct (pa_names _ _ _ P) as (_ & Q). now destruct (Q v nv H).
Qed.

Lemma data_reads : forall data_text cols ss, data_file t data_text cols ss -> forall names m, parsed t names m ->
  read_timeseries names data_text = Ok (Some ss).
Proof.
  intros data_text cols ss (header & data & R & H & -> & ND & ->) names m P.
  assert (EC : known_columns names header = known_columns (named_in t) header).
  { apply columns_ext. now rewrite named_symbols, (pa_symbols _ _ _ P). }
  rewrite (C67_lemma names (parsed_named names m P) data_text header data R H); [|now rewrite EC].
  rewrite EC. do 2 f_equal. apply map_ext. intros b. apply series_ext; [|apply (states_at_named names m P)].
  now rewrite (parsed_len names m P), named_len.
Qed.
Lemma data_fits : forall data_text cols ss, data_file t data_text cols ss ->
  Forall (fun ts => fit_series n ts /\ s_observed ts = map snd cols /\ 0 < s_length ts /\
    s_hidden ts = filter (fun v => negb (existsb (Nat.eqb v) (map snd cols))) (seq 0 n)) ss.
Proof.
  intros data_text cols ss (header & data & R & H & EC & ND & ->). apply Forall_map, Forall_forall. intros b Hb.
  unfold series_of_block, fit_series. cbn [s_observed s_data s_length s_hidden]. rewrite named_len.
  split; [split; [exact ND|split; [|split]]|split; [reflexivity|split; [|reflexivity]]].
  - intros v Hv. apply in_map_iff in Hv. destruct Hv as (x & <- & Hx). rewrite <- named_len. subst cols. eapply columns_lt; eauto.
  - destruct cols as [|c0 cols]; [constructor|]. apply Forall_map, Forall_forall. intros line _. unfold data_of_line. now rewrite !map_length.
  - intros NE. destruct cols as [|c0 cols]; [now elim NE|]. now rewrite map_length.
  - unfold SeriesFileSpec.blocks in Hb. apply filter_In in Hb. destruct b; [destruct Hb; discriminate|cbn; lia].
Qed.

Lemma inputs_ok : forall data_text cols ss, data_file t data_text cols ss ->
  exists names m, parsed t names m /\
    read_inputs k1 k2 (fresh_globals c) (Some net_text) (Some data_text) =
      Ok (match ss with [] => None | _ => Some (names, m, ss) end).
Proof.
  intros data_text cols ss D. destruct net_reads as (names & m & g & ks & size & E & P). exists names, m. split; auto.
  unfold read_inputs. rewrite E. cbn [bind]. rewrite (data_reads data_text cols ss D names m P). cbn [bind]. destruct ss; reflexivity.
Qed.

Lemma mark_all_ok : forall m, mark_all m = Ok (all_marked m).
Proof.
  intros m. unfold mark_all.
  destruct (for_up_inv model (fun i m' => m' = marking m (fun v => if Nat.ltb v i then MARK_ON else v_mark (var m v)))
    (fun i m' => mark_var m' i MARK_ON) 0 (len (m_vars m)) m) as (m' & E & ->).
  - lia.
  - unfold marking. destruct m as [vs jt ind ch out prev ic oc]. cbn [m_vars m_jt m_indep m_children m_out m_prev m_in_clique m_out_clique].
    f_equal. apply (list_ext_nth _ (mkVar 1 [] None false [] None None false 0)). { now rewrite map_length, seq_length. }
    intros i Hi. rewrite (nth_map _ _ _ _ _ 0) by (now rewrite seq_length). rewrite seq_nth by auto. cbn [Nat.add Nat.ltb Nat.leb].
    unfold var. cbn [m_vars]. destruct (nth i vs _); reflexivity.
  - intros i m' Hi ->. rewrite mark_marking by lia. eexists. split; [reflexivity|]. apply marking_ext. intros v Hv.
    destruct (Nat.eqb_spec v i) as [->|N].
    + destruct (Nat.ltb_spec i (S i)); auto; lia.
    + destruct (Nat.ltb_spec v i); destruct (Nat.ltb_spec v (S i)); auto; lia.
  - rewrite E. f_equal. rewrite <- marking_all. apply marking_ext. intros v Hv. destruct (Nat.ltb_spec v (len (m_vars m))); auto. lia.
Qed.

(** ** Inference for one series *)
Section Infer.
Variable names : list named_variable.
Variable m : model.
Hypothesis P : parsed t names m.
Local Notation mm := (all_marked m).
Local Notation NO := (nf_ok _ _ _ _ _ NF).
Local Notation CF := (nf_order _ _ _ _ _ NF).
Local Notation PR := (nf_proper _ _ _ _ _ NF).
Local Notation TS := (nf_slices _ _ _ _ _ NF).

(** The results are the chances given all records, or those until then. *)
Definition chances (ts : series) (vars : list nat) (all : bool) (results : list (list (list Qc))) : Prop :=
  len results = s_length ts /\
  forall s, s < s_length ts -> len (nth s results []) = len vars /\
    forall i, i < len vars -> len (nth i (nth s results []) []) = card (nth i vars 0) /\
      forall x, x < card (nth i vars 0) ->
        nth x (nth i (nth s results []) []) 0%Qc =
        chance t ts (if all then s_length ts else S s) (if all then s_length ts else S s) s (nth i vars 0) x.

Lemma conditional_ok : roots_given t -> conditional_slices card mm.
Proof.
  intros RG. apply conditional_marked; [apply P|]. eapply (parsed_conditional t NO CF RG); eauto using TS.
  - apply acyclic_children_first; [exact NO|exact CF].
  - intros d a Hd Ha. rewrite (PR d a Hd Ha). discriminate.
Qed.
Definition likely (ts : series) (l : list (Qc * Qc)) : Prop :=
  evidence t ts (s_length ts) (s_length ts) <> 0%Qc ->
  len l = s_length ts /\ ratios l = evidence t ts (s_length ts) (s_length ts).

Lemma smooth_one : forall m0 ts vars ll, model_ok card m0 -> same_model mm m0 -> fit_series n ts -> possible_series t ts ->
  (forall v, In v vars -> v < n) ->
  exists m' results l, forward_backward_inference m0 (to_ts ts) vars ll = Ok (m', results, l) /\
    model_ok card m' /\ same_model mm m' /\ chances ts vars true results /\
    (ll = true -> roots_given t -> likely ts l).
Proof.
  intros m0 ts vars ll M0 S0 F PO HV. assert (SO := slices_ok_same card mm m0 (mm_slices t names m P) M0 S0).
  assert (L0 : len (m_vars m0) = n). { destruct S0 as (_ & L & _). rewrite L. eapply mm_len; eauto. }
  assert (SR : series_ok m0 (to_ts ts)) by (apply to_ts_ok; now rewrite L0).
  assert (ET : forall S E, sum_steps card m0 S (unrolled m0 (to_ts ts) S E) = sum_steps card mm S (unrolled mm (to_ts ts) S E)).
  { intros S E. rewrite (sum_steps_same card mm m0 S _ S0). apply sum_steps_ext. intros a. now apply unrolled_same. }
  assert (DE : defined card m0 (to_ts ts)).
  { assert (D := defined_possible t NO CF PR TS names m P ts F PO). unfold defined in *. rewrite ET.
    destruct S0 as (_ & _ & _ & _ & _ & -> & _). exact D. }
  assert (HV' : forall v, In v vars -> v < len (m_vars m0)) by (intros v Hv; rewrite L0; auto).
  assert (LT := to_ts_len n ts F).
  destruct (forward_backward_ok card m0 (to_ts ts) SO SR vars ll HV' DE) as (m' & rs & l & E & M' & S' & _ & _).
  exists m', rs, l. split; auto. split; auto. split; [eapply same_model_trans; eauto|]. split.
  - destruct (C41_lemma card m0 (to_ts ts) vars ll SO SR DE HV') as (m2 & rs2 & l2 & E2 & R1 & R2). rewrite E in E2. injection E2 as <- <- <-.
    rewrite LT in *. split; auto. intros s Hs. destruct (R2 s Hs) as (A & B). split; auto. intros i Hi. destruct (B i Hi) as (C & D). split; auto.
    intros x Hx. rewrite D by auto. rewrite (posterior_same card mm m0 _ _ _ _ _ _ S0).
    now rewrite (posterior_chance t NO CF PR TS names m P ts F).
  - intros -> RG HE. assert (CS := LearnProofs4.conditional_same card mm m0 S0 (conditional_ok RG)).
    assert (EV := evidence_sum t NO CF PR TS names m P ts F (s_length ts) (s_length ts) (le_n _)).
    destruct (C41_likelihood_lemma card m0 (to_ts ts) vars SO SR CS) as (m2 & rs2 & l2 & E2 & R1 & R2); auto.
    { rewrite LT, ET, EV. exact HE. }
    rewrite E in E2. injection E2 as <- <- <-. rewrite LT in *. rewrite ET, EV in R2. auto.
Qed.

Lemma filter_one : forall m0 ts vars ll, model_ok card m0 -> same_model mm m0 -> fit_series n ts -> possible_series t ts ->
  (forall v, In v vars -> v < n) ->
  exists m' results l, forward_inference m0 (to_ts ts) vars ll = Ok (m', results, l) /\
    model_ok card m' /\ same_model mm m' /\ chances ts vars false results.
Proof.
  intros m0 ts vars ll M0 S0 F PO HV. assert (SO := slices_ok_same card mm m0 (mm_slices t names m P) M0 S0).
  assert (L0 : len (m_vars m0) = n). { destruct S0 as (_ & L & _). rewrite L. eapply mm_len; eauto. }
  assert (SR : series_ok m0 (to_ts ts)) by (apply to_ts_ok; now rewrite L0).
  assert (ET : forall S E, sum_steps card m0 S (unrolled m0 (to_ts ts) S E) = sum_steps card mm S (unrolled mm (to_ts ts) S E)).
  { intros S E. rewrite (sum_steps_same card mm m0 S _ S0). apply sum_steps_ext. intros a. now apply unrolled_same. }
  assert (DE : defined card m0 (to_ts ts)).
  { assert (D := defined_possible t NO CF PR TS names m P ts F PO). unfold defined in *. rewrite ET.
    destruct S0 as (_ & _ & _ & _ & _ & -> & _). exact D. }
  assert (HV' : forall v, In v vars -> v < len (m_vars m0)) by (intros v Hv; rewrite L0; auto).
  assert (LT := to_ts_len n ts F).
  destruct (forward_ok card m0 (to_ts ts) SO SR vars ll HV' DE) as (m' & rs & l & E & M' & S' & _ & _).
  exists m', rs, l. split; auto. split; auto. split; [eapply same_model_trans; eauto|].
  destruct (C40_lemma card m0 (to_ts ts) vars ll SO SR DE HV') as (m2 & rs2 & l2 & E2 & R1 & R2). rewrite E in E2. injection E2 as <- <- <-.
  rewrite LT in *. split; auto. intros s Hs. destruct (R2 s Hs) as (A & B). split; auto. intros i Hi. destruct (B i Hi) as (C & D). split; auto.
  intros x Hx. rewrite D by auto. rewrite (posterior_same card mm m0 _ _ _ _ _ _ S0).
  rewrite (posterior_chance t NO CF PR TS names m P ts F) by lia. reflexivity.
Qed.

(** ** nipinference *)
Lemma infer_all_ok : forall v, v < n -> forall ss m0, model_ok card m0 -> same_model mm m0 ->
  Forall (fun ts => fit_series n ts /\ possible_series t ts) ss ->
  exists m' us lls, infer_all m0 ss v = Ok (m', us, lls) /\
    Forall2 (fun ts u => ucs_variables u = [v] /\ chances ts [v] true (ucs_data u)) ss us /\
    (roots_given t -> Forall2 likely ss lls).
Proof.
  intros v Hv. induction ss as [|ts ss IH]; intros m0 M0 S0 FF; cbn [infer_all].
  - exists m0, [], []. split; [reflexivity|]. split; auto.
  - inversion FF as [|? ? (F & PO) FF']; subst.
    destruct (smooth_one m0 ts [v] true M0 S0 F PO) as (m' & rs & l & E & M' & S' & R & L). { intros w [<-|[]]; auto. }
    rewrite E. cbn [bind]. destruct (IH m' M' S' FF') as (m2 & us & lls & E2 & R2 & L2). rewrite E2. cbn [bind].
    exists m2, (mkUCS [v] rs :: us), (l :: lls). split; [reflexivity|]. split; [constructor; auto|]. intros RG. constructor; auto.
Qed.

Lemma chances_distributions : forall v ts rs, chances ts [v] true rs -> fit_series n ts ->
  distributions [v] rs v (card v) (map (fun row => nth 0 row []) rs).
Proof.
  intros v ts rs (L & H) F. exists 0. split; [split; [reflexivity|intros; lia]|]. rewrite <- L in H.
  assert (Q : Forall (fun row => nth_error row 0 = Some (nth 0 row []) /\ len (nth 0 row []) = card v /\
     Forall (fun q => (0 <= q)%Qc /\ (q <= 1)%Qc) (nth 0 row [])) rs).
  { apply Forall_forall. intros row Hr. apply In_nth with (d := []) in Hr. destruct Hr as (s & Hs & <-).
    destruct (H s Hs) as (A & B). destruct (B 0) as (C & D); [cbn; lia|]. cbn [nth] in C, D. split; [apply nth_error_nth'; cbn in A; lia|].
    split; auto. apply Forall_forall. intros q Hq. apply In_nth with (d := 0%Qc) in Hq. destruct Hq as (x & Hx & <-). rewrite C in Hx.
    rewrite D by auto. eapply chance_range; eauto using NO. }
  clear L H. induction Q; cbn [map]; constructor; auto.
Qed.

End Infer.
End Read.
