(** * Proofs: nipjoint *)
From Coq Require Import String Ascii Permutation Field.
From Verif Require Import Base BaseProofs StringModel StringSpec PotentialModel PotentialSpec PotentialProofs PotentialProofs2 VariableModel AssignSpec AssignProofs
  JoinTreeModel JoinTreeSpec JoinTreeProofs NipModel NipSpec NipProofs NipProofs2 NipProofs3 SliceModel SliceSpec SliceProofs SliceProofs2 SliceProofs3 SliceProofs4 SliceProofs5
  LearnModel LearnSpec LearnProofs2 LearnProofs6 LearnProofs8 SeriesFileModel SeriesFileSpec GatherModel GatherProofs2
  GraphModel ParseModel ParseSpec ParseProofs3 ParseProofs6 ParseProofs8 ParseProofs9
  NetLexModel NetGrammarModel NetSpec WriteModel WriteSpec WriteProofs ToolModel ToolSpec ToolModel2 ToolSpec2
  ToolProofs ToolProofs2 ToolProofs3 ToolProofs4 ToolProofs6 ToolProofs7
  ToolModel4 ToolSpec5 ToolProofs15.
Import ListNotations.
Open Scope nat_scope.
Local Open Scope res_scope.
Local Notation len := List.length.
Local Notation chars := list_ascii_of_string.
Add Field Qcfield_tool16 : Qcft.

Lemma filter_true : forall A (l : list A), filter (fun _ => true) l = l.
Proof. induction l; cbn; congruence. Qed.

Section Joint.
Variable k1 k2 : list pvar -> list nat -> Z.
Variable c : Z.
Variable net_text : list ascii.
Variable t : net.
Hypothesis NF : net_file k1 k2 c net_text t.
Local Notation card := (card_in t).
Local Notation n := (ParseSpec.size t).
Local Notation NO := (nf_ok _ _ _ _ _ NF).
Local Notation CF := (nf_order _ _ _ _ _ NF).
Local Notation PR := (nf_proper _ _ _ _ _ NF).

Section Model.
Variable names : list named_variable.
Variable m : model.
Hypothesis P : parsed t names m.
Local Notation MO := (so_model _ _ (pa_slices _ _ _ P)).

Lemma one_clique : (forall u v, u < n -> v < n -> u <> v -> connected t u v) -> len (cls (m_jt m)) = 1.
Proof.
  intros H. destruct (pa_cliques _ _ _ P (seq 0 n) (incl_refl _)) as (i & Hi & I).
  { intros u v Hu Hv. apply in_seq in Hu, Hv. apply H; lia. }
  assert (K : forall j, j < len (cls (m_jt m)) -> j = i).
  { intros j Hj. destruct (Nat.eq_dec j i) as [|N]; auto. exfalso. apply (pa_maximal _ _ _ P j i Hj Hi N).
    intros v Hv. apply I. apply in_seq. split; [lia|]. rewrite <- (pa_size _ _ _ P). exact (mo_scope _ _ MO j v Hj Hv). }
  destruct (Nat.eq_dec (len (cls (m_jt m))) 1) as [|N]; auto. assert (0 = i) by (apply K; lia). assert (1 = i) by (apply K; lia). lia.
Qed.

Lemma whole_file : forall a, valid card a -> (original m a * priors m (m_indep m) a)%Qc = file_joint t a.
Proof. intros a Ha. rewrite (whole_joint t NO names m P a Ha). exact (proper_joint t NO CF PR a Ha). Qed.
Lemma file_joint_nonneg : forall a, valid card a -> (0 <= file_joint t a)%Qc.
Proof.
  intros a Ha. apply qprod_nonneg. intros d Hd. destruct (table_of_table t NO d (no_decl t NO d Hd)) as (A & B). eapply den_nonneg; eauto.
Qed.
Lemma fits_record : forall ts a, fits_on t ts 0 (fun _ => true) a = record_fits t ts 0 a.
Proof. intros ts a. unfold fits_on, record_fits. apply forallb_ext_in. intros v _. destruct (said ts v 0); reflexivity. Qed.

Lemma agree_record : forall ts a, fit_series n ts -> 0 < s_length ts -> agree_on m MARK_BOTH (to_ts ts) 0 a = record_fits t ts 0 a.
Proof.
  intros ts a FS L. set (sel := fun v => Nat.eqb (v_mark (var m v)) MARK_ON).
  assert (MS : forall v, v < n -> masked (groups_of m sel) MARK_BOTH v = true /\ masked m MARK_BOTH v = true).
  { intros v Hv. unfold masked, groups_of. rewrite marking_var by (rewrite (pa_size _ _ _ P); exact Hv). cbn [v_mark set_vmark].
    unfold sel. destruct (pa_mark _ _ _ P v Hv) as [->| ->]; split; reflexivity. }
  rewrite <- fits_record. rewrite <- (agree_fits t m sel ts 0 MARK_BOTH (fun _ => true) a FS L (fun v Hv => proj1 (MS v Hv))).
  unfold agree_on. apply forallb_ext_in. intros j Hj. apply in_seq in Hj. unfold agree1. change (ts_observed (to_ts ts)) with (s_observed ts) in *.
  assert (V : nth j (s_observed ts) 0 < n) by (apply FS, nth_In; lia). destruct (MS _ V) as (-> & ->). reflexivity.
Qed.

Definition file_mass : Qc := sumv card (seq 0 n) (file_joint t) (fun _ => 0).

Lemma joint_steps : forall ts, fit_series n ts -> 0 < s_length ts ->
  exists ma mb mc md me mf, use_priors m false = Ok ma /\ make_consistent_model ma = Ok mb /\ model_prob_mass mb = Ok (mc, file_mass) /\
    insert_ts_step (to_ts ts) 0 mc MARK_BOTH = Ok (md, NO_ERROR) /\ make_consistent_model md = Ok me /\
    model_prob_mass me = Ok (mf, record_mass t ts (fun _ => true)) /\ model_ok card mf /\ same_model m mf /\
    forall a, valid card a -> joint (m_jt mf) a = given (record_fits t ts 0 a) (file_joint t a).
Proof.
  intros ts FS L.
  assert (ND : no_evidence card m). { intros v Hv. apply (pa_fresh _ _ _ P). now rewrite <- (pa_size _ _ _ P). }
  assert (R0 : represents card m (fun _ => 1%Qc)).
  { intros a Ha. destruct (pa_joint _ _ _ P a Ha) as (_ & ->). rewrite (no_evidence_one card m a ND Ha). ring. }
  destruct (use_priors_ok card m false _ MO R0) as (ma & Ea & Ma & Sa & La & _ & Ra).
  assert (PE : pending m false = m_indep m).
  { unfold pending. rewrite <- (filter_true _ (m_indep m)) at 2. apply filter_ext_in. intros v Hv. cbn [negb orb]. rewrite andb_true_r.
    destruct (pa_fresh _ _ _ P v) as (_ & ->); [|reflexivity]. rewrite (pa_indep _ _ _ P) in Hv. apply filter_In in Hv. destruct Hv as (Hv & _). apply in_seq in Hv. lia. }
  rewrite PE in Ra. set (F := fun a => (1 * priors m (m_indep m) a)%Qc) in *.
  assert (EA : forall a, valid card a -> NipSpec.evidence ma a = given true 1%Qc).
  { intros a Ha. cbn [given]. apply (no_evidence_one card ma a); auto. intros v Hv. rewrite La. apply ND. assert (Q : len (m_vars ma) = len (m_vars m)) by apply Sa. lia. }
  destruct (consistent_mass card m ma F (fun _ => true) Ma Sa Ra EA) as (mb & mc & Eb & Ec & Mc & Sc & Rc & Lc & Vc).
  assert (Nc : len (m_vars mc) = len (m_vars m)) by apply Sc.
  assert (SR : series_ok mc (to_ts ts)). { destruct (to_ts_ok m ts) as (A & B & C). { now rewrite (pa_size _ _ _ P). } split; auto. rewrite Nc. auto. }
  assert (LT := to_ts_len _ ts FS).
  destruct (insert_masked card mc MARK_BOTH (to_ts ts) 0 _ Mc SR ltac:(lia) Rc) as (md & Ed & Md & Sd & Rd & Ld & Vd).
  { intros v Hv _. rewrite Lc, La. apply ND. lia. }
  assert (SD : same_model m md) by (eapply same_model_trans; eauto).
  assert (ED : forall a, valid card a -> NipSpec.evidence md a = given (record_fits t ts 0 a) 1%Qc).
  { intros a Ha. rewrite Vd, Vc, EA, (agree_same m mc), agree_record by auto. cbn [given]. ring. }
  destruct (consistent_mass card m md F _ Md SD Rd ED) as (me & mf & Ee & Ef & Mf & Sf & Rf & Lf & Vf).
  exists ma, mb, mc, md, me, mf.
  assert (ZV : valid card (fun _ => 0)) by (intros v; apply (card_pos t names m P)).
  split; [exact Ea|]. split; [exact Eb|]. split.
  { rewrite Ec. do 2 f_equal. rewrite (pa_size _ _ _ P). unfold file_mass. apply sumv_ext; auto. intros a Ha. cbn [given]. unfold F. rewrite <- whole_file by auto. ring. }
  split; [exact Ed|]. split; [exact Ee|]. split.
  { rewrite Ef. do 2 f_equal. rewrite (pa_size _ _ _ P). unfold record_mass. apply sumv_ext; auto. intros a Ha. rewrite andb_true_r. unfold F.
    destruct (record_fits t ts 0 a); cbn [given]; auto. rewrite <- whole_file by auto. ring. }
  split; auto. split; auto. intros a Ha. rewrite Rf, Vf, ED, (same_original m mf a Sf) by auto. unfold F.
  destruct (record_fits t ts 0 a); cbn [given]; [|ring]. rewrite <- whole_file by auto. ring.
Qed.

Lemma file_mass_one : roots_given t -> file_mass = 1%Qc.
Proof.
  intros RG. destruct (conditional_ok k1 k2 c net_text t NF names m P RG) as (H & _). rewrite <- H. unfold sum_all, file_mass.
  assert (LL : len (m_vars (all_marked m)) = n) by (rewrite <- (pa_size _ _ _ P); apply map_length). rewrite LL.
  apply sumv_ext; [intros v; apply (card_pos t names m P)|]. intros a Ha. rewrite <- whole_file by auto.
  change (original (all_marked m) a) with (original m a). change (m_indep (all_marked m)) with (m_indep m).
  rewrite (priors_mm t names m P) by apply incl_refl. reflexivity.
Qed.

(** The table of get_joint_probability. *)
Lemma joint_table : forall ts mf vars, model_ok card mf -> same_model m mf -> len (cls (m_jt m)) = 1 ->
  (forall a, valid card a -> joint (m_jt mf) a = given (record_fits t ts 0 a) (file_joint t a)) ->
  NoDup vars -> vars <> [] -> (forall v, In v vars -> v < n) ->
  exists m' p, get_joint_probability mf vars = Ok (m', Some p) /\ wf p /\ dims p = map card vars /\
    (forall ix, In ix (all_ix (map card vars)) -> cell p ix = joint_chance t ts vars ix) /\
    Forall (fun q => (0 <= q)%Qc /\ (q <= 1)%Qc) (data p).
Proof.
  intros ts mf vars M S L J ND NE HV. assert (NF' : len (m_vars mf) = n). { rewrite <- (pa_size _ _ _ P). apply S. }
  assert (LF : len (cls (m_jt mf)) = 1). { rewrite <- L. destruct S as ((A & _) & _). exact A. }
  destruct (C39_partial_lemma card mf vars M LF ND NE) as (m' & p & E & (_ & W & D) & H & _).
  { intros v Hv. rewrite NF'. auto. }
  exists m', p. split; [exact E|]. split; [exact W|]. split; [exact D|].
  assert (CP : forall v, 0 < card v) by (intros v; apply (card_pos t names m P)).
  assert (ZV : valid card (fun _ => 0)) by exact CP.
  assert (XJ : ext (fun a => given (record_fits t ts 0 a) (file_joint t a))).
  { intros a b Eab. f_equal.
    - unfold record_fits. apply forallb_ext_in. intros v _. now rewrite Eab.
    - unfold file_joint. f_equal. apply map_ext. intros d. unfold den. now rewrite (map_ext a b Eab). }
  assert (C : forall ix, In ix (all_ix (map card vars)) -> cell p ix = joint_chance t ts vars ix).
  { intros ix I. apply all_ix_valid in I. destruct (ix_assignment card vars ix (fun _ => 0) ND ZV I) as (a & Va & Ea & Oa).
    assert (DE : cell p ix = den vars p a) by (unfold den; now rewrite Ea). rewrite DE, H by auto. unfold joint_chance, record_mass. rewrite NF'. f_equal.
    - transitivity (sumv card (minus (seq 0 n) vars) (fun a => given (record_fits t ts 0 a) (file_joint t a)) a); [apply sumv_ext; auto|].
      rewrite (marginal_given card (seq 0 n) vars _ a ix); auto using seq_NoDup.
      2: { intros v Hv. apply in_seq. apply HV in Hv. lia. }
      etransitivity.
      + apply (sumv_base card (seq 0 n) _ a (fun _ => 0)).
        * intros x y Exy. rewrite (map_ext x y Exy). f_equal. now apply XJ.
        * intros v Hv. apply Oa. intros K. apply Hv. apply in_seq. apply HV in K. lia.
      + apply sumv_ext_free. intros d _. destruct (record_fits t ts 0 d), (ix_eqb (map d vars) ix); reflexivity.
    - f_equal. unfold sum_all. rewrite NF'. apply sumv_ext; auto. intros b Hb. rewrite J by auto. now rewrite andb_true_r. }
  split; [exact C|].
  assert (RG : forall ix, (0 <= joint_chance t ts vars ix)%Qc /\ (joint_chance t ts vars ix <= 1)%Qc).
  { intros ix. unfold joint_chance. set (A := record_mass t ts (fun a => ix_eqb _ _)). set (B := record_mass t ts (fun _ => true)).
    assert (A0 : (0 <= A)%Qc). { apply sumv_nonneg; auto. intros b Hb. apply given_nonneg. now apply file_joint_nonneg. }
    assert (B0 : (0 <= B)%Qc). { apply sumv_nonneg; auto. intros b Hb. apply given_nonneg. now apply file_joint_nonneg. }
    assert (AB : (A <= B)%Qc).
    { apply sumv_le; auto. intros b Hb. assert (K := file_joint_nonneg b Hb). destruct (record_fits t ts 0 b), (ix_eqb (map b vars) ix); cbn [andb given]; try apply Qcle_refl; exact K. }
    split; [now apply Qc_div_nonneg|]. destruct (Qc_eq_dec B 0%Qc) as [Z|Z].
    - rewrite Z. unfold Qcdiv. replace (/ 0)%Qc with 0%Qc by (apply Qc_is_canon; reflexivity). rewrite Qcmult_0_r. discriminate.
    - assert (BP : (0 < B)%Qc). { destruct (Qcle_lt_or_eq _ _ B0) as [|K]; auto. now symmetry in K. }
      apply (Qcmult_lt_0_le_reg_r _ _ B BP). unfold Qcdiv. rewrite <- Qcmult_assoc, (Qcmult_comm (/ B)), Qcmult_inv_r by auto.
      now rewrite Qcmult_1_r, Qcmult_1_l. }
  apply Forall_forall. intros q Hq. apply (In_nth _ _ 0%Qc) in Hq. destruct Hq as (k & Hk & <-).
  destruct W as (POS & LD & _). rewrite LD in Hk. rewrite <- (flat_unflat (dims p) k POS Hk). change (nth (flat (dims p) ?ix) (data p) 0%Qc) with (cell p ix).
  assert (V := unflat_valid (dims p) k POS). rewrite D in V. fold (cell p (unflat (dims p) k)). rewrite D. rewrite C by now apply all_ix_valid. apply RG.
Qed.
End Model.

Lemma joint_asked_ok : forall cols symbols0, (symbols0 = [] -> NoDup (map snd cols) /\ forall v, In v (map snd cols) -> v < n) ->
  incl symbols0 (symbols t) -> NoDup symbols0 ->
  joint_asked t cols symbols0 <> [] /\ NoDup (joint_asked t cols symbols0) /\ forall v, In v (joint_asked t cols symbols0) -> v < n.
Proof.
  intros cols l HC I ND. unfold joint_asked. destruct l as [|s l].
  - destruct (HC eq_refl) as (N & B). destruct (without_column t cols) as [|v r] eqn:E.
    + destruct cols as [|x cols].
      { exfalso. unfold without_column in E. cbn [map existsb negb] in E. rewrite filter_true in E.
        assert (NN := no_nodes t NO). unfold ParseSpec.size in E. destruct (n_nodes t); [congruence|discriminate]. }
      cbn [firstn map]. split; [discriminate|]. split; [repeat constructor; auto|]. intros v [<-|[]]. apply B. now left.
    + rewrite <- E. split; [rewrite E; discriminate|]. split; [apply NoDup_filter, seq_NoDup|].
      intros u Hu. apply filter_In in Hu. destruct Hu as (Hu & _). apply in_seq in Hu. lia.
  - split; [discriminate|].
    assert (NM : forall x, In x (symbols t) -> nth (ParseSpec.number t x) (symbols t) EmptyString = x) by (intros; now apply nth_number).
    split.
    + clear -ND I NM. induction (s :: l) as [|x r IH]; cbn [map]; constructor.
      * intros K. apply in_map_iff in K. destruct K as (y & Ey & Hy). inversion ND; subst.
        assert (x = y). { rewrite <- (NM x), <- (NM y) by (apply I; simpl; auto). congruence. } subst. contradiction.
      * inversion ND; subst. apply IH; auto. intros y Hy. apply I. now right.
    + intros v Hv. apply in_map_iff in Hv. destruct Hv as (x & <- & Hx).
      destruct (net_reads k1 k2 c net_text t NF) as (names & m & g & ks & size & _ & P).
      destruct (symbol_number k1 k2 c net_text t NF names m x P) as (_ & Q); auto.
Qed.

Section Data.
Variable data_text : list ascii.
Variable cols : list (nat * nat).
Variable ts : series.
Variable ss : list series.
Hypothesis DF : data_file t data_text cols (ts :: ss).

Lemma first_fits : fit_series n ts /\ s_observed ts = map snd cols /\ 0 < s_length ts /\ s_hidden ts = without_column t cols.
Proof. exact (Forall_inv (data_fits t data_text cols (ts :: ss) DF)). Qed.

Lemma joint_variables_ok : forall names m, parsed t names m -> forall l, incl l (symbols t) ->
  joint_variables names ts l = Ok (Some (joint_asked t cols l)).
Proof.
  intros names m P l I. destruct first_fits as (_ & O & _ & HH). unfold joint_variables, joint_asked. rewrite HH, O. destruct l as [|s l].
  - destruct (without_column t cols) as [|v r] eqn:E; [|reflexivity]. cbn [len Nat.ltb Nat.leb].
    destruct cols as [|x cs].
    { exfalso. unfold without_column in E. cbn [map existsb negb] in E. rewrite filter_true in E.
      assert (NN := no_nodes t NO). unfold ParseSpec.size in E. destruct (n_nodes t); [congruence|discriminate]. }
    reflexivity.
  - apply (joint_named_ok k1 k2 c net_text t NF names m P). exact I.
Qed.

Lemma asked_ok : forall l, incl l (symbols t) -> NoDup l ->
  joint_asked t cols l <> [] /\ NoDup (joint_asked t cols l) /\ forall v, In v (joint_asked t cols l) -> v < n.
Proof.
  intros l I N. apply joint_asked_ok; auto. intros _. destruct first_fits as ((A & B & _) & O & _). rewrite <- O. auto.
Qed.

Lemma C85_lemma : forall l, (forall u v, u < n -> v < n -> u <> v -> connected t u v) -> incl l (symbols t) -> NoDup l ->
  exists out m1, nipjoint k1 k2 (fresh_globals c) (Some net_text) (Some data_text) l =
      Ok (0%Z, out, Some (m1, record_mass t ts (fun _ => true))) /\ (roots_given t -> m1 = 1%Qc) /\
    joint_output t (joint_asked t cols l) (joint_chance t ts (joint_asked t cols l)) out.
Proof.
  intros l CN I N. destruct (net_reads k1 k2 c net_text t NF) as (names & m & g & ks & size & E & P).
  destruct first_fits as (FS & _ & LS & _). destruct (asked_ok l I N) as (A1 & A2 & A3).
  destruct (joint_steps names m P ts FS LS) as (ma & mb & mc & md & me & mf & Ea & Eb & Ec & Ed & Ee & Ef & M & S & J).
  destruct (joint_table names m P ts mf _ M S (one_clique names m P CN) J A2 A1 A3) as (m' & p & Ep & W & D & C & R).
  unfold nipjoint. rewrite E. cbn [bind]. rewrite Ea. cbn [bind]. rewrite (data_reads k1 k2 c net_text t NF data_text cols _ DF names m P). cbn [bind].
  rewrite Eb. cbn [bind]. rewrite Ec. cbn [bind]. rewrite Ed. cbn [bind]. rewrite Ee. cbn [bind]. rewrite Ef. cbn [bind].
  rewrite (joint_variables_ok names m P l I). cbn [bind]. rewrite Ep. cbn [bind].
  rewrite (joint_head_ok k1 k2 c net_text t NF names m P _ A1 A3). cbn [bind].
  destruct (fprintf_potential_ok p (joint_heading t (joint_asked t cols l)) W) as (lines & EL & HL); auto.
  { rewrite D. destruct (joint_asked t cols l); [congruence|discriminate]. }
  rewrite EL. cbn [bind]. exists (joint_heading t (joint_asked t cols l) ++ concat lines), file_mass. split; [reflexivity|]. split; [exact (file_mass_one names m P)|].
  exists lines. split; [|reflexivity]. rewrite D in HL. clear -HL C. revert C.
  assert (K : forall l0, incl l0 (all_ix (map card (joint_asked t cols l))) -> forall l1, Forall2 (fun ix line => joint_line ix (cell p ix) line) l0 l1 ->
    (forall ix, In ix (all_ix (map card (joint_asked t cols l))) -> cell p ix = joint_chance t ts (joint_asked t cols l) ix) ->
    Forall2 (fun ix line => joint_line ix (joint_chance t ts (joint_asked t cols l) ix) line) l0 l1).
  { intros l0 I l1 H C. induction H as [|ix ln l0 l1 H HF IH]; constructor.
    - rewrite <- C by (apply I; now left). exact H.
    - apply IH. intros z Hz. apply I. now right. }
  intros C. apply K; auto using incl_refl.
Qed.

Lemma C85_unknown_lemma : forall l, ~ incl l (symbols t) ->
  exists out, nipjoint k1 k2 (fresh_globals c) (Some net_text) (Some data_text) l = Ok ((-1)%Z, out, None).
Proof.
  intros l I. destruct (net_reads k1 k2 c net_text t NF) as (names & m & g & ks & size & E & P).
  destruct first_fits as (FS & _ & LS & _).
  destruct (joint_steps names m P ts FS LS) as (ma & mb & mc & md & me & mf & Ea & Eb & Ec & Ed & Ee & Ef & _).
  unfold nipjoint. rewrite E. cbn [bind]. rewrite Ea. cbn [bind]. rewrite (data_reads k1 k2 c net_text t NF data_text cols _ DF names m P). cbn [bind].
  rewrite Eb. cbn [bind]. rewrite Ec. cbn [bind]. rewrite Ed. cbn [bind]. rewrite Ee. cbn [bind]. rewrite Ef. cbn [bind].
  destruct l as [|s l]; [elim I; intros x []|]. cbn [joint_variables]. rewrite (joint_named_unknown k1 k2 c net_text t NF names m P _ I). cbn [bind].
  eexists. reflexivity.
Qed.

Lemma C85_cliques_lemma : forall l names m g ks size,
  parse_file k1 k2 (fresh_globals c) net_text = Ok (Some (names, m, g, ks, size)) -> 2 <= len (cls (m_jt m)) ->
  incl l (symbols t) -> NoDup l ->
  forall r, nipjoint k1 k2 (fresh_globals c) (Some net_text) (Some data_text) l <> Ok r.
Proof.
  intros l names m g ks size E L2 I N r. destruct (net_reads k1 k2 c net_text t NF) as (names' & m' & g' & ks' & size' & E' & P).
  rewrite E in E'. injection E' as <- <- <- <- <-.
  destruct first_fits as (FS & _ & LS & _). destruct (asked_ok l I N) as (A1 & A2 & A3).
  destruct (joint_steps names m P ts FS LS) as (ma & mb & mc & md & me & mf & Ea & Eb & Ec & Ed & Ee & Ef & M & S & J).
  unfold nipjoint. rewrite E. cbn [bind]. rewrite Ea. cbn [bind]. rewrite (data_reads k1 k2 c net_text t NF data_text cols _ DF names m P). cbn [bind].
  rewrite Eb. cbn [bind]. rewrite Ec. cbn [bind]. rewrite Ed. cbn [bind]. rewrite Ee. cbn [bind]. rewrite Ef. cbn [bind].
  rewrite (joint_variables_ok names m P l I). cbn [bind].
  assert (LF : 2 <= len (cls (m_jt mf))). { destruct S as ((Q & _) & _). rewrite Q. exact L2. }
  assert (K := C39_refuted_lemma card mf _ M LF A2 A1).
  destruct (get_joint_probability mf (joint_asked t cols l)) as [(m2 & [p|])| |] eqn:EG; cbn [bind]; try discriminate.
  - now elim (K m2 p).
  - rewrite (joint_head_ok k1 k2 c net_text t NF names m P _ A1 A3). discriminate.
Qed.
End Data.

Lemma C85_no_series_lemma : forall data_text cols l, data_file t data_text cols [] ->
  exists out, nipjoint k1 k2 (fresh_globals c) (Some net_text) (Some data_text) l = Ok ((-1)%Z, out, None).
Proof.
  intros data_text cols l DF. destruct (net_reads k1 k2 c net_text t NF) as (names & m & g & ks & size & E & P).
  assert (ND : no_evidence card m). { intros v Hv. apply (pa_fresh _ _ _ P). now rewrite <- (pa_size _ _ _ P). }
  assert (R0 : represents card m (fun _ => 1%Qc)).
  { intros a Ha. destruct (pa_joint _ _ _ P a Ha) as (_ & ->). rewrite (no_evidence_one card m a ND Ha). ring. }
  destruct (use_priors_ok card m false _ (so_model _ _ (pa_slices _ _ _ P)) R0) as (ma & Ea & _).
  unfold nipjoint. rewrite E. cbn [bind]. rewrite Ea. cbn [bind]. rewrite (data_reads k1 k2 c net_text t NF data_text cols _ DF names m P). cbn [bind].
  eexists. reflexivity.
Qed.
End Joint.
