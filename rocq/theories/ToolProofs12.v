(** * Proofs: niptrain *)
From Coq Require Import String Ascii Permutation QArith.Qcanon Field.
From Verif Require Import Base BaseProofs StringSpec PotentialModel PotentialSpec PotentialProofs VariableModel AssignSpec AssignProofs
  JoinTreeModel JoinTreeSpec JoinTreeProofs NipModel NipSpec NipProofs NipProofs2 SliceModel SliceSpec SliceProofs SliceProofs2 SliceProofs4
  LearnModel LearnSpec LearnProofs2 LearnProofs3 LearnProofs4 LearnProofs5 FactorProofs SeriesFileModel SeriesFileSpec
  GraphModel ParseModel ParseSpec ParseProofs3 ParseProofs5 ParseProofs6 ParseProofs8 ParseProofs9 ParseProofs10
  NetLexModel NetGrammarModel NetSpec WriteModel WriteSpec WriteProofs WriteProofs4 WriteProofs6 WriteProofs7 WriteProofs8 WriteProofs9 WriteProofs10 WriteProofs11
  LearnProofs8 ToolModel ToolModel3 ToolSpec ToolSpec3 ToolProofs ToolProofs3 ToolProofs9 ToolProofs10 ToolProofs11.
Import ListNotations.
Open Scope nat_scope.
Local Open Scope list_scope.
Local Open Scope res_scope.
Local Notation len := List.length.

Add Field Qcfield_tool12 : Qcft.

Lemma home_same : forall m m' v, same_model m m' -> home m' v = home m v.
Proof. intros m m' v S. apply home_structure. now apply same_structure_model. Qed.
Lemma family_sum_same : forall card m m' v a, same_model m m' -> family_sum card m' v a = family_sum card m v a.
Proof.
  intros card m m' v a S. unfold family_sum. rewrite (home_same m m' v S), (family_same m m' v S). destruct S as ((_ & _ & S & _) & _).
  destruct (S (home m v)) as (-> & _ & ->). reflexivity.
Qed.
Lemma distribution_same : forall card m m' v a, same_model m m' -> distribution card m' v a = distribution card m v a.
Proof.
  intros card m m' v a S. unfold distribution, has_parents. assert (F := fun b => family_sum_same card m m' v b S). destruct S as (_ & _ & V & _).
  destruct (V v) as (_ & -> & -> & _). destruct (v_parents (var m v)); auto. rewrite F.
  apply (f_equal (fun z => (_ / z)%Qc)). cbn [sumv]. f_equal. apply map_ext. auto.
Qed.
Lemma describes_same : forall card m m' names pages t, same_model m m' -> describes card m names pages t -> describes card m' names pages t.
Proof.
  intros card m m' names pages t S D. assert (V := S). destruct V as (_ & L & V & I & C & _). constructor; try apply D.
  - rewrite I, C. apply D.
  - intros d Hd. destruct (V (child_of t d)) as (_ & _ & -> & _). now apply D.
  - intros d Hd. destruct (ds_table _ _ _ _ _ D d Hd) as (A & B). split; auto. intros a Ha. rewrite (distribution_same card m m') by auto. auto.
Qed.
Lemma same_model_sym : forall m m', same_model m m' -> same_model m' m.
Proof.
  intros m m' ((A & A1 & A2 & A3) & B & C & D & E & F & G & H & I).
  repeat split; try congruence; intros; try (symmetry; apply C); try (symmetry; apply A2); try (symmetry; apply A3).
Qed.

Section Train.
Variable t : net.
Hypothesis NO : net_ok t.
Hypothesis CF : children_first t.
Hypothesis TS : two_slices t.
Hypothesis PRT : printable t.
Variable names : list named_variable.
Variable m0 : model.
Hypothesis P : parsed t names m0.
Hypothesis MK : forall v, v < len (m_vars m0) -> v_mark (var m0 v) = MARK_ON.
Local Notation card := (card_in t).
Local Notation n := (ParseSpec.size t).
Local Notation good := (good_tables t).
Local Notation net_of qs := (with_tables t qs).
Local Notation has := (has_tables t m0).
Variable ks : list looks.
Variable size : Z * Z.
Hypothesis DOC : look_alike t ks size.
Variable vl : list pvar.
Hypothesis LVL : len vl = n.
Hypothesis NEXT : forall v x, nth_error vl v = Some x -> pv_next x = next_in t v.
Local Notation pages := (map (fun '(k, v) => page_of k v) (combine ks vl)).
Hypothesis LOOKS : map looks_on pages = map labelled ks.

(** The text of a file that is written for the tables [u]. *)
Definition trained_text (text : list ascii) (u : net) : Prop :=
  exists toks ts t', text_tokens text toks /\ Forall2 reads_as toks ts /\ document t' (map labelled ks) size ts /\
    net_ok t' /\ same_declarations t t' /\
    (forall v a, v < n -> valid card a -> rounded (WriteSpec.entry u v a) (WriteSpec.entry t' v a)) /\
    forall k1 k2 c, cliques_fit k1 k2 t -> (c + Z.of_nat n <= LONG_MAX)%Z ->
      exists names2 pages2 m2 g2, load k1 k2 (fresh_globals c) text = Ok (Some (names2, pages2, size, m2, g2)) /\ parsed t' names2 m2.

Lemma has_same : forall qs m m', has qs m -> same_model m m' -> model_ok card m' -> has qs m'.
Proof.
  intros qs m m' (G & HL & S & I) SM M. split; auto. split; [eapply learnable_same; eauto|].
  split; [eapply same_structure_trans; [exact S|now apply same_structure_model]|]. destruct I as (I1 & I2 & I3). split; [|split].
  - intros a Ha. rewrite (same_original m m') by auto. auto.
  - eapply factored_same; eauto.
  - intros v Hv HP. destruct (I3 v Hv HP) as (l & El & Q). exists l. split; auto. destruct SM as (_ & _ & SV & _). destruct (SV v) as (_ & -> & _). auto.
Qed.
Lemma same_decls_net : forall qs t', same_declarations (net_of qs) t' -> same_declarations t t'.
Proof.
  intros qs t' [A B C]. constructor; auto. intros v Hv. rewrite (C v Hv). now apply with_parents.
Qed.
Lemma happens_net : forall qs v a, good qs -> v < n -> valid card a -> happens (net_of qs) v a.
Proof.
  intros qs v a G Hv Ha. exists a. split; auto. split; auto. apply Qc_pos_neq. unfold parsed_joint. apply qprod_pos. intros d Hd.
  assert (NU := with_ok t NO qs G). rewrite <- (decl_of_child (net_of qs) NU d Hd).
  assert (Hc : child_of (net_of qs) d < n). { assert (I := in_map (child_of (net_of qs)) _ _ Hd). eapply Permutation_in in I; [|apply (children_perm _ NU)].
    apply in_seq in I. change (ParseSpec.size (net_of qs)) with n in I. lia. }
  rewrite (with_factor t NO CF qs G) by auto. now apply G.
Qed.

Lemma write_ok : forall qs m, has qs m -> exists m' text, write_model true true names pages size m = Ok (m', Some text, NO_ERROR) /\
  has qs m' /\ trained_text text (net_of qs).
Proof.
  intros qs m H. destruct (stands t NO CF names m0 P MK qs m H) as (m2 & S2 & P2 & _). assert (H0 := H). destruct H0 as (G & HL & _).
  assert (NU := with_ok t NO qs G). assert (CU := with_children_first t CF qs). assert (TU := with_two_slices t TS qs).
  assert (KU := with_columns t NO qs G). assert (RU := with_roots t qs). assert (PU := with_printable t qs PRT).
  assert (HW2 : writable card m2 names pages size) by exact (read_writable (net_of qs) ks size DOC NU CU TU KU RU PU names m2 P2 vl LVL NEXT).
  assert (HW : writable card m names pages size) by (eapply writable_same; [exact HW2|now apply same_model_sym]).
  destruct (write_model_ok card m names pages size HW HL) as (m' & text & toks & ts & t' & W & M & S & _ & _ & T1 & T2 & D & DS).
  exists m', text. split; auto. split; [eapply has_same; eauto|]. rewrite LOOKS in D.
  assert (DS2 := describes_same card m m2 names pages t' S2 DS).
  assert (NO' : net_ok t') by (exact (again_ok (net_of qs) ks size DOC NU CU TU KU RU PU names m2 P2 vl LVL NEXT t' DS2)).
  assert (SD : same_declarations t t').
  { apply (same_decls_net qs). exact (again_same (net_of qs) ks size DOC NU CU TU KU RU PU names m2 P2 vl LVL NEXT t' DS2). }
  exists toks, ts, t'. split; auto. split; auto. split; auto. split; auto. split; auto. split.
  - intros v a Hv Ha. destruct (again_entries (net_of qs) ks size DOC NU CU TU KU RU PU names m2 P2 vl LVL NEXT t' DS2 v a Hv Ha) as (K & _).
    rewrite (with_entry t NO qs G) by auto. rewrite <- (with_factor t NO CF qs G) by auto. apply K. now apply happens_net.
  - intros k1 k2 c FIT HC. rewrite <- (same_size t t' SD) in HC.
    destruct (parse_succeeds t' NO' c k1 k2 HC) as (names2 & mm2 & g2 & E2 & PP2). { now apply (same_fit t t'). }
    destruct (load_succeeds k1 k2 _ text toks ts t' (map labelled ks) size T1 T2 D names2 mm2 g2 E2) as (pages2 & E3).
    exists names2, pages2, mm2, g2. auto.
Qed.

(** ** The loops *)
Variable ss : list series.
Hypothesis FS : Forall (fit_series n) ss.
Hypothesis NE : ss <> [].
Variable rnd : nat -> nat -> nat -> nat -> Qc.
Hypothesis RP : forall i k v x, (0 < rnd i k v x)%Qc.
Variable file : bool.
Local Notation data := (map to_ts ss).

Definition state_ok (random : bool) (m : model) : Prop :=
  learnable card m /\ same_structure m0 m /\ (random = true \/ exists qs, has qs m /\ learned rnd ss t file (net_of qs)).
Definition run_ok (r : run_state) (curve : list Qc) (remain : Z) (growth : Qc) : Prop :=
  exists qs, has qs (r_model r) /\ learned rnd ss t file (net_of qs) /\
  exists more, r_curve r = curve ++ more /\ len more <= Z.to_nat (Z.max 1 remain) + 2 /\
  (r_code r = BAD_LUCK \/
   r_code r = NO_ERROR /\ exists before ls u1, more = before ++ ls /\ 3 <= len ls /\ started rnd ss t file u1 /\ estimates ss u1 ls (net_of qs) /\
     (last ls 0 <= 1)%Qc /\
     ((remain <= BATCH_ITERATIONS)%Z -> before = [] /\
        (~ improves growth (nth (len ls - 2) ls 0%Qc) (last ls 0%Qc) \/ (remain <= Z.of_nat (len ls))%Z))).

Lemma run_lemma : forall growth tiny i fuel k remain random m curve stop, state_ok random m ->
  (Z.to_nat remain < fuel -> train_run fuel names pages size data growth tiny (rnd i) k remain random m curve stop <> NoFuel) /\
  (train_run fuel names pages size data growth tiny (rnd i) k remain random m curve stop = NoFuel \/
   exists r, train_run fuel names pages size data growth tiny (rnd i) k remain random m curve stop = Ok r /\ run_ok r curve remain growth).
Proof.
  intros growth tiny i. induction fuel as [|fuel IH]; intros k remain random m curve stop (HL & S & D); [split; [lia|now left]|].
  cbn [train_run]. set (current := if (BATCH_ITERATIONS <? remain)%Z then BATCH_ITERATIONS else remain).
  assert (CU : (current <= remain)%Z /\ (current <= 32)%Z /\ ((remain <= 32)%Z -> current = remain) /\ ((32 < remain)%Z -> current = 32%Z)).
  { unfold current, BATCH_ITERATIONS. destruct (Z.ltb_spec 32 remain); lia. }
  assert (R : ready t m0 (if random then Some (rnd i k) else None) m).
  { split; auto. split; auto. destruct random; [auto|]. destruct D as [D|(qs & H & _)]; [discriminate|eauto]. }
  destruct (batch_ok t NO CF TS names m0 P MK ss FS _ m current growth tiny curve R NE) as
    (m' & o & u1 & qs & ls & vs & E & BS & H & ES & OC & LE & FIN).
  rewrite E. cbn [bind].
  assert (ST : started rnd ss t file u1).
  { destruct random; cbn [batch_start] in BS.
    - eapply started_random; eauto.
    - destruct D as [D|(q & Hq & Lq)]; [discriminate|]. eapply started_again; eauto. }
  assert (LQ : learned rnd ss t file (net_of qs)) by (eapply learned_batch; eauto).
  destruct (write_ok qs m' H) as (mw & text & W & HW & _).
  set (stop' := match o_criterion o with Some c => Some c | None => stop end).
  set (remain' := match stop' with Some DELTA => 0%Z | _ => (remain - current)%Z end).
  assert (CODE : o_code o = NO_ERROR \/ o_code o = BAD_LUCK) by tauto.
  set (random' := match stop' with Some ITERATIONS => false | _ => random end).
  assert (SK : state_ok random' mw).
  { destruct HW as (G & HL' & S' & I'). split; auto. split; auto. right. exists qs. split; auto. split; auto. }
  match goal with |- (_ -> ?a <> NoFuel) /\ _ => set (whole := a) end.
  assert (WE : whole = if (0 <? remain')%Z
     then train_run fuel names pages size data growth tiny (rnd i) (k + 1) remain' random' mw (o_curve o) stop'
     else Ok (mkRun mw (o_curve o) stop' (o_code o) (Some text))).
  { unfold whole. destruct CODE as [C|C]; rewrite C, W; cbn [bind]; fold stop'; fold random'; fold remain'; reflexivity. }
  rewrite WE. clear whole WE. destruct (Z.ltb_spec 0 remain') as [PL|PL].
  - assert (LB : (32 < remain)%Z /\ remain' = (remain - 32)%Z /\ current = 32%Z).
    { unfold remain' in *. destruct stop' as [[]|]; destruct (Z.le_gt_cases remain 32); lia. }
    destruct LB as (L1 & L2 & L3). destruct (IH (k + 1) remain' random' mw (o_curve o) stop' SK) as (I1 & I2). split.
    + intros F. apply I1. lia.
    + destruct I2 as [I2|(r & Er & q & Hq & Lq & more & Em & Lm & FI)]; [now left|right]. exists r. split; auto.
      exists q. split; auto. split; auto. exists (ls ++ more). rewrite OC in Em. rewrite <- app_assoc in Em. split; auto.
      split. { rewrite app_length. rewrite L3 in LE. change (Nat.max 3 (Z.to_nat 32)) with 32 in LE. lia. }
      destruct FI as [FI|(FI & before & ls2 & u2 & -> & F1 & F2 & F3 & F4 & F5)]; [now left|right]. split; auto.
      exists (ls ++ before), ls2, u2. rewrite <- app_assoc. split; auto. split; auto. split; auto. split; auto. split; auto.
      unfold BATCH_ITERATIONS. lia.
  - split; [discriminate|]. right. eexists. split; [reflexivity|]. exists qs. cbn [r_model r_curve r_code]. split; auto. split; auto.
    exists ls. split; auto. split. { destruct CU as (C1 & C2 & C3 & C4). lia. }
    destruct FIN as [(C & -> & L3 & L1 & CR)|(C & _)]; [right|now left]. split; auto. exists [], ls, u1. split; auto. split; auto. split; auto. split; auto. split; auto.
    unfold BATCH_ITERATIONS. intros LL. split; auto. destruct CR as [(_ & CR)|(_ & CR)]; [now left|right]. destruct CU as (_ & _ & C3 & _). rewrite (C3 LL) in CR. auto.
Qed.

Lemma runs_lemma : forall growth tiny low mx batches fuel i random m stop, state_ok random m ->
  let out := train_runs fuel batches names pages size data growth tiny low rnd mx i random m stop in
  out = NoFuel \/ exists r, out = Ok r /\ run_ok r [] mx growth /\ r_code r = NO_ERROR /\ (low <= last (r_curve r) 1)%Qc.
Proof.
  intros growth tiny low mx batches. induction fuel as [|fuel IH]; intros i random m stop SK; [now left|]. cbv zeta. cbn [train_runs].
  destruct (run_lemma growth tiny i batches 0 mx random m [] stop SK) as (_ & [->|(r & -> & RO)]); [now left|]. cbn [bind].
  assert (SK' : state_ok true (r_model r)).
  { destruct RO as (qs & (_ & HL & S & _) & _). split; auto. }
  assert (CODE : r_code r = BAD_LUCK \/ r_code r = NO_ERROR).
  { destruct RO as (_ & _ & _ & _ & _ & _ & [C|(C & _)]); auto. }
  destruct CODE as [C|C]; rewrite C; cbn [orb]; [now apply IH|].
  destruct (Qc_ltb (last (r_curve r) 1%Qc) low) eqn:K; [now apply IH|].
  right. exists r. split; auto. split; auto. split; auto. now apply LearnProofs.Qc_ltb_false.
Qed.
End Train.

Lemma estimates_last : forall ss u l w, estimates ss u l w -> forall d, last l d = probability w ss.
Proof.
  induction 1 as [t|t u l w N E IH]; intros d; [reflexivity|]. rewrite <- (IH d). destruct E; reflexivity.
Qed.
Lemma estimates_some : forall ss u l w, estimates ss u l w -> l <> [].
Proof. intros ss u l w E. destruct E; discriminate. Qed.
Lemma last_app_ne : forall A (l l' : list A) d d', l' <> [] -> last (l ++ l') d = last l' d'.
Proof.
  induction l as [|x l IH]; intros l' d d' H; cbn [app].
  - induction l' as [|y [|z l'] IH]; [congruence|reflexivity|]. change (last (z :: l') d = last (z :: l') d'). apply IH. discriminate.
  - rewrite <- (IH l' d d' H). destruct (l ++ l') eqn:E; [|reflexivity]. apply app_eq_nil in E. destruct E. congruence.
Qed.

(** ** More fuel *)
Lemma run_more : forall names pages size ts growth tiny rnd fuel fuel' k remain random m curve stop, fuel <= fuel' ->
  train_run fuel names pages size ts growth tiny rnd k remain random m curve stop <> NoFuel ->
  train_run fuel' names pages size ts growth tiny rnd k remain random m curve stop =
  train_run fuel names pages size ts growth tiny rnd k remain random m curve stop.
Proof.
  intros names pages size ts growth tiny rnd. induction fuel as [|fuel IH]; intros [|fuel'] k remain random m curve stop LE H; try (cbn in H; congruence); [lia|].
  cbn [train_run] in *. destruct (em_learn _ _ _ _ _ _ _) as [[m1 o]| |]; cbn [bind] in *; auto.
  destruct (o_code o); auto; (destruct (write_model true true names pages size m1) as [[[m2 text] e]| |]; cbn [bind] in *; auto);
    match goal with |- context [if ?b then _ else _] => destruct b; auto end; apply IH; auto; lia.
Qed.

Section Tool.
Variable k1 k2 : list pvar -> list nat -> Z.
Variable c : Z.
Variable net_text : list ascii.
Variable t : net.
Hypothesis NF : net_file k1 k2 c net_text t.
Hypothesis PRT : printable t.
Local Notation card := (card_in t).
Local Notation n := (ParseSpec.size t).
Variable data_text : list ascii.
Variable cols : list (nat * nat).
Variable ss : list series.
Hypothesis DF : data_file t data_text cols ss.
Hypothesis NE : ss <> [].
Hypothesis NC : cols <> [].
Variable rnd : nat -> nat -> nat -> nat -> Qc.
Hypothesis RP : forall i k v x, (0 < rnd i k v x)%Qc.
Variable randomise : bool.
Hypothesis POS : randomise = true \/ positive_tables t.

Lemma file_tables : forall names m, parsed t names m -> positive_tables t ->
  good_tables t (tables t) /\ installed card m (tables t) m.
Proof.
  intros names m P PT. destruct NF as [_ NO CF PR TS _ _ _].
  assert (PA : forall v, v < n -> param (tables t) v = table_of t (decl_of t v)) by (intros; now apply tables_param).
  assert (TO := tables_ok t NO names m P).
  assert (G : good_tables t (tables t)).
  { intros v Hv. destruct (decl_of_ok t NO v Hv) as (A & B). split; [|split].
    - destruct TO as (_ & TO). destruct (TO v) as (W & D & _); [now rewrite (pa_size _ _ _ P)|].
      rewrite (parsed_family t NO _ _ P) in D by auto. split; [|split; auto].
      rewrite <- (parsed_family t NO _ _ P) by auto. apply (le_family _ _ (base_learnable t NO CF TS names m P)). now rewrite (pa_size _ _ _ P).
    - intros a Ha. rewrite PA by auto. exact (PT v a Hv Ha).
    - intros a Ha. rewrite PA by auto. assert (K := PR _ a A Ha). now rewrite B in K. }
  split; auto.
  assert (CE : forall v a, v < n -> valid card a -> LearnSpec.cond card m (tables t) v a = factor_of t (decl_of t v) a).
  { intros v a Hv Ha. rewrite (good_cond t NO _ G names m P) by auto. rewrite PA by auto. destruct (decl_of_ok t NO v Hv) as (A & _).
    symmetry. now apply (proper_factor t NO CF PR). }
  split; [|split].
  - intros a Ha. destruct (pa_joint _ _ _ P a Ha) as (-> & _). unfold product_cond. rewrite (pa_size _ _ _ P).
    rewrite (filter_ext_in (has_parents m) (fun v => match parents_of t (decl_of t v) with [] => false | _ => true end)).
    + apply qprod_map_ext. intros v Hv. apply filter_In in Hv. destruct Hv as (Hv & _). apply in_seq in Hv. symmetry. apply CE; [lia|auto].
    + intros v Hv. apply in_seq in Hv. unfold has_parents. rewrite (pa_parents _ _ _ P) by lia. reflexivity.
  - intros k a Hk Ha. rewrite (pa_factored _ _ _ P) by auto. apply qprod_map_ext. intros v Hv. unfold housed in Hv. apply filter_In in Hv.
    destruct Hv as (Hv & _). apply in_seq in Hv. rewrite (pa_size _ _ _ P) in Hv. symmetry. apply CE; [lia|auto].
  - intros v Hv HP. rewrite (pa_size _ _ _ P) in Hv. rewrite (pa_parents _ _ _ P) in HP by auto. destruct (pa_priors _ _ _ P v Hv HP) as (l & El & Q).
    exists l. split; auto. intros a Ha. rewrite Q by auto. symmetry. now apply CE.
Qed.

Variable growth tiny low : Qc.
Variable mx : Z.
Local Notation out fuel batches := (niptrain fuel batches k1 k2 (fresh_globals c) (Some net_text) (Some data_text) randomise growth tiny low mx rnd).

(** What happens before the runs. *)
Lemma train_begins : exists names m0 ks size vl, parsed t names m0 /\ (forall v, v < len (m_vars m0) -> v_mark (var m0 v) = MARK_ON) /\
  (exists toks ts, text_tokens net_text toks /\ Forall2 reads_as toks ts /\ document t ks size ts) /\
  len vl = n /\ (forall v x, nth_error vl v = Some x -> pv_next x = next_in t v) /\
  let pages := map (fun '(k, v) => page_of k v) (combine ks vl) in
  map looks_on pages = map labelled ks /\
  forall fuel batches, out fuel batches =
    let* r := train_runs fuel batches names pages size (map to_ts ss) growth tiny low rnd mx 1 randomise m0 None in
    match r_code r with
    | NO_ERROR =>
        let* (_, text, e) := write_model true true names pages size (r_model r) in
        if is_err e then Ok ((-1)%Z, r_file r, r_curve r) else Ok (0%Z, text, r_curve r)
    | _ => Ok ((-1)%Z, r_file r, [])
    end.
Proof.
  destruct NF as [(toks & ts & ks & size & T1 & T2 & DOC) NO CF PR TS ST FIT LC].
  destruct (parse_succeeds t NO c k1 k2 LC FIT) as (names & m & g & E & P).
  destruct (load_succeeds k1 k2 _ net_text toks ts t ks size T1 T2 DOC names m g E) as (pg & LD).
  destruct (load_parsed k1 k2 _ net_text toks ts t ks size T1 T2 DOC _ _ _ _ _ LD) as (_ & _ & vl & ma & ga & YY & ->).
  destruct (C54_lemma k1 k2 c t vl ma ga NO LC YY) as (LVL & C54).
  exists names, (all_marked m), ks, size, vl. split; [now apply parsed_marked|]. split.
  { intros v Hv. rewrite all_marked_len in Hv. rewrite all_marked_var by auto. reflexivity. }
  split; [eauto|]. split; auto. split; [intros v x Hx; apply (C54 v x Hx)|]. cbv zeta. split; [eapply looks_pages; eauto|].
  intros fuel batches. unfold niptrain. rewrite LD. cbn [bind].
  rewrite (data_reads k1 k2 c net_text t NF data_text cols ss DF names m P). cbn [bind].
  assert (FI := data_fits t data_text cols ss DF). destruct ss as [|s0 sr] eqn:ES; [congruence|].
  inversion FI as [|? ? (_ & OB & _) _]; subst. rewrite OB. rewrite map_length.
  destruct cols as [|c0 cs]; [congruence|]. cbn [List.length Nat.eqb]. rewrite mark_all_ok. reflexivity.
Qed.
Lemma C81_lemma : forall fuel batches, out fuel batches = NoFuel \/
  exists text curve u, out fuel batches = Ok (0%Z, Some text, curve) /\ same_network t u /\ proper u /\ positive_tables u /\
    (exists before ls u1, curve = before ++ ls /\ 3 <= len ls /\ started rnd ss t (negb randomise) u1 /\ estimates ss u1 ls u /\
       ((mx <= 32)%Z -> before = [] /\ (~ improves growth (nth (len ls - 2) ls 0%Qc) (last ls 0%Qc) \/ (mx <= Z.of_nat (len ls))%Z))) /\
    last curve 0%Qc = probability u ss /\ (low <= probability u ss)%Qc /\ (probability u ss <= 1)%Qc /\
    len curve <= Z.to_nat (Z.max 1 mx) + 2 /\
    exists ks size, (exists toks ts, text_tokens net_text toks /\ Forall2 reads_as toks ts /\ document t ks size ts) /\
      trained_text t ks size text u.
Proof.
  intros fuel batches. destruct train_begins as (names & m0 & ks & size & vl & P & MK & TX & LVL & NEXT & LK & EQ). cbv zeta in *. rewrite EQ. clear EQ.
  assert (NF' := NF). destruct NF' as [_ NO CF PR TS _ _ _].
  assert (DOC : look_alike t ks size) by (destruct TX as (? & ? & _ & _ & D); eapply document_looks; eauto).
  assert (FS : Forall (fit_series n) ss). { eapply Forall_impl; [|exact (data_fits t data_text cols ss DF)]. intros s (A & _). exact A. }
  assert (SK : state_ok t m0 ss rnd (negb randomise) randomise m0).
  { split; [exact (base_learnable t NO CF TS names m0 P)|]. split; [apply same_structure_refl|]. destruct randomise; [now left|right].
    destruct POS as [|PT]; [discriminate|]. destruct (file_tables names m0 P PT) as (G & I). exists (tables t). split.
    - split; auto. split; [exact (base_learnable t NO CF TS names m0 P)|]. split; auto. apply same_structure_refl.
    - apply learned_file; auto; [apply with_network|]. intros v x Hv Hx. rewrite (with_entry t NO _ G) by auto. now rewrite tables_param. }
  destruct (runs_lemma t NO CF TS PRT names m0 P MK ks size DOC vl LVL NEXT LK ss FS NE rnd RP (negb randomise) growth tiny low mx batches fuel 1 randomise m0 None SK)
    as [->|(r & -> & (qs & H & LQ & more & EC & LM & [C|(C & before & ls & u1 & EM & L3 & ST & ES & L1 & FIN)]) & CO & LO)]; [now left|congruence|right].
  cbn [bind]. rewrite C. destruct (write_ok t NO CF TS PRT names m0 P MK ks size DOC vl LVL NEXT LK qs (r_model r) H) as (mw & text & W & _ & TT).
  rewrite W. cbn [bind is_err]. exists text, (r_curve r), (with_tables t qs). assert (G := proj1 H). cbn [app] in EC. rewrite EC in *. clear EC.
  split; auto. split; [apply with_network|]. split; [now apply with_proper|]. split; [now apply with_positive|].
  assert (NL := estimates_some _ _ _ _ ES). assert (EL := estimates_last _ _ _ _ ES). subst more.
  rewrite (last_app_ne _ before ls 1%Qc 0%Qc NL) in LO. rewrite EL in LO, L1. split.
  { exists before, ls, u1. split; auto. }
  split. { now rewrite (last_app_ne _ before ls 0%Qc 0%Qc NL). }
  split; auto. split; auto. split; auto. exists ks, size. auto.
Qed.

Lemma C81_batches_lemma : forall fuel b b', Z.to_nat mx < b -> Z.to_nat mx < b' -> out fuel b = out fuel b'.
Proof.
  intros fuel b b' Hb Hb'. destruct train_begins as (names & m0 & ks & size & vl & P & MK & TX & LVL & NEXT & LK & EQ). cbv zeta in *. rewrite !EQ. clear EQ.
  assert (NF' := NF). destruct NF' as [_ NO CF PR TS _ _ _].
  assert (DOC : look_alike t ks size) by (destruct TX as (? & ? & _ & _ & D); eapply document_looks; eauto).
  assert (FS : Forall (fit_series n) ss). { eapply Forall_impl; [|exact (data_fits t data_text cols ss DF)]. intros s (A & _). exact A. }
  assert (SK : state_ok t m0 ss rnd (negb randomise) randomise m0).
  { split; [exact (base_learnable t NO CF TS names m0 P)|]. split; [apply same_structure_refl|]. destruct randomise; [now left|right].
    destruct POS as [|PT]; [discriminate|]. destruct (file_tables names m0 P PT) as (G & I). exists (tables t). split.
    - split; auto. split; [exact (base_learnable t NO CF TS names m0 P)|]. split; auto. apply same_structure_refl.
    - apply learned_file; auto; [apply with_network|]. intros v x Hv Hx. rewrite (with_entry t NO _ G) by auto. now rewrite tables_param. }
  set (pages := map (fun '(k, v) => page_of k v) (combine ks vl)) in *.
  assert (K : forall fuel i random m stop, state_ok t m0 ss rnd (negb randomise) random m ->
     train_runs fuel b names pages size (map to_ts ss) growth tiny low rnd mx i random m stop =
     train_runs fuel b' names pages size (map to_ts ss) growth tiny low rnd mx i random m stop).
  { clear fuel SK. induction fuel as [|fuel IH]; intros i random m stop SK; [reflexivity|]. cbn [train_runs].
    destruct (run_lemma t NO CF TS PRT names m0 P MK ks size DOC vl LVL NEXT LK ss FS NE rnd RP (negb randomise) growth tiny i b 0 mx random m [] stop SK) as (N1 & R1).
    destruct (run_lemma t NO CF TS PRT names m0 P MK ks size DOC vl LVL NEXT LK ss FS NE rnd RP (negb randomise) growth tiny i b' 0 mx random m [] stop SK) as (N2 & _).
    fold pages in N1, R1, N2. specialize (N1 Hb). specialize (N2 Hb').
    assert (EQ : train_run b names pages size (map to_ts ss) growth tiny (rnd i) 0 mx random m [] stop =
                 train_run b' names pages size (map to_ts ss) growth tiny (rnd i) 0 mx random m [] stop).
    { destruct (Nat.le_ge_cases b b'); [symmetry|]; now apply run_more. }
    rewrite <- EQ. destruct R1 as [R1|(r & R1 & (qs & (_ & HL & S & _) & _))]; [congruence|]. rewrite R1. cbn [bind].
    rewrite !(IH (i + 1) true (r_model r) (r_criterion r)) by (split; auto). reflexivity. }
  now rewrite K.
Qed.

Lemma C81_endless_lemma : (forall u, same_network t u -> proper u -> positive_tables u -> (probability u ss <= 1)%Qc -> (probability u ss < low)%Qc) ->
  forall fuel batches, out fuel batches = NoFuel.
Proof.
  intros H fuel batches. destruct (C81_lemma fuel batches) as [E|(text & curve & u & _ & A & B & C & _ & _ & LO & L1 & _)]; auto.
  exfalso. apply (Qclt_not_le _ _ (H u A B C L1)). exact LO.
Qed.
End Tool.
