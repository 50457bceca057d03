(** * Proofs about data files, part 3: analysing and reading a file *)
From Coq Require Import String Ascii.
From Verif Require Import Base BaseProofs StringModel StringSpec StringProofs StringProofs2
  VariableModel NipModel NipSpec NipProofs3 SeriesFileModel SeriesFileSpec SeriesFileProofs SeriesFileProofs2.
Import ListNotations.
Open Scope nat_scope.
Local Open Scope res_scope.
Local Notation len := List.length.

(** ** Analysing *)
Lemma headed_reads : forall sep f header data, readable f -> headed (table sep f) header data ->
  exists k data', reads sep f (repeat [] k ++ header :: data') /\ header <> [] /\
    (data = data' \/ data = data' ++ [[]]).
Proof.
  intros sep f header data HR (k & E & N). destruct (readable_reads sep f HR) as (T & RT & [ET|ET]).
  - exists k, data. rewrite <- E, ET. auto.
  - rewrite ET in E. destruct (rev_case _ data) as [->|(d & x & ->)].
    + change (header :: []) with ([] ++ [header]) in E. rewrite app_assoc in E. apply app_inj_tail in E.
      destruct E; congruence.
    + replace (repeat [] k ++ header :: d ++ [x]) with ((repeat [] k ++ header :: d) ++ [x]) in E
        by (rewrite <- app_assoc; reflexivity).
      apply app_inj_tail in E. destruct E as [E1 E2]. subst x. exists k, d. rewrite <- E1. auto.
Qed.

Lemma same_blocks : forall (data data' : list row), data = data' \/ data = data' ++ [[]] -> blocks data = blocks data'.
Proof. intros data data' [->| ->]; [reflexivity|apply blocks_blank]. Qed.

Lemma same_column : forall data data' j, data = data' \/ data = data' ++ [[]] -> column data j = column data' j.
Proof.
  intros data data' j [->| ->]; [reflexivity|]. rewrite column_snoc.
  assert (E : nth_error ([] : row) j = None) by (destruct j; reflexivity). rewrite E, app_nil_r. reflexivity.
Qed.

Lemma analyse_ok : forall sep f header data k, reads sep f (repeat [] k ++ header :: data) -> header <> [] ->
  exists states, states_ok (len header) data states /\
  analyse_data_file (open_data_file f sep true)
  = Ok (mkDataFile sep f f true 0 (Z.of_nat k + 1) (len (blocks data)) (map (@len row) (blocks data))
          (len header) header states, Z.of_nat (len (blocks data) - 1)).
Proof.
  intros sep f header data k HR N. unfold analyse_data_file, count_data_rows, open_data_file.
  cbn [f_rest f_separator f_current_line f_label_line f_first_line_labels f_contents].
  rewrite (count_header sep k f header data HR N) by lia. cbn [bind].
  destruct (analyse_header sep k f header data HR N (S (len f)) (mkPass2 0 2 0 (repeat 0 (len (blocks data))) 0 [] []))
    as (p & E & A1 & A2 & A3 & A4 & A5); [lia|reflexivity|reflexivity|reflexivity|].
  rewrite E. cbn [bind]. rewrite A1, A2, A3, A4. exists (p_statenames p). split; [exact A5|]. reflexivity.
Qed.

Lemma C68_lemma : forall sep f header data, readable f -> headed (table sep f) header data ->
  exists df, analyse_data_file (open_data_file f sep true) = Ok (df, Z.of_nat (len (blocks data) - 1)) /\
    f_ndatarows df = len (blocks data) /\ f_datarows df = map (@len row) (blocks data) /\
    f_num_of_nodes df = len header /\ f_node_symbols df = header /\
    len (f_node_states df) = len header /\
    forall j, j < len header ->
      NoDup (nth j (f_node_states df) []) /\
      forall x, In x (nth j (f_node_states df) []) <-> In x (column data j) /\ ~ In x missing_texts.
Proof.
  intros sep f header data HR HH. destruct (headed_reads sep f header data HR HH) as (k & data' & RT & N & SD).
  destruct (analyse_ok sep f header data' k RT N) as (st & [S1 S2] & E).
  rewrite (same_blocks _ _ SD). eexists. split; [exact E|]. cbn. repeat (split; [reflexivity|]).
  split; [exact S1|]. intros j Hj. rewrite (same_column _ _ j SD). apply S2, Hj.
Qed.

Lemma no_header : forall sep f, readable f -> Forall (fun t => t = []) (table sep f) ->
  analyse_data_file (open_data_file f sep true)
  = Ok (mkDataFile sep f f true 0 (-1) 0 [] 0 [] [], 0%Z).
Proof.
  intros sep f HR HB. destruct (readable_reads sep f HR) as (T & RT & ET).
  assert (HT : Forall (fun t => t = []) T).
  { destruct ET as [<-|ET]; [exact HB|]. rewrite ET in HB. apply Forall_app in HB. apply HB. }
  unfold analyse_data_file, count_data_rows, open_data_file.
  cbn [f_rest f_separator f_current_line f_label_line f_first_line_labels f_contents].
  rewrite (count_blank sep f T RT HT) by lia. cbn [bind repeat].
  destruct (analyse_blank sep f T RT HT (S (len f)) (mkPass2 0 2 0 [] 0 [] [])) as (e & E); [lia|].
  rewrite E. reflexivity.
Qed.

Lemma headerless : forall sep f, readable f ->
  exists df r, analyse_data_file (open_data_file f sep false) = Ok (df, r) /\
    f_datarows df = map (@len row) (blocks (table sep f)) /\ f_num_of_nodes df = 0 /\ f_node_symbols df = [].
Proof.
  intros sep f HR. destruct (readable_reads sep f HR) as (T & RT & ET).
  assert (SB : blocks (table sep f) = blocks T) by (apply same_blocks; exact ET). rewrite SB.
  unfold analyse_data_file, count_data_rows, open_data_file.
  cbn [f_rest f_separator f_current_line f_label_line f_first_line_labels f_contents].
  rewrite (count_data sep f T RT _ []); [|lia|reflexivity|lia|cbn; intuition]. cbn [bind app].
  destruct (analyse_data sep f T RT (S (len f)) [] (mkPass2 0 1 0 (repeat 0 (len (blocks T))) 0 [] []))
    as (p & E & A1 & A2 & A3 & A4 & A5);
    cbn [p_datarows p_state p_tscounter p_empty p_num_of_nodes p_statenames p_symbols app].
  - lia.
  - cbn. rewrite Nat.sub_0_r. reflexivity.
  - lia.
  - split; reflexivity.
  - reflexivity.
  - discriminate.
  - split; [reflexivity|]. intros j Hj. lia.
  - rewrite E. cbn [bind]. cbn in A1, A2, A3, A4. do 2 eexists. split; [reflexivity|]. cbn. auto.
Qed.

(** ** The next line *)
(** [R] are the rows of data that are still to be read. *)
Definition ahead (df : data_file) (R : list row) : Prop :=
  exists T, reads (f_separator df) (f_rest df) T /\
    (((f_label_line df <= f_current_line df)%Z /\ filter nonempty T = R) \/
     (exists k header T0, T = repeat [] k ++ header :: T0 /\ header <> [] /\
        (f_label_line df = f_current_line df + Z.of_nat k + 1)%Z /\ filter nonempty T0 = R)).

Lemma seek_data : forall df sep f T, reads sep f T -> forall t R fuel cl, filter nonempty T = t :: R ->
  (f_label_line df <= cl)%Z -> len f < fuel ->
  exists line f' T', seek_line fuel df sep f cl = Ok (Some (line, len t), f', (cl + Z.of_nat (len T - len T'))%Z) /\
    len T' < len T /\ text line /\ fields (delimits [sep] true) none line = t /\ t <> [] /\
    reads sep f' T' /\ filter nonempty T' = R.
Proof.
  intros df sep f T H. induction H as [|f line rest T EF HT HL HR IH]; intros t R fuel cl EQ HC HF; [discriminate EQ|].
  destruct fuel as [|fuel]; [lia|]. cbn [seek_line]. rewrite EF, count_step by exact HT. cbn [bind].
  replace (Z.eqb (cl + 1) (f_label_line df)) with false by (symmetry; apply Z.eqb_neq; lia). cbn [andb].
  destruct (fields (delimits [sep] true) none line) as [|a x] eqn:EX; cbn [filter nonempty] in EQ.
  - change (len [] <? 1) with true. cbv iota.
    destruct (IH t R fuel (cl + 1)%Z EQ) as (l & f' & T' & E & L & B); [lia|lia|].
    exists l, f', T'. rewrite E. cbn [len]. split; [|split; [lia|exact B]]. match goal with |- Ok (_, ?z) = Ok (_, ?z') => replace z with z' by lia; reflexivity end.
  - injection EQ as E1 E2. subst t. change (Nat.ltb (len (a :: x)) 1) with false. cbv iota.
    exists line, rest, T. cbn [len].
    split; [match goal with |- Ok (_, ?z) = Ok (_, ?z') => replace z with z' by lia; reflexivity end|]. split; [lia|]. split; [exact HT|]. split; [exact EX|]. split; [discriminate|].
    split; [exact HR|exact E2].
Qed.

Lemma seek_header : forall df sep k f header T, reads sep f (repeat [] k ++ header :: T) ->
  header <> [] -> f_first_line_labels df = true ->
  forall t R fuel cl, filter nonempty T = t :: R -> (f_label_line df = cl + Z.of_nat k + 1)%Z -> len f < fuel ->
  exists line f' T' cl', seek_line fuel df sep f cl = Ok (Some (line, len t), f', cl') /\
    (f_label_line df <= cl')%Z /\ text line /\ fields (delimits [sep] true) none line = t /\ t <> [] /\
    reads sep f' T' /\ filter nonempty T' = R.
Proof.
  intros df sep. induction k as [|k IH]; intros f header T H N HLB t R fuel cl EQ HC HF; cbn [repeat app] in H;
    apply reads_inv in H; destruct H as (line & rest & EF & HT & HL & HR & E1); (destruct fuel as [|fuel]; [lia|]);
    cbn [seek_line]; rewrite EF, count_step by exact HT; cbn [bind]; rewrite HLB, andb_true_r.
  - replace (Z.eqb (cl + 1) (f_label_line df)) with true by (symmetry; apply Z.eqb_eq; lia).
    change (0 <? 1) with true. cbv iota.
    destruct (seek_data df sep rest T HR t R fuel (cl + 1)%Z EQ) as (l & f' & T' & E & L & B); [lia|lia|].
    exists l, f', T'. eexists. split; [exact E|]. split; [lia|exact B].
  - replace (Z.eqb (cl + 1) (f_label_line df)) with false by (symmetry; apply Z.eqb_neq; lia).
    rewrite E1. change (len [] <? 1) with true. cbv iota.
    apply (IH rest header T HR N HLB t R fuel (cl + 1)%Z EQ); lia.
Qed.

(** What does not change while reading. *)
Definition same_file (a b : data_file) : Prop :=
  f_separator a = f_separator b /\ f_first_line_labels a = f_first_line_labels b /\
  f_num_of_nodes a = f_num_of_nodes b /\ f_node_symbols a = f_node_symbols b.

Lemma next_ok : forall df t R, ahead df (t :: R) -> f_first_line_labels df = true ->
  exists df', next_line_tokens df (f_separator df) = Ok (df', Some (firstn (Nat.min (f_num_of_nodes df) (len t)) t)) /\
    same_file df' df /\ ahead df' R.
Proof.
  intros df t R (T & RT & HA) HLB.
  assert (S : exists line f' T' cl', seek_line (S (len (f_rest df))) df (f_separator df) (f_rest df) (f_current_line df)
                = Ok (Some (line, len t), f', cl') /\
    (f_label_line df <= cl')%Z /\ text line /\ fields (delimits [f_separator df] true) none line = t /\ t <> [] /\
    reads (f_separator df) f' T' /\ filter nonempty T' = R).
  { destruct HA as [[HC EQ]|(k & header & T0 & -> & N & HC & EQ)].
    - destruct (seek_data df _ _ T RT t R (S (len (f_rest df))) (f_current_line df) EQ HC) as (l & f' & T' & E & L & B); [lia|].
      exists l, f', T'. eexists. split; [exact E|]. split; [lia|exact B].
    - apply (seek_header df _ k _ header T0 RT N HLB t R _ _ EQ HC). lia. }
  destruct S as (line & f' & T' & cl' & E & HC & HT & EX & NT & RT' & EQ').
  unfold next_line_tokens. rewrite E. cbn [bind f_num_of_nodes].
  destruct (line_tokens (f_separator df) line HT) as [_ HW]. rewrite EX in HW. destruct (HW NT) as (ix & ET & HW').
  rewrite ET. cbn [bind]. rewrite (words_from_ok line ix t) by (auto; lia). cbn [bind skipn].
  eexists. split; [reflexivity|]. split; [repeat split|].
  exists T'. cbn. split; [exact RT'|]. left. auto.
Qed.
