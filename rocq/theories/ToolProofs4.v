(** * Proofs: the programs nipinference, nipmap, nipnext and nipconvert, from files to files *)
From Coq Require Import String Ascii Permutation.
From Verif Require Import Base BaseProofs StringModel StringSpec PotentialModel PotentialSpec VariableModel VariableProofs AssignSpec AssignProofs
  JoinTreeModel JoinTreeSpec NipModel NipSpec NipProofs NipProofs3 SliceModel SliceSpec
  LearnModel LearnSpec LearnProofs LearnProofs8 SeriesFileModel SeriesFileSpec SeriesFileProofs4 SeriesFileProofs5 SeriesFileProofs7
  GraphModel ParseModel ParseSpec ParseProofs6 NetLexModel NetGrammarModel NetSpec
  WriteModel WriteSpec ToolModel ToolSpec ToolProofs ToolProofs2 ToolProofs3.
Import ListNotations.
Open Scope nat_scope.
Local Open Scope res_scope.
Local Notation len := List.length.
Local Notation chars := list_ascii_of_string.

Lemma map_value_ok : forall d, d <> [] -> Forall (fun q => (0 <= q)%Qc) d ->
  exists k, map_value d (len d) = Ok k /\ most_probable (len d) (fun x => nth x d 0%Qc) k.
Proof.
  intros d NE H. unfold map_value.
  match goal with |- context [for_up 0 ?hi ?b ?s] =>
    destruct (for_up_inv (nat * Qc) (fun i '(k, mx) => match i with
        | 0 => k = 0 /\ mx = 0%Qc
        | S _ => k < i /\ mx = nth k d 0%Qc /\ (forall y, y < i -> (nth y d 0 <= nth k d 0)%Qc) /\ (forall y, y < k -> (nth y d 0 < nth k d 0)%Qc)
        end) b 0 hi s) as ((k & mx) & E & I) end.
  - lia.
  - auto.
  - intros i (k & mx) Hi I. rewrite (rd_ok _ d i 0%Qc) by lia. cbn [bind]. eexists. split; [reflexivity|].
    destruct (Qc_ltb mx (nth i d 0%Qc)) eqn:Q.
    + apply Qc_ltb_true in Q. destruct i as [|i].
      * split; [lia|]. split; auto. split; intros y Hy; [|lia]. replace y with 0 by lia. apply Qcle_refl.
      * destruct I as (A & -> & B & C). split; [lia|]. split; auto. split.
        -- intros y Hy. destruct (Nat.eq_dec y (S i)) as [->|]; [apply Qcle_refl|]. apply Qclt_le_weak. eapply Qcle_lt_trans; [apply B; lia|exact Q].
        -- intros y Hy. eapply Qcle_lt_trans; [apply B; lia|exact Q].
    + apply Qc_ltb_false in Q. destruct i as [|i].
      * destruct I as (-> & ->). split; [lia|]. assert (Z : nth 0 d 0%Qc = 0%Qc).
        { apply Qcle_antisym; auto. rewrite Forall_forall in H. apply H, nth_In. lia. }
        rewrite Z. split; auto. split; intros y Hy; [|lia]. replace y with 0 by lia. rewrite Z. apply Qcle_refl.
      * destruct I as (A & -> & B & C). split; [lia|]. split; auto. split; auto.
        intros y Hy. destruct (Nat.eq_dec y (S i)) as [->|]; [exact Q|]. apply B. lia.
  - rewrite E. cbn [bind]. exists k. split; auto. destruct d as [|q d]; [congruence|]. destruct I as (A & _ & B & C). split; auto.
Qed.

Section Programs.
Variable k1 k2 : list pvar -> list nat -> Z.
Variable c : Z.
Variable net_text : list ascii.
Variable t : net.
Hypothesis NF : net_file k1 k2 c net_text t.
Variable data_text : list ascii.
Variable cols : list (nat * nat).
Variable ss : list series.
Hypothesis DF : data_file t data_text cols ss.
Local Notation card := (card_in t).
Local Notation n := (ParseSpec.size t).
Local Notation g0 := (fresh_globals c).

Lemma symbol_number : forall names m symbol, parsed t names m -> In symbol (symbols t) ->
  model_variable names symbol = Ok (Some (ParseSpec.number t symbol)) /\ ParseSpec.number t symbol < n.
Proof.
  intros names m symbol P H. rewrite (model_variable_named names (parsed_named k1 k2 c net_text t NF names m P)), (pa_symbols _ _ _ P).
  unfold ParseSpec.number. assert (Q := position_spec symbol (symbols t)). destruct (position symbol (symbols t)) as [v|]; [|tauto].
  split; auto. destruct Q as (Q & _). unfold symbols in Q. now rewrite map_length in Q.
Qed.
Lemma symbol_unknown : forall names m symbol, parsed t names m -> ~ In symbol (symbols t) ->
  model_variable names symbol = Ok None.
Proof.
  intros names m symbol P H. rewrite (model_variable_named names (parsed_named k1 k2 c net_text t NF names m P)), (pa_symbols _ _ _ P).
  assert (Q := position_spec symbol (symbols t)). destruct (position symbol (symbols t)) as [v|]; [|auto].
  destruct Q as (A & B & _). exfalso. apply H. rewrite <- B. now apply nth_In.
Qed.
Lemma name_of : forall names m v, parsed t names m -> v < n -> exists nv, nth_error names v = Some nv /\
  nv_states nv = Names (states (node t v)) /\ nv_card nv = card v /\ nv_symbol nv = Some (nth v (symbols t) EmptyString).
Proof.
  intros names m v P Hv. assert (L := parsed_len t names m P). destruct (nth_error names v) as [nv|] eqn:E.
  - exists nv. split; auto. destruct (parsed_states k1 k2 c net_text t NF names m P v nv E) as (A & B). split; auto. split; [unfold card_in; auto|].
    assert (S := map_nth_error symbol_of v names E). rewrite (pa_symbols _ _ _ P) in S. rewrite (nth_error_nth _ _ EmptyString S).
    destruct (pa_names _ _ _ P) as (_ & Q). destruct (Q v nv E) as (Z & _). unfold symbol_of. now destruct (nv_symbol nv).
  - apply nth_error_None in E. lia.
Qed.
Lemma states_some : forall v, v < n -> states (node t v) <> [].
Proof.
  intros v Hv E. destruct (net_reads k1 k2 c net_text t NF) as (names & m & _ & _ & _ & _ & P).
  assert (K := card_pos t names m P v). unfold card_in in K. rewrite E in K. cbn in K. lia.
Qed.
Lemma all_ok : Forall (possible_series t) ss -> Forall (fun ts => fit_series n ts /\ possible_series t ts) ss.
Proof.
  intros H. assert (D := data_fits t data_text cols ss DF). rewrite Forall_forall in *. intros ts Hts. split; [apply D; auto|auto].
Qed.
Lemma mm_model : forall names m, parsed t names m -> model_ok card (all_marked m) /\ same_model (all_marked m) (all_marked m).
Proof. intros names m P. split; [apply (so_model _ _ (mm_slices t names m P))|apply same_model_refl]. Qed.

(** ** nipinference *)
Lemma C75_lemma : forall symbol closed, ss <> [] -> Forall (possible_series t) ss -> In symbol (symbols t) ->
  exists groups lls,
    nipinference k1 k2 g0 (Some net_text) (Some data_text) symbol true closed =
      Ok (mkFinished 0 (Some (csv (map chars (states (node t (ParseSpec.number t symbol)))) groups)), lls) /\
    Forall2 (fun ts g => reports t ts (ParseSpec.number t symbol) g) ss groups /\
    (roots_given t -> Forall2 (likelihood_of t) ss lls).
Proof.
  intros symbol closed NE PO HS. destruct (inputs_ok k1 k2 c net_text t NF data_text cols ss DF) as (names & m & P & E).
  unfold nipinference. rewrite E. destruct ss as [|ts0 ss0] eqn:ES; [congruence|]. rewrite <- ES in *. cbn [bind].
  destruct (symbol_number names m symbol P HS) as (-> & Hv). cbn [bind]. rewrite mark_all_ok. cbn [bind].
  set (v := ParseSpec.number t symbol) in *. destruct (mm_model names m P) as (M0 & S0).
  destruct (infer_all_ok k1 k2 c net_text t NF names m P v Hv ss (all_marked m) M0 S0 (all_ok PO)) as (m' & us & lls & E2 & R & L).
  rewrite E2. cbn [bind]. destruct (name_of names m v P Hv) as (nv & N1 & N2 & N3 & _).
  set (dss := map (fun u => map (fun row => nth 0 row []) (ucs_data u)) us).
  assert (D : Forall2 (fun u ds => distributions (ucs_variables u) (ucs_data u) v (len (states (node t v))) ds) us dss).
  { assert (F := all_ok PO). clear -R F NF P. unfold dss. induction R as [|ts u l us (A & B) R IH]; cbn [map]; constructor.
    - rewrite A. inversion F as [|? ? (F1 & _) _]; subst. exact (chances_distributions k1 k2 c net_text t NF names m P v ts (ucs_data u) B F1).
    - apply IH. now inversion F. }
  assert (NU : us <> []). { intros K. rewrite K in R. apply Forall2_len in R. rewrite ES in R. discriminate. }
  rewrite (write_uncertain_text names v nv (states (node t v)) N1 N2 ltac:(unfold card_in in *; auto) (states_some v Hv) closed us dss NU D).
  cbn [bind]. exists (map (map (map print_f)) dss), lls. split; [reflexivity|]. split; [|exact L].
  clear E2 L NU N1 N2 N3 ES E NE. assert (F := all_ok PO). unfold dss in *. clear dss. clear DF PO. revert D F.
  induction R as [|ts u l us (A & B) R IH]; cbn [map]; intros D F; constructor.
  - inversion D as [|? ? ? ? D1 D2]; subst. inversion F as [|? ? (F1 & _) _]; subst. destruct B as (B1 & B2).
    split; [rewrite !map_length; congruence|]. intros s Hs. destruct (B2 s Hs) as (C1 & C2). destruct (C2 0) as (C3 & C4); [cbn; lia|]. cbn [nth] in C3, C4.
    rewrite (nth_map _ _ _ _ _ []) by (rewrite map_length; lia). rewrite (nth_map _ _ _ _ _ []) by lia.
    split; [now rewrite map_length|]. intros x Hx. rewrite (nth_map _ _ _ _ _ 0%Qc) by lia. rewrite <- C4 by auto. apply printed.
    rewrite C4 by auto. apply (chance_range t (nf_ok _ _ _ _ _ NF) names m P).
  - inversion D; subst. inversion F; subst. apply IH; auto.
Qed.

(** Nothing is reported if the output file cannot be written. *)
Lemma C75_unwritten_lemma : forall symbol closed, ss <> [] -> Forall (possible_series t) ss -> In symbol (symbols t) ->
  exists lls, nipinference k1 k2 g0 (Some net_text) (Some data_text) symbol false closed = Ok (mkFinished 0 None, lls).
Proof.
  intros symbol closed NE PO HS. destruct (inputs_ok k1 k2 c net_text t NF data_text cols ss DF) as (names & m & P & E).
  unfold nipinference. rewrite E. destruct ss as [|ts0 ss0] eqn:ES; [congruence|]. rewrite <- ES in *. cbn [bind].
  destruct (symbol_number names m symbol P HS) as (-> & Hv). cbn [bind]. rewrite mark_all_ok. cbn [bind].
  set (v := ParseSpec.number t symbol) in *. destruct (mm_model names m P) as (M0 & S0).
  destruct (infer_all_ok k1 k2 c net_text t NF names m P v Hv ss (all_marked m) M0 S0 (all_ok PO)) as (m' & us & lls & E2 & R & L).
  rewrite E2. cbn [bind]. destruct (name_of names m v P Hv) as (nv & N1 & N2 & N3 & _).
  assert (NU : us <> []). { intros K. rewrite K in R. apply Forall2_len in R. rewrite ES in R. discriminate. }
  rewrite (C74_unopened_lemma names v nv (states (node t v)) N1 N2 ltac:(unfold card_in in *; auto) (states_some v Hv) closed us NU).
  - cbn [bind]. eauto.
  - intros u Hu. clear -R Hu. induction R as [|a b la lb (A & _) R IH]; [destruct Hu|]. destruct Hu as [<-|Hu]; auto. rewrite A. now left.
Qed.
Lemma C75_unknown_lemma : forall symbol opened closed, ~ In symbol (symbols t) ->
  nipinference k1 k2 g0 (Some net_text) (Some data_text) symbol opened closed = Ok (mkFinished (-1) None, []).
Proof.
  intros symbol opened closed H. destruct (inputs_ok k1 k2 c net_text t NF data_text cols ss DF) as (names & m & P & E).
  unfold nipinference. rewrite E. destruct ss; [reflexivity|]. cbn [bind]. rewrite (symbol_unknown names m symbol P H). reflexivity.
Qed.
Lemma C75_no_series_lemma : forall symbol opened closed, ss = [] ->
  nipinference k1 k2 g0 (Some net_text) (Some data_text) symbol opened closed = Ok (mkFinished (-1) None, []).
Proof.
  intros symbol opened closed H. destruct (inputs_ok k1 k2 c net_text t NF data_text cols ss DF) as (names & m & P & E).
  unfold nipinference. rewrite E, H. reflexivity.
Qed.
Lemma C75_no_data_lemma : forall symbol opened closed,
  nipinference k1 k2 g0 (Some net_text) None symbol opened closed = Ok (mkFinished (-1) None, []).
Proof.
  intros symbol opened closed. destruct (net_reads k1 k2 c net_text t NF) as (names & m & g & ks & size & E & P).
  unfold nipinference, read_inputs. rewrite E. reflexivity.
Qed.

(** ** nipmap *)
Local Notation hidden := (without_column t cols).
Lemma hidden_lt : forall v, In v hidden -> v < n.
Proof. intros v H. apply filter_In in H. destruct H as (H & _). apply in_seq in H. lia. Qed.

Lemma state_text_ok : forall names m v x, parsed t names m -> v < n -> x < card v ->
  state_text names v x = Ok (chars (nth x (states (node t v)) EmptyString)).
Proof.
  intros names m v x P Hv Hx. destruct (name_of names m v P Hv) as (nv & A & B & _). unfold state_text, rd at 1. rewrite A. cbn [bind].
  rewrite B, (rd_ok _ _ x EmptyString Hx). reflexivity.
Qed.
Lemma symbol_text_ok : forall names m v, parsed t names m -> v < n ->
  symbol_text names v = Ok (chars (nth v (symbols t) EmptyString)).
Proof.
  intros names m v P Hv. destruct (name_of names m v P Hv) as (nv & A & _ & _ & B). unfold symbol_text, rd. rewrite A. cbn [bind].
  rewrite B. reflexivity.
Qed.

Lemma map_header_ok : forall names m, parsed t names m -> forall h, h <> [] -> (forall v, In v h -> v < n) ->
  write_map_header names h = Ok (csv_line (map (fun v => chars (nth v (symbols t) EmptyString)) h)).
Proof.
  intros names m P h NE H. unfold write_map_header. destruct h as [|v0 h]; [congruence|]. unfold rd at 1. cbn [nth_error bind].
  rewrite (symbol_text_ok names m v0 P) by (apply H; now left). cbn [bind].
  set (f := fun v => chars (nth v (symbols t) EmptyString)).
  assert (G : forall k, k <= len h -> for_up 1 (S k)
     (fun i out => let* v := rd (v0 :: h) i in let* s := symbol_text names v in Ok (out ++ [FIELD_SEPARATOR] ++ s)) (f v0)
     = Ok (commas (map f (firstn (S k) (v0 :: h))))).
  { induction k as [|k IH]; intros Hk; [reflexivity|]. rewrite for_up_snoc by lia. rewrite IH by lia. cbn [bind].
    rewrite (rd_ok _ (v0 :: h) (S k) 0) by (cbn; lia). cbn [bind].
    rewrite (symbol_text_ok names m _ P) by (apply H, nth_In; cbn; lia). cbn [bind].
    assert (X : firstn (S (S k)) (v0 :: h) = firstn (S k) (v0 :: h) ++ [nth (S k) (v0 :: h) 0]).
    { clear -Hk. revert v0 h Hk. induction k as [|k IH]; intros v0 [|y h] Hk; cbn in Hk; try lia; [reflexivity|].
      change (firstn (S (S (S k))) (v0 :: y :: h)) with (v0 :: firstn (S (S k)) (y :: h)). rewrite IH by lia. reflexivity. }
    rewrite X, map_app. cbn [map]. rewrite commas_snoc. reflexivity. }
  assert (K := G (len h) (le_n _)). change (chars (nth v0 (symbols t) EmptyString)) with (f v0).
  change (len (v0 :: h)) with (S (len h)). rewrite K. cbn [bind]. rewrite firstn_all2 by (cbn; lia). reflexivity.
Qed.

Lemma map_text_ok : forall names m ts vars rs s i, parsed t names m -> chances t ts vars true rs ->
  (forall v, In v vars -> v < n) -> s < s_length ts -> i < len vars ->
  exists x, map_text names vars (nth s rs []) i = Ok (chars (nth x (states (node t (nth i vars 0))) EmptyString)) /\
    most_probable (card (nth i vars 0)) (chance t ts (s_length ts) (s_length ts) s (nth i vars 0)) x.
Proof.
  intros names m ts vars rs s i P (L & H) HV Hs Hi. destruct (H s Hs) as (A & B). destruct (B i Hi) as (C & D). clear B.
  unfold map_text. rewrite (rd_ok _ vars i 0 Hi). cbn [bind]. set (v := nth i vars 0) in *. assert (Hv : v < n) by (apply HV, nth_In; auto).
  destruct (name_of names m v P Hv) as (nv & N1 & N2 & N3 & _). unfold rd at 1. rewrite N1. cbn [bind].
  rewrite (rd_ok _ (nth s rs []) i []) by lia. cbn [bind]. rewrite N3, <- C. set (d := nth i (nth s rs []) []) in *.
  assert (PC := card_pos t names m P v).
  destruct (map_value_ok d) as (x & E & M1 & M2 & M3).
  { intros K. rewrite K in C. cbn in C. lia. }
  { apply Forall_forall. intros q Hq. apply In_nth with (d := 0%Qc) in Hq. destruct Hq as (y & Hy & <-). rewrite D by lia.
    apply (chance_range t (nf_ok _ _ _ _ _ NF) names m P). }
  rewrite E. cbn [bind]. exists x. rewrite C in M1. split; [apply (state_text_ok names m v x P); auto|].
  split; [lia|]. split; intros y Hy; rewrite <- !D by lia; [apply M2|apply M3]; lia.
Qed.

Lemma map_row_ok : forall names m ts vars rs s, parsed t names m -> chances t ts vars true rs -> vars <> [] ->
  (forall v, In v vars -> v < n) -> s < s_length ts ->
  exists fs, (forall out, write_map_row names vars (nth s rs []) out = Ok (out ++ csv_line fs)) /\
    Forall2 (fun v f => exists x, most_probable (card v) (chance t ts (s_length ts) (s_length ts) s v) x /\
        f = chars (nth x (states (node t v)) EmptyString)) vars fs.
Proof.
  intros names m ts vars rs s P CH NE HV Hs.
  assert (X : forall k, k <= len vars -> exists fs, len fs = k /\
     (forall i, i < k -> map_text names vars (nth s rs []) i = Ok (nth i fs [])) /\
     Forall2 (fun v f => exists x, most_probable (card v) (chance t ts (s_length ts) (s_length ts) s v) x /\
        f = chars (nth x (states (node t v)) EmptyString)) (firstn k vars) fs).
  { induction k as [|k IH]; intros Hk. { exists []. split; auto. split; [intros; lia|constructor]. }
    destruct IH as (fs & L & A & B); [lia|]. destruct (map_text_ok names m ts vars rs s k P CH HV Hs ltac:(lia)) as (x & E & M).
    eexists (fs ++ [_]). split; [rewrite app_length; cbn; lia|]. split.
    - intros i Hi. destruct (Nat.eq_dec i k) as [->|]; [|rewrite app_nth1 by lia; apply A; lia].
      rewrite app_nth2, L, Nat.sub_diag by lia. cbn [nth]. exact E.
    - assert (Y : firstn (S k) vars = firstn k vars ++ [nth k vars 0]).
      { clear -Hk. revert vars Hk. induction k as [|k IH]; intros [|y vars] Hk; cbn in Hk; try lia; [reflexivity|].
        change (firstn (S (S k)) (y :: vars)) with (y :: firstn (S k) vars). rewrite IH by lia. reflexivity. }
      rewrite Y. apply Forall2_app; auto. constructor; [|constructor]. exists x. split; [exact M|reflexivity]. }
  destruct (X (len vars) (le_n _)) as (fs & L & A & B). rewrite firstn_all in B. exists fs. split; auto. intros out.
  unfold write_map_row. destruct (len vars) as [|k] eqn:EK; [destruct vars; [congruence|discriminate]|].
  destruct (followed_loop k (fun i out => let* s0 := map_text names vars (nth s rs []) i in Ok (out ++ s0 ++ [FIELD_SEPARATOR]))
    (fun i => nth i fs []) out (nth k fs [])) as (o & E & Q).
  { intros i o Hi. rewrite A by lia. reflexivity. }
  rewrite E. cbn [bind]. rewrite A by lia. cbn [bind]. unfold csv_line. rewrite !app_assoc, Q, <- !app_assoc. do 2 f_equal. unfold NL.
  change NEWLINE with end_of_line. f_equal. f_equal. transitivity (map (fun i => nth i fs []) (seq 0 (len fs))); [rewrite L, seq_S, map_app; reflexivity|apply map_nth_seq].
Qed.

Lemma write_maps_ok : forall names m h, parsed t names m -> h <> [] -> (forall v, In v h -> v < n) ->
  forall l m0 out, model_ok card m0 -> same_model (all_marked m) m0 ->
  Forall (fun ts => fit_series n ts /\ possible_series t ts /\ s_hidden ts = h) l ->
  exists groups, write_maps names m0 l out = Ok (out ++ concat (map csv_group groups)) /\ Forall2 (fun ts g => explains t ts h g) l groups.
Proof.
  intros names m h P NE HV. induction l as [|ts l IH]; intros m0 out M0 S0 FF; cbn [write_maps].
  - exists []. split; [cbn; now rewrite app_nil_r|constructor].
  - inversion FF as [|? ? (F & PO & EH) FF']; subst.
    destruct (smooth_one k1 k2 c net_text t NF names m P m0 ts (s_hidden ts) false M0 S0 F PO HV) as (m' & rs & l' & E & M' & S' & R & _).
    rewrite E. cbn [bind]. assert (LR := proj1 R).
    assert (X : forall k, k <= s_length ts -> exists g, len g = k /\
       (forall s out, s < k -> (let* row := rd rs s in write_map_row names (s_hidden ts) row out) = Ok (out ++ csv_line (nth s g []))) /\
       forall s, s < k -> Forall2 (fun v f => exists x, most_probable (card v) (chance t ts (s_length ts) (s_length ts) s v) x /\
        f = chars (nth x (states (node t v)) EmptyString)) (s_hidden ts) (nth s g [])).
    { induction k as [|k IHk]; intros Hk. { exists []. split; auto. split; intros; lia. }
      destruct IHk as (g & L & A & B); [lia|]. destruct (map_row_ok names m ts (s_hidden ts) rs k P R NE HV ltac:(lia)) as (fs & C & D).
      exists (g ++ [fs]). split; [rewrite app_length; cbn; lia|]. split.
      - intros s o Hs. destruct (Nat.eq_dec s k) as [->|]; [|rewrite app_nth1 by lia; apply A; lia].
        rewrite app_nth2, L, Nat.sub_diag by lia. cbn [nth]. rewrite (rd_ok _ rs k []) by lia. cbn [bind]. apply C.
      - intros s Hs. destruct (Nat.eq_dec s k) as [->|]; [|rewrite app_nth1 by lia; apply B; lia].
        rewrite app_nth2, L, Nat.sub_diag by lia. exact D. }
    destruct (X (s_length ts) (le_n _)) as (g & L & A & B). rewrite LR.
    rewrite (append_loop (s_length ts) _ (fun s => csv_line (nth s g [])) out) by (intros; now apply A). cbn [bind].
    destruct (IH m' ((out ++ concat (map (fun s => csv_line (nth s g [])) (seq 0 (s_length ts)))) ++ NL) M' S' FF') as (gs & E2 & Q).
    rewrite E2. exists (g :: gs). split; [|constructor; [split; auto|auto]]. cbn [map concat]. unfold csv_group at 2.
    rewrite <- L, (map_seq_nth _ _ csv_line), <- !app_assoc. reflexivity.
Qed.

Lemma hidden_series : Forall (possible_series t) ss -> Forall (fun ts => fit_series n ts /\ possible_series t ts /\ s_hidden ts = hidden) ss.
Proof.
  intros H. assert (D := data_fits t data_text cols ss DF). rewrite Forall_forall in *. intros ts Hts.
  destruct (D ts Hts) as (A & _ & _ & B). auto.
Qed.

Lemma C76_lemma : forall closed, ss <> [] -> Forall (possible_series t) ss -> hidden <> [] ->
  exists groups,
    nipmap k1 k2 g0 (Some net_text) (Some data_text) true closed =
      Ok (mkFinished (if closed then 0 else -1)
            (Some (csv (map (fun v => chars (nth v (symbols t) EmptyString)) hidden) groups))) /\
    Forall2 (fun ts g => explains t ts hidden g) ss groups.
Proof.
  intros closed NE PO HH. destruct (inputs_ok k1 k2 c net_text t NF data_text cols ss DF) as (names & m & P & E).
  unfold nipmap. rewrite E. assert (HS := hidden_series PO). destruct ss as [|ts0 ss0] eqn:ES; [congruence|]. rewrite <- ES in *. cbn [bind].
  replace (rd ss 0) with (Ok ts0) by (rewrite ES; reflexivity). cbn [bind negb].
  assert (E0 : s_hidden ts0 = hidden). { rewrite ES in HS. now inversion HS as [|? ? (_ & _ & K) _]. }
  rewrite E0. replace (Nat.eqb (len hidden) 0) with false by (destruct hidden; [congruence|reflexivity]).
  rewrite mark_all_ok. cbn [bind]. rewrite (map_header_ok names m P hidden HH hidden_lt). cbn [bind].
  destruct (mm_model names m P) as (M0 & S0).
  destruct (write_maps_ok names m hidden P HH hidden_lt ss (all_marked m)
    (csv_line (map (fun v => chars (nth v (symbols t) EmptyString)) hidden)) M0 S0 HS) as (gs & E2 & Q).
  rewrite E2. cbn [bind]. exists gs. split; auto.
Qed.
Lemma C76_nothing_hidden_lemma : forall closed, ss <> [] -> hidden = [] ->
  nipmap k1 k2 g0 (Some net_text) (Some data_text) true closed = Ok (mkFinished (-1) (Some [])).
Proof.
  intros closed NE HH. destruct (inputs_ok k1 k2 c net_text t NF data_text cols ss DF) as (names & m & P & E).
  unfold nipmap. rewrite E. assert (D := data_fits t data_text cols ss DF). destruct ss as [|ts0 ss0] eqn:ES; [congruence|]. cbn [bind].
  unfold rd at 1. cbn [nth_error bind negb]. inversion D as [|? ? (_ & _ & _ & K) _]; subst. rewrite K. fold hidden. rewrite HH. reflexivity.
Qed.

(** ** nipnext *)
Lemma print_logs_ok : forall show k p out, 0 < k -> len p = k ->
  print_logs show k p out = Ok (out ++ csv_line (map show p)).
Proof.
  intros show k p out Hk Hp. unfold print_logs.
  assert (X : forall j, j < k -> for_up 0 j (fun j out => let* x := rd p j in let out := out ++ show x in
       Ok (if Nat.ltb (j + 1) k then out ++ [FIELD_SEPARATOR] else out ++ NL)) out
     = Ok (out ++ concat (map (fun i => show (nth i p 0%Qc) ++ [FIELD_SEPARATOR]) (seq 0 j)))).
  { induction j as [|j IH]; intros Hj; [cbn; now rewrite app_nil_r|]. rewrite for_up_snoc by lia. rewrite IH by lia. cbn [bind].
    rewrite (rd_ok _ p j 0%Qc) by lia. cbn [bind]. cbv zeta. destruct (Nat.ltb_spec (j + 1) k); [|lia].
    rewrite seq_S, map_app, concat_app. cbn [map concat Nat.add]. rewrite app_nil_r, <- !app_assoc. reflexivity. }
  destruct k as [|k]; [lia|]. rewrite for_up_snoc by lia. rewrite X by lia. cbn [bind].
  rewrite (rd_ok _ p k 0%Qc) by lia. cbn [bind]. cbv zeta. destruct (Nat.ltb_spec (k + 1) (S k)); [lia|].
  f_equal. unfold csv_line. rewrite <- !app_assoc. f_equal.
  assert (Y : forall (l : list Qc) x, commas (map show (l ++ [x])) = concat (map (fun y => show y ++ [FIELD_SEPARATOR]) l) ++ show x).
  { clear. intros l x. induction l as [|a l IH]; [reflexivity|]. cbn [app map concat]. rewrite <- app_assoc, <- IH.
    destruct (l ++ [x]) as [|b r] eqn:E; [destruct l; discriminate|]. cbn [map commas]. rewrite <- app_assoc. reflexivity. }
  replace (map show p) with (map show (firstn k p ++ [nth k p 0%Qc])).
  - rewrite Y, <- app_assoc. f_equal. f_equal. replace (firstn k p) with (map (fun i => nth i p 0%Qc) (seq 0 k)).
    + now rewrite map_map.
    + apply (list_ext_nth _ 0%Qc).
      * rewrite map_length, seq_length, firstn_length. lia.
      * intros i Hi. rewrite map_length, seq_length in Hi. rewrite (nth_map _ _ _ _ _ 0) by (rewrite seq_length; lia). rewrite seq_nth by lia.
        cbn [Nat.add]. rewrite <- (firstn_skipn k p) at 1. now rewrite app_nth1 by (rewrite firstn_length; lia).
  - f_equal. rewrite <- (firstn_skipn k p) at 3. f_equal. 
    assert (L : len (skipn k p) = 1) by (rewrite skipn_length; lia).
    destruct (skipn k p) as [|y [|]] eqn:ES; try discriminate. f_equal.
    rewrite <- (firstn_skipn k p), app_nth2 by (rewrite firstn_length; lia). rewrite firstn_length, ES.
    replace (k - Nat.min k (len p)) with 0 by lia. reflexivity.
Qed.
Lemma next_all_ok : forall show names m v, parsed t names m -> v < n -> 0 < card v -> forall l m0 out, model_ok card m0 -> same_model (all_marked m) m0 ->
  Forall (fun ts => fit_series n ts /\ possible_series t ts /\ 0 < s_length ts) l ->
  next_all show (card v) m0 l v out =
  Ok (out ++ concat (map (fun ts => csv_line (map (fun x => show (chance t ts (s_length ts) (s_length ts) (s_length ts - 1) v x)) (seq 0 (card v)))) l)).
Proof.
  intros show names m v P Hv Hc. induction l as [|ts l IH]; intros m0 out M0 S0 FF; cbn [next_all].
  - cbn. now rewrite app_nil_r.
  - inversion FF as [|? ? (F & PO & LP) FF']; subst.
    destruct (filter_one k1 k2 c net_text t NF names m P m0 ts [v] true M0 S0 F PO) as (m' & rs & l' & E & M' & S' & (L & H)).
    { intros w [<-|[]]; auto. }
    rewrite E. cbn [bind]. destruct (H (s_length ts - 1)) as (A & B); [lia|]. destruct (B 0) as (C & D); [cbn; lia|]. cbn [nth] in C, D.
    unfold get_posterior. cbn [ucs_variables ucs_data].
    assert (EC : column_of [v] v = Ok (Some 0)). { unfold column_of. cbn. unfold equal_variables. now rewrite Nat.eqb_refl. }
    rewrite EC. cbn [bind]. destruct (Z.ltb_spec (Z.of_nat (len rs) - 1) 0); [lia|].
    destruct (Z.leb_spec (Z.of_nat (len rs)) (Z.of_nat (len rs) - 1)); [lia|]. cbn [orb].
    replace (Z.to_nat (Z.of_nat (len rs) - 1)) with (s_length ts - 1) by lia.
    rewrite (rd_ok _ rs (s_length ts - 1) []) by lia. cbn [bind]. rewrite (rd_ok _ _ 0 []) by (cbn in A; lia). cbn [bind].
    rewrite print_logs_ok by auto. cbn [bind]. rewrite (IH m' _ M' S' FF'). cbn [map concat]. rewrite <- app_assoc. do 3 f_equal. f_equal.
    apply (list_ext_nth _ []).
    { rewrite !map_length, seq_length. auto. }
    intros x Hx. rewrite map_length in Hx. rewrite (nth_map _ _ _ _ _ 0%Qc) by lia. rewrite (nth_map _ _ _ _ _ 0) by (rewrite seq_length; lia).
    rewrite seq_nth by lia. cbn [Nat.add]. rewrite D by lia. now replace (S (s_length ts - 1)) with (s_length ts) by lia.
Qed.

Lemma C77_lemma : forall show symbol, ss <> [] -> Forall (possible_series t) ss -> In symbol (symbols t) ->
  let v := ParseSpec.number t symbol in
  nipnext show k1 k2 g0 (Some net_text) (Some data_text) symbol =
  Ok (0%Z, csv_line (map chars (states (node t v))) ++
    concat (map (fun ts => csv_line (map (fun x => show (chance t ts (s_length ts) (s_length ts) (s_length ts - 1) v x)) (seq 0 (card v)))) ss)).
Proof.
  intros show symbol NE PO HS v. destruct (inputs_ok k1 k2 c net_text t NF data_text cols ss DF) as (names & m & P & E).
  unfold nipnext. rewrite E. assert (D := data_fits t data_text cols ss DF).
  destruct ss as [|ts0 ss0] eqn:ES; [congruence|]. rewrite <- ES in *. cbn [bind].
  destruct (symbol_number names m symbol P HS) as (-> & Hv). cbn [bind]. fold v in Hv |- *.
  destruct (name_of names m v P Hv) as (nv & N1 & N2 & N3 & _). unfold rd at 1. rewrite N1. cbn [bind].
  rewrite N3. unfold card_in at 1. rewrite (state_names_ok names v nv (states (node t v)) [] N1 N2). cbn [bind app].
  rewrite mark_all_ok. cbn [bind]. destruct (mm_model names m P) as (M0 & S0).
  rewrite (next_all_ok show names m v P Hv (card_pos t names m P v) ss (all_marked m) _ M0 S0); [reflexivity|].
  rewrite Forall_forall in *. intros ts Hts. destruct (D ts Hts) as (A & _ & B & _). auto.
Qed.
End Programs.
