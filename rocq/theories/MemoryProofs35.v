(** * Memory of programs that infer, learn and sample (for C94) *)
From Coq Require Import Permutation.
From Verif Require Import Base BaseProofs HeapProofs MemoryModel MemorySpec MemorySpec2 MemoryModel5 MemorySpec5 MemoryProofs MemoryProofs2 MemoryProofs3 MemoryProofs4 MemoryProofs5 MemoryProofs6 MemoryProofs7 MemoryProofs8 MemoryProofs9 MemoryProofs10 MemoryProofs11 MemoryProofs33 MemoryProofs34.
Import ListNotations.
Open Scope nat_scope.
Local Open Scope res_scope.
Local Open Scope list_scope.

(** ** Blocks that only got mappings *)
Definition grown (vs : list nat) (F F' : fp) : Prop :=
  (forall a b, In (a, b) F -> exists b', In (a, b') F' /\
     (b' = b \/ (In a vs /\ nth_error b V_mapping = Some (P None) /\ exists c, b' = set_nth b V_mapping (P (Some c))))) /\
  (forall a b', In (a, b') F' -> (exists b, In (a, b) F) \/ (exists v bv, In v vs /\ In (v, bv) F' /\ nth_error bv V_mapping = Some (P (Some a)))).

Lemma grown_refl : forall vs F, grown vs F F.
Proof. intros vs F. split; [intros a b I; exists b; auto|intros a b I; left; eauto]. Qed.
Lemma mapping_set : forall (b : block) x c, nth_error b V_mapping = Some x -> nth_error (set_nth b V_mapping c) V_mapping = Some c.
Proof. intros b x c E. rewrite set_nth_nth, Nat.eqb_refl; [reflexivity|]. apply nth_error_Some. rewrite E. discriminate. Qed.
Lemma grown_trans : forall vs F G H, grown vs F G -> grown vs G H -> grown vs F H.
Proof.
  intros vs F G H (A1 & A2) (B1 & B2). split.
  - intros a b I. destruct (A1 a b I) as (b1 & I1 & D1). destruct (B1 a b1 I1) as (b2 & I2 & D2). exists b2. split; [exact I2|].
    destruct D1 as [->|(IV & E & c & ->)]; [exact D2|]. destruct D2 as [->|(_ & E2 & _)]; [right; eauto|].
    rewrite (mapping_set b _ _ E) in E2. discriminate.
  - intros a b2 I2. destruct (B2 a b2 I2) as [(b1 & I1)|X]; [|right; exact X].
    destruct (A2 a b1 I1) as [X|(v & bv & IV & I & E)]; [left; exact X|]. right.
    destruct (B1 v bv I) as (bv' & I' & [->|(_ & E2 & _)]); [exists v, bv; auto|]. rewrite E in E2. discriminate.
Qed.
Lemma grown_app : forall vs F F' G, grown vs F F' -> grown vs (F ++ G) (F' ++ G).
Proof.
  intros vs F F' G (A1 & A2). split.
  - intros a b I. apply in_app_or in I. destruct I as [I|I].
    + destruct (A1 a b I) as (b' & I' & D). exists b'. split; [apply in_or_app; left; exact I'|exact D].
    + exists b. split; [apply in_or_app; right; exact I|left; reflexivity].
  - intros a b I. apply in_app_or in I. destruct I as [I|I].
    + destruct (A2 a b I) as [(b0 & I0)|(v & bv & IV & I' & E)]; [left; exists b0; apply in_or_app; left; exact I0|].
      right. exists v, bv. split; [exact IV|]. split; [apply in_or_app; left; exact I'|exact E].
    + left. exists b. apply in_or_app. right. exact I.
Qed.
Lemma grown_perm : forall vs F F' G G', Permutation F G -> Permutation F' G' -> grown vs F F' -> grown vs G G'.
Proof.
  intros vs F F' G G' P P' (A1 & A2). assert (Q := Permutation_sym P). assert (Q' := Permutation_sym P'). split.
  - intros a b I. destruct (A1 a b (Permutation_in _ Q I)) as (b' & I' & D). exists b'. split; [eapply Permutation_in; eassumption|exact D].
  - intros a b I. destruct (A2 a b (Permutation_in _ Q' I)) as [(b0 & I0)|(v & bv & IV & I' & E)].
    + left. exists b0. eapply Permutation_in; eassumption.
    + right. exists v, bv. split; [exact IV|]. split; [eapply Permutation_in; eassumption|exact E].
Qed.
Lemma grown_memory : forall m m' F F' vs, heap_is m F -> heap_is m' F' -> grown vs F F' -> only_mappings m m' vs.
Proof.
  intros m m' F F' vs (_ & H) (_ & H') (A1 & A2). split.
  - intros a b E. apply H in E. destruct (A1 a b E) as (b' & I & D). exists b'. split; [apply H'; exact I|exact D].
  - intros a b E. apply H' in E. destruct (A2 a b E) as [(b0 & I)|(v & bv & IV & I & EV)]; [left; exists b0; apply H; exact I|].
    right. exists v, bv. split; [exact IV|]. split; [apply H'; exact I|exact EV].
Qed.

Lemma find_mapping_grown : forall vs m f v id card g, In v vs -> var v id card g -> heap_is m (g ++ f) ->
  exists m' g', find_family_mapping m (Some v) = Ok m' /\ var v id card g' /\ heap_is m' (g' ++ f) /\ grown vs g g'.
Proof.
  intros vs m f v id card g IV (sym & name & sn & strs & lik & prior & np & parents & mapping & b & E & L & HA) H. subst g.
  cbn [app] in H. unfold var_block in *. unfold find_family_mapping. gp H. destruct mapping as [mp|].
  - exists m. eexists ((v, _) :: (sn, _) :: b). split; [reflexivity|]. split; [|split; [cbn [app]; eapply heap_perm; [|exact H]; perm|apply grown_refl]].
    eexists sym, name, sn, strs, lik, prior, _, parents, (Some mp), _. split; [reflexivity|]. split; [exact L|exact HA].
  - gn H. al H. front H v. match goal with |- context [store _ _ V_mapping ?x] => destruct (store_ok _ _ v _ V_mapping x H) as (m' & E & H' & _) end; [cbv; lia|].
    fields. exists m'. eexists ((v, _) :: (sn, _) :: (a, _) :: b). split; [exact E|]. split; [|split].
    2:{ cbn [app]. eapply heap_perm; [|exact H']. perm. }
    + eexists sym, name, sn, strs, lik, prior, _, parents, (Some a), _. split; [reflexivity|]. split; [exact L|].
      unfold addresses. cbn [map fst opt app]. unfold addresses in HA. cbn [opt app] in HA.
      eapply perm_trans; [apply perm_skip; exact HA|]. perm.
    + split.
      * intros x y [I|[I|I]].
        -- injection I as <- <-. eexists. split; [left; reflexivity|]. right. split; [exact IV|]. split; [reflexivity|]. exists a. reflexivity.
        -- exists y. split; [right; left; exact I|left; reflexivity].
        -- exists y. split; [right; right; right; exact I|left; reflexivity].
      * intros x y [I|[I|[I|I]]].
        -- injection I as <- <-. left. eexists. left. reflexivity.
        -- left. exists y. right. left. exact I.
        -- injection I as <- <-. right. eexists v, _. split; [exact IV|]. split; [left; reflexivity|reflexivity].
        -- left. exists y. right. right. exact I.
Qed.

(** ** What is known of the memory during learning *)
Definition known (vs cl : list nat) (live : list bool) (t0 : tree) (rest : fp) (A : list nat) (F : fp) : Prop :=
  exists t, F = blocks_of t ++ rest /\ vars_ok vs live (t_vars t) /\ cliques_ok vs cl t /\ Forall (edge_ok cl (t_members t)) (t_edges t) /\
    t_members t = t_members t0 /\ t_edges t = t_edges t0 /\ grown A (blocks_of t0 ++ rest) F.

Lemma known_maps : forall vs cl live t0 rest A i, nth i live false = true -> i < length vs -> In (nth i vs 0) A ->
  maps_ok (known vs cl live t0 rest A) (nth i vs 0).
Proof.
  intros vs cl live t0 rest A i LV LI IA F m tmp (t & -> & (L1 & L2 & HV) & HC & HE & EM & EE & GR) H.
  assert (X := HV i LI). rewrite LV in X. destruct X as (card & X).
  set (R := (concat (set_nth (t_vars t) i []) ++ concat (t_cliques t) ++ flat_map e_fp (t_edges t)) ++ rest).
  assert (P1 : Permutation (blocks_of t ++ rest) (nth i (t_vars t) [] ++ R)).
  { unfold blocks_of, R. rewrite !app_assoc. apply Permutation_app_tail. apply Permutation_app_tail. apply Permutation_app_tail. apply concat_pull. lia. }
  destruct (find_mapping_grown A m (R ++ tmp) _ _ _ _ IA X) as (m' & g' & E & V' & H' & G').
  { eapply heap_perm; [|exact H]. eapply perm_trans; [apply Permutation_app_comm|]. eapply perm_trans; [apply Permutation_app_tail; exact P1|]. rewrite <- app_assoc. apply Permutation_refl. }
  set (t' := mkTree (set_nth (t_vars t) i g') (t_cliques t) (t_members t) (t_links t) (t_edges t)).
  assert (P2 : Permutation (g' ++ R) (blocks_of t' ++ rest)).
  { unfold blocks_of, R, t'. cbn [t_vars t_cliques t_edges]. rewrite !app_assoc. apply Permutation_app_tail. apply Permutation_app_tail. apply Permutation_app_tail. apply concat_set. lia. }
  exists m', (blocks_of t' ++ rest). split; [exact E|]. split.
  - exists t'. split; [reflexivity|]. split; [|split; [exact HC|split; [exact HE|split; [exact EM|split; [exact EE|]]]]].
    + split; [exact L1|]. unfold t'. cbn [t_vars]. split; [rewrite set_nth_length; exact L2|]. intros j Lj. rewrite nth_set by lia.
      destruct (Nat.eqb_spec j i) as [D|D]; [subst j; rewrite LV; eauto|]. apply HV. exact Lj.
    + eapply grown_trans; [exact GR|]. eapply grown_perm; [apply Permutation_sym; exact P1|exact P2|]. apply grown_app. exact G'.
  - eapply heap_perm; [|exact H']. rewrite app_assoc. eapply perm_trans; [apply Permutation_app_tail; exact P2|apply Permutation_app_comm].
Qed.

Lemma var_parents : forall v id card g, var v id card g -> exists b k, In (v, b) g /\ nth_error b V_nparents = Some (N k).
Proof.
  intros v id card g (sym & name & sn & strs & lik & prior & np & parents & mapping & b & E & L & HA). subst g.
  eexists _, np. split; [left; reflexivity|]. unfold var_block. reflexivity.
Qed.
Lemma known_parents : forall vs cl live t0 rest A i, nth i live false = true -> i < length vs -> parents_ok (known vs cl live t0 rest A) (nth i vs 0).
Proof.
  intros vs cl live t0 rest A i LV LI F (t & -> & (L1 & L2 & HV) & _). assert (X := HV i LI). rewrite LV in X. destruct X as (card & X).
  destruct (var_parents _ _ _ _ X) as (b & k & IB & EB). exists b, k. split; [|exact EB].
  apply in_or_app. left. apply in_or_app. left. apply in_concat. exists (nth i (t_vars t) []). split; [apply nth_In; lia|exact IB].
Qed.

(** Variables that exist, by their addresses. *)
Lemma live_vars : forall vs live G l, vars_ok vs live G -> forallb (fun v => nth v live false) l = true ->
  map (nth_error vs) l = map Some (map (fun i => nth i vs 0) l) /\ Forall (fun i => nth i live false = true /\ i < length vs) l /\
  Forall (has_var (concat G)) (map (fun i => nth i vs 0) l).
Proof.
  intros vs live G l V. induction l as [|i l IH]; intros HL; [repeat split; constructor|]. cbn [forallb] in HL. apply andb_prop in HL. destruct HL as (A & B).
  destruct (IH B) as (E & F & H). destruct (live_has vs live G i V A) as (HV & LI). cbn [map]. rewrite E, (nth_error_nth' vs 0 LI).
  split; [reflexivity|]. split; constructor; auto.
Qed.
Lemma vars_in_heap : forall t rest, incl (concat (t_vars t)) (blocks_of t ++ rest).
Proof. intros t rest x K. apply in_or_app. left. apply in_or_app. left. exact K. Qed.

Lemma ser_length : forall y g, ser y g -> exists n, length_of g y n.
Proof.
  intros y g (n & hid & obs & dat & gh & go & gd & -> & _). exists n. eexists. split; [left; reflexivity|reflexivity].
Qed.
Lemma in_nth_concat : forall A (G : list (list A)) i, i < length G -> incl (nth i G []) (concat G).
Proof. intros A G i L x K. apply in_concat. exists (nth i G []). split; [apply nth_In; exact L|exact K]. Qed.

Lemma learn_ok : forall m vs cl live T ys series G U l vars out families random w its,
  inv m vs cl live T (concat G ++ concat U) -> all_ok ser ys series G ->
  forallb (fun y => nth (fst y) series false) l = true -> forallb (fun v => nth v live false) vars = true -> forallb (fun v => nth v live false) out = true ->
  exists m' e T', em_learn m (map (fun y => (nth_error ys (fst y), snd y)) l) (map (nth_error vs) vars) (map (nth_error vs) out) families random w its = Ok (m', e) /\
    inv m' vs cl live T' (concat G ++ concat U) /\ t_members T' = t_members T /\ t_edges T' = t_edges T /\
    only_mappings m m' (map (fun i => nth i vs 0) vars).
Proof.
  intros m vs cl live T ys series G U l vars out families random w its (V & C & E & H) AS HL HV HO.
  destruct (live_vars _ _ _ _ V HV) as (EV & FV & _). destruct (live_vars _ _ _ _ V HO) as (EO & FO & _). rewrite EV, EO.
  set (A := map (fun i => nth i vs 0) vars). set (R := concat G ++ concat U) in *. set (I := known vs cl live T R A).
  assert (Y : exists ts, map (fun y => (nth_error ys (fst y), snd y)) l = map (fun y => (Some (fst y), snd y)) ts /\ Forall (fun y => series_ok I (fst y)) ts).
  { clear -HL AS. induction l as [|[y n] l IH]; [exists []; split; [reflexivity|constructor]|]. cbn [forallb fst] in HL. apply andb_prop in HL. destruct HL as (A1 & A2).
    destruct (IH A2) as (ts & E & FT). destruct (all_live _ _ _ _ _ AS A1) as (LY & S). destruct (ser_length _ _ S) as (k & b & IB & EB).
    exists ((nth y ys 0, n) :: ts). cbn [map fst snd]. rewrite E, (nth_error_nth' ys 0 LY). split; [reflexivity|]. constructor; [|exact FT].
    exists k. intros F (t & -> & _). exists b. split; [|exact EB]. apply in_or_app. right. apply in_or_app. left.
    eapply in_nth_concat; [|exact IB]. destruct AS as (_ & L2 & _). eapply Nat.lt_le_trans; [exact LY|apply Nat.eq_le_incl; symmetry; exact L2]. }
  destruct Y as (ts & -> & FT).
  destruct (em_learn_ok I A (map (fun i => nth i vs 0) out)) with (its := its) (ts := ts) (m := m) (F := blocks_of T ++ R) (tmp := @nil (nat * block)) (families := families) (random := random) (w := w)
    as (m' & F' & e & E' & (t' & -> & V' & C' & D' & EM & EE & GR) & H'); try assumption.
  - apply Forall_forall. intros v IV. apply in_map_iff in IV. destruct IV as (i & <- & II). rewrite Forall_forall in FV. destruct (FV i II) as (LV & LI).
    apply known_maps; [exact LV|exact LI|]. apply in_map_iff. eauto.
  - apply Forall_forall. intros v IV. apply in_map_iff in IV. destruct IV as (i & <- & II). rewrite Forall_forall in FV. destruct (FV i II) as (LV & LI).
    apply known_parents; assumption.
  - intros F (t & -> & V' & _). eapply has_vars_incl; [apply vars_in_heap|]. exact (proj2 (proj2 (live_vars _ _ _ _ V' HO))).
  - exists T. split; [reflexivity|]. split; [exact V|]. split; [exact C|]. split; [exact E|]. split; [reflexivity|]. split; [reflexivity|]. apply grown_refl.
  - exists m', e, t'. split; [exact E'|]. split; [|split; [exact EM|split; [exact EE|]]].
    + split; [exact V'|]. split; [exact C'|]. split; [exact D'|exact H'].
    + exact (grown_memory m m' _ _ A H H' GR).
Qed.

(** ** Programs *)
Lemma run_deed_ok : forall t t' m vs cl ys us T G U d,
  inv m vs cl (w_vars (t_world t)) T (concat G ++ concat U) -> rep (t_world t) cl T ->
  all_ok ser ys (t_series t) G -> all_ok unc us (t_results t) U -> deed_effect t d = Some t' ->
  goal2 t' (run_deed ((m, vs, cl), ys, us) d).
Proof.
  intros t t' m vs cl ys us T G U d INV R AS AU HE. destruct d as [a|y vars out w|y vars out w|l vars out families random w first others|vars out n w]; cbn [deed_effect] in HE; unfold run_deed.
  - eapply run_action_ok; eassumption.
  - destruct (nth y (t_series t) false) eqn:HL; [|discriminate]. cbn [andb] in HE. unfold exists_var in HE.
    destruct (forallb _ vars) eqn:HV; [|discriminate]. destruct (forallb _ out) eqn:HO; [|discriminate]. cbn [andb] in HE. injection HE as <-.
    destruct (all_live _ _ _ _ _ AS HL) as (LY & Y). rewrite (rd_nth _ ys y 0 LY). cbn [bind]. destruct INV as (A & B & C & H).
    destruct (live_vars _ _ _ _ A HV) as (EV & _ & FV). destruct (live_vars _ _ _ _ A HO) as (EO & _ & FO). cbv zeta. rewrite EV, EO.
    destruct (ser_length _ _ Y) as (n & b & IB & EB).
    destruct (forward_ok m (blocks_of T ++ concat G ++ concat U) (nth y ys 0) n (map (fun i => nth i vs 0) vars) (map (fun i => nth i vs 0) out) w H) as (m' & u & g & E & Q & H').
    + exists b. split; [|exact EB]. apply in_or_app. right. apply in_or_app. left. eapply in_nth_concat; [|exact IB]. destruct AS as (_ & L2 & _). eapply Nat.lt_le_trans; [exact LY|apply Nat.eq_le_incl; symmetry; exact L2].
    + eapply has_vars_incl; [apply vars_in_heap|exact FV].
    + eapply has_vars_incl; [apply vars_in_heap|exact FO].
    + rewrite E. cbn [bind address]. exists m', vs, cl, ys, (us ++ [u]), T, G, (U ++ [g]). cbn [t_world t_series t_results].
      split; [reflexivity|]. split; [|split; [exact R|split; [exact AS|apply all_new; assumption]]].
      split; [exact A|]. split; [exact B|]. split; [exact C|]. rewrite concat_add. eapply heap_perm; [|exact H']. perm.
  - destruct (nth y (t_series t) false) eqn:HL; [|discriminate]. cbn [andb] in HE. unfold exists_var in HE.
    destruct (forallb _ vars) eqn:HV; [|discriminate]. destruct (forallb _ out) eqn:HO; [|discriminate]. cbn [andb] in HE. injection HE as <-.
    destruct (all_live _ _ _ _ _ AS HL) as (LY & Y). rewrite (rd_nth _ ys y 0 LY). cbn [bind]. destruct INV as (A & B & C & H).
    destruct (live_vars _ _ _ _ A HV) as (EV & _ & FV). destruct (live_vars _ _ _ _ A HO) as (EO & _ & FO). cbv zeta. rewrite EV, EO.
    destruct (ser_length _ _ Y) as (n & b & IB & EB).
    destruct (forward_backward_ok m (blocks_of T ++ concat G ++ concat U) (nth y ys 0) n (map (fun i => nth i vs 0) vars) (map (fun i => nth i vs 0) out) w H) as (m' & u & g & E & Q & H').
    + exists b. split; [|exact EB]. apply in_or_app. right. apply in_or_app. left. eapply in_nth_concat; [|exact IB]. destruct AS as (_ & L2 & _). eapply Nat.lt_le_trans; [exact LY|apply Nat.eq_le_incl; symmetry; exact L2].
    + eapply has_vars_incl; [apply vars_in_heap|exact FV].
    + eapply has_vars_incl; [apply vars_in_heap|exact FO].
    + rewrite E. cbn [bind address]. exists m', vs, cl, ys, (us ++ [u]), T, G, (U ++ [g]). cbn [t_world t_series t_results].
      split; [reflexivity|]. split; [|split; [exact R|split; [exact AS|apply all_new; assumption]]].
      split; [exact A|]. split; [exact B|]. split; [exact C|]. rewrite concat_add. eapply heap_perm; [|exact H']. perm.
  - unfold exists_var in HE. destruct (forallb _ l) eqn:HL; [|discriminate]. destruct (forallb _ vars) eqn:HV; [|discriminate].
    destruct (forallb _ out) eqn:HO; [|discriminate]. cbn [andb] in HE. injection HE as <-. cbv zeta.
    destruct (learn_ok m vs cl _ T ys _ G U l vars out families random w (first :: others) INV AS HL HV HO) as (m' & e & T' & E & INV' & EM & EE & _).
    rewrite E. cbn [bind]. exists m', vs, cl, ys, us, T', G, U. split; [reflexivity|]. split; [exact INV'|]. split; [|split; assumption].
    destruct R as (R1 & R2). split; [exact R1|]. intros k. rewrite EM, EE. apply R2.
  - unfold exists_var in HE. destruct (forallb _ vars) eqn:HV; [|discriminate]. destruct (forallb _ out) eqn:HO; [|discriminate]. cbn [andb] in HE. injection HE as <-.
    destruct INV as (A & B & C & H). destruct (live_vars _ _ _ _ A HV) as (EV & _ & FV). destruct (live_vars _ _ _ _ A HO) as (EO & _ & FO). cbv zeta. rewrite EV, EO.
    destruct (generate_data_ok m _ (map (fun i => nth i vs 0) vars) (map (fun i => nth i vs 0) out) n w H) as (m' & y & g & E & Q & H').
    + eapply has_vars_incl; [apply vars_in_heap|exact FV].
    + eapply has_vars_incl; [apply vars_in_heap|exact FO].
    + rewrite E. cbn [bind address]. exists m', vs, cl, (ys ++ [y]), us, T, (G ++ [g]), U. cbn [t_world t_series t_results].
      split; [reflexivity|]. split; [|split; [exact R|split; [apply all_new; assumption|exact AU]]].
      split; [exact A|]. split; [exact B|]. split; [exact C|]. rewrite concat_add. eapply heap_perm; [|exact H']. perm.
Qed.

Lemma run_deeds_ok : forall l t t' m vs cl ys us T G U,
  inv m vs cl (w_vars (t_world t)) T (concat G ++ concat U) -> rep (t_world t) cl T ->
  all_ok ser ys (t_series t) G -> all_ok unc us (t_results t) U -> deed_effects t l = Some t' ->
  goal2 t' (run_deeds ((m, vs, cl), ys, us) l).
Proof.
  induction l as [|a l IH]; intros t t' m vs cl ys us T G U INV R AS AU HE; cbn [deed_effects run_deeds] in *.
  - injection HE as <-. exists m, vs, cl, ys, us, T, G, U. auto.
  - destruct (deed_effect t a) as [t1|] eqn:E; [|discriminate].
    destruct (run_deed_ok t t1 m vs cl ys us T G U a INV R AS AU E) as (m1 & vs1 & cl1 & ys1 & us1 & T1 & G1 & U1 & E1 & I1 & R1 & A1 & B1).
    rewrite E1. cbn [bind]. eapply IH; eassumption.
Qed.
Lemma deeds_ok : forall l t, deed_effects no_things l = Some t -> goal2 t (run_deeds (start, [], []) l).
Proof.
  intros l t HE. destruct start_ok as (A & B).
  assert (Z : forall Q, all_ok Q [] [] []) by (intros Q; split; [reflexivity|split; [reflexivity|intros i Hi; cbn in Hi; lia]]).
  exact (run_deeds_ok l no_things t [] [] [] [] [] _ [] [] A B (Z ser) (Z unc) HE).
Qed.

Lemma C94_programs_lemma : forall l t, deed_effects no_things l = Some t ->
  exists m vs cl ys us, run_deeds (start, [], []) l = Ok ((m, vs, cl), ys, us) /\
    length vs = length (w_vars (t_world t)) /\ length cl = length (w_cliques (t_world t)) /\
    length ys = length (t_series t) /\ length us = length (t_results t) /\
    (forall a mem nb, clique_of (t_world t) a = Some (mem, nb) -> has_neighbours m (nth a cl 0) (map (fun b => nth b cl 0) nb)) /\
    ((forall v, exists_var (t_world t) v = false) -> (forall a, clique_of (t_world t) a = None) ->
     (forall y, nth y (t_series t) false = false) -> (forall u, nth u (t_results t) false = false) -> all_free m).
Proof.
  intros l t HE. destruct (deeds_ok l t HE) as (m & vs & cl & ys & us & T & G & U & E & INV & R & AS & AU).
  exists m, vs, cl, ys, us. split; [exact E|]. split; [symmetry; exact (proj1 (proj1 INV))|]. split; [symmetry; exact (proj1 R)|].
  split; [symmetry; exact (proj1 AS)|]. split; [symmetry; exact (proj1 AU)|]. split.
  - intros a mem nb CA. destruct (rep_some _ cl T a mem nb R CA) as (MA & ->). eapply inv_neighbours; eassumption.
  - intros NV NC NS NU. apply heap_none. rewrite (all_none _ _ _ _ AS NS), (all_none _ _ _ _ AU NU) in INV.
    apply (inv_empty m vs cl _ T [] INV NV). intros k. destruct R as (_ & R2). assert (X := NC k). rewrite R2 in X.
    destruct (nth k (t_members T) None); [discriminate|reflexivity].
Qed.

Lemma C94_learning_lemma : forall l t ys vars out families random w first others t' m vs cl ya us,
  deed_effects no_things l = Some t -> deed_effect t (Learn ys vars out families random w first others) = Some t' ->
  run_deeds (start, [], []) l = Ok ((m, vs, cl), ya, us) ->
  exists m', run_deed ((m, vs, cl), ya, us) (Learn ys vars out families random w first others) = Ok ((m', vs, cl), ya, us) /\
    only_mappings m m' (map (fun i => nth i vs 0) vars).
Proof.
  intros l t ys vars out families random w first others t' m vs cl ya us HE HD HR.
  destruct (deeds_ok l t HE) as (m1 & vs1 & cl1 & ys1 & us1 & T & G & U & E & INV & R & AS & AU). rewrite HR in E. injection E as <- <- <- <- <-.
  cbn [deed_effect] in HD. unfold exists_var in HD. destruct (forallb _ ys) eqn:HL; [|discriminate]. destruct (forallb _ vars) eqn:HV; [|discriminate].
  destruct (forallb _ out) eqn:HO; [|discriminate]. unfold run_deed. cbv zeta.
  destruct (learn_ok m vs cl _ T ya _ G U ys vars out families random w (first :: others) INV AS HL HV HO) as (m' & e & T' & E & _ & _ & _ & OM).
  rewrite E. cbn [bind]. eauto.
Qed.

Lemma more_keeps : forall m m' F g, heap_is m F -> heap_is m' (g ++ F) -> keeps m m'.
Proof. intros m m' F g (_ & H) (_ & H') a b E. apply H'. apply in_or_app. right. apply H. exact E. Qed.
Lemma same_heap : forall m m' F, heap_is m F -> heap_is m' F -> same_memory m m'.
Proof. intros m m' F (_ & H) (_ & H') a b. rewrite H, H'. reflexivity. Qed.

Lemma C94_inference_lemma : forall l t y vars out w d t' m vs cl ys us,
  d = Filter y vars out w \/ d = Smooth y vars out w ->
  deed_effects no_things l = Some t -> deed_effect t d = Some t' -> run_deeds (start, [], []) l = Ok ((m, vs, cl), ys, us) ->
  exists m' u m'', run_deed ((m, vs, cl), ys, us) d = Ok ((m', vs, cl), ys, us ++ [u]) /\ keeps m m' /\
    free_uncertainseries m' (Some u) = Ok m'' /\ same_memory m m''.
Proof.
  intros l t y vars out w d t' m vs cl ys us D HE HD HR.
  destruct (deeds_ok l t HE) as (m1 & vs1 & cl1 & ys1 & us1 & T & G & U & E & INV & R & AS & AU). rewrite HR in E. injection E as <- <- <- <- <-.
  assert (HD2 : deed_effect t (Filter y vars out w) = Some t') by (destruct D as [->| ->]; exact HD).
  cbn [deed_effect] in HD2. destruct (nth y (t_series t) false) eqn:HL; [|discriminate]. cbn [andb] in HD2. unfold exists_var in HD2.
  destruct (forallb _ vars) eqn:HV; [|discriminate]. destruct (forallb _ out) eqn:HO; [|discriminate]. clear HD HD2.
  destruct (all_live _ _ _ _ _ AS HL) as (LY & Y). destruct INV as (A & B & C & H).
  destruct (live_vars _ _ _ _ A HV) as (EV & _ & FV). destruct (live_vars _ _ _ _ A HO) as (EO & _ & FO).
  destruct (ser_length _ _ Y) as (n & b & IB & EB).
  assert (LO : length_of (blocks_of T ++ concat G ++ concat U) (nth y ys 0) n).
  { exists b. split; [|exact EB]. apply in_or_app. right. apply in_or_app. left. eapply in_nth_concat; [|exact IB]. destruct AS as (_ & L2 & _). eapply Nat.lt_le_trans; [exact LY|apply Nat.eq_le_incl; symmetry; exact L2]. }
  assert (VV := has_vars_incl _ _ _ (vars_in_heap T (concat G ++ concat U)) FV). assert (VO := has_vars_incl _ _ _ (vars_in_heap T (concat G ++ concat U)) FO).
  assert (X : exists m' u g, run_deed ((m, vs, cl), ys, us) d = Ok ((m', vs, cl), ys, us ++ [u]) /\ unc u g /\ heap_is m' (g ++ blocks_of T ++ concat G ++ concat U)).
  { destruct D as [->| ->]; unfold run_deed; rewrite (rd_nth _ ys y 0 LY); cbn [bind]; cbv zeta; rewrite EV, EO.
    - destruct (forward_ok m _ (nth y ys 0) n _ _ w H LO VV VO) as (m' & u & g & E & Q & H'). rewrite E. cbn [bind address]. eauto 6.
    - destruct (forward_backward_ok m _ (nth y ys 0) n _ _ w H LO VV VO) as (m' & u & g & E & Q & H'). rewrite E. cbn [bind address]. eauto 6. }
  destruct X as (m' & u & g & E & Q & H'). destruct (free_uncertainseries_ok m' _ u g Q H') as (m'' & E2 & H'').
  exists m', u, m''. split; [exact E|]. split; [exact (more_keeps _ _ _ _ H H')|]. split; [exact E2|exact (same_heap _ _ _ H H'')].
Qed.

Lemma C94_sampling_lemma : forall l t vars out n w t' m vs cl ys us,
  deed_effects no_things l = Some t -> deed_effect t (Sample vars out n w) = Some t' -> run_deeds (start, [], []) l = Ok ((m, vs, cl), ys, us) ->
  exists m' y m'', run_deed ((m, vs, cl), ys, us) (Sample vars out n w) = Ok ((m', vs, cl), ys ++ [y], us) /\ keeps m m' /\
    free_timeseries m' (Some y) = Ok m'' /\ same_memory m m''.
Proof.
  intros l t vars out n w t' m vs cl ys us HE HD HR.
  destruct (deeds_ok l t HE) as (m1 & vs1 & cl1 & ys1 & us1 & T & G & U & E & INV & R & AS & AU). rewrite HR in E. injection E as <- <- <- <- <-.
  cbn [deed_effect] in HD. unfold exists_var in HD. destruct (forallb _ vars) eqn:HV; [|discriminate]. destruct (forallb _ out) eqn:HO; [|discriminate].
  destruct INV as (A & B & C & H). destruct (live_vars _ _ _ _ A HV) as (EV & _ & FV). destruct (live_vars _ _ _ _ A HO) as (EO & _ & FO).
  assert (VV := has_vars_incl _ _ _ (vars_in_heap T (concat G ++ concat U)) FV). assert (VO := has_vars_incl _ _ _ (vars_in_heap T (concat G ++ concat U)) FO).
  unfold run_deed. cbv zeta. rewrite EV, EO. destruct (generate_data_ok m _ _ _ n w H VV VO) as (m' & y & g & E & Q & H'). rewrite E. cbn [bind address].
  destruct (free_timeseries_ok m' _ y g Q H') as (m'' & E2 & H'').
  exists m', y, m''. split; [reflexivity|]. split; [exact (more_keeps _ _ _ _ H H')|]. split; [exact E2|exact (same_heap _ _ _ H H'')].
Qed.
