(** * Memory of whole programs: their parts (for C95) *)
From Coq Require Import Permutation String.
From Verif Require Import Base BaseProofs HeapProofs VariableModel NipModel SeriesFileModel MemoryModel MemorySpec MemoryProofs MemoryProofs2 MemoryProofs3 MemoryProofs4 MemoryProofs5 MemoryProofs6 MemoryProofs10 MemoryProofs12 MemoryModel2 MemorySpec2 MemoryProofs17 MemoryModel3 MemoryProofs20 MemoryModel4 MemoryModel5 MemoryProofs26 MemoryProofs30 MemoryProofs33 MemoryProofs34 MemoryProofs35 MemoryModel6.
Import ListNotations.
Open Scope nat_scope.
Local Open Scope res_scope.
Local Open Scope list_scope.
Local Notation len := List.length.

(** ** The model *)
Lemma holds_var : forall x vs rest F i, holds x vs rest F -> i < len vs -> exists card g, var (nth i vs 0) i card g /\ incl g F.
Proof.
  intros x vs rest F i (cl & live & t & gm & ks & -> & (L1 & L2 & V) & _ & _ & _ & _ & _ & LV) K.
  assert (X := V i K). rewrite (LV i K) in X. destruct X as (card & X). exists card, (nth i (t_vars t) []). split; [exact X|].
  intros y Hy. apply in_or_app. left. apply in_or_app. left. apply in_concat. exists (nth i (t_vars t) []). split; [|exact Hy].
  apply nth_In. eapply Nat.lt_le_trans; [exact K|]. apply Nat.eq_le_incl. symmetry. exact L2.
Qed.
Lemma holds_has : forall x vs rest F l, holds x vs rest F -> Forall (fun i => i < len vs) l -> Forall (has_var F) (map (fun i => nth i vs 0) l).
Proof.
  intros x vs rest F l HO FL. apply Forall_forall. intros v IV. apply in_map_iff in IV. destruct IV as (i & <- & II). rewrite Forall_forall in FL.
  destruct (holds_var _ _ _ _ i HO (FL i II)) as (card & g & X & IG). eapply has_var_incl; [exact IG|]. exact (var_has _ _ _ _ X).
Qed.
Lemma holds_mdl : forall x vs rest F, holds x vs rest F -> exists b V, In (x, b) F /\ nth_error b M_nvars = Some (N (len vs)) /\
  nth_error b M_vars = Some (P V) /\ (0 < len vs -> exists a, V = Some a /\ In (a, ptrs vs) F).
Proof.
  intros x vs rest F (cl & live & t & gm & ks & -> & _ & _ & _ & MD & _).
  destruct MD as (nc & A & nv & vo & a1 & a2 & a3 & a4 & a5 & a6 & a7 & gv & ga & _ & -> & -> & HV & _).
  eexists _, vo. split; [apply in_or_app; right; left; reflexivity|]. split; [reflexivity|]. split; [reflexivity|].
  intros K. destruct vo as [a|]; [|destruct HV as (-> & _); cbn in K; lia]. exists a. split; [reflexivity|]. subst gv.
  apply in_or_app. right. right. right. left. reflexivity.
Qed.
Section Model.
Variables (x : nat) (vs : list nat) (rest F tmp : fp) (m : memory).
Hypothesis HO : holds x vs rest F.
Hypothesis H : heap_is m (tmp ++ F).
Let adr (i : nat) := nth i vs 0.

Lemma nvars_at : num m (Some x) M_nvars = Ok (len vs).
Proof. destruct (holds_mdl _ _ _ _ HO) as (b & V & I & E & _). eapply num_ok; [exact H| |exact E]. apply in_or_app. right. exact I. Qed.
Lemma variable_at_ok : forall i, i < len vs -> variable_at m (Some x) i = Ok (Some (adr i)).
Proof.
  intros i K. destruct (holds_mdl _ _ _ _ HO) as (b & V & I & _ & E & Q). destruct Q as (a & -> & IA); [lia|]. unfold variable_at.
  rewrite (ptr_ok m _ x b M_vars (Some a) H) by (first [exact E|apply in_or_app; right; exact I]). cbn [bind].
  apply (ptr_ok m _ a (ptrs vs) i (Some (adr i)) H); [apply in_or_app; right; exact IA|]. unfold ptrs. rewrite nth_error_map, (nth_error_nth' vs 0 K). reflexivity.
Qed.
Lemma variables_at_ok : forall l, Forall (fun i => i < len vs) l -> variables_at m (Some x) l = Ok (map Some (map adr l)).
Proof.
  induction l as [|i l IH]; intros FL; [reflexivity|]. inversion FL as [|? ? A B]; subst. cbn [variables_at map]. rewrite (variable_at_ok i A). cbn [bind].
  rewrite (IH B). reflexivity.
Qed.
Lemma const_loop : forall (body : nat -> memory -> res memory) lo n, lo <= n -> (forall i, lo <= i < n -> body i m = Ok m) -> for_up lo n body m = Ok m.
Proof.
  intros body lo n K Q. destruct (for_up_inv memory (fun _ m' => m' = m) body lo n m) as (m' & E & ->); [exact K|reflexivity| |exact E].
  intros i m' Ki ->. exists m. auto.
Qed.
Lemma mark_ok : mark_variables m (Some x) = Ok m.
Proof.
  unfold mark_variables. rewrite nvars_at. cbn [bind]. apply const_loop; [lia|]. intros i K. rewrite variable_at_ok by lia. cbn [bind].
  destruct (holds_var _ _ _ _ i HO ltac:(lia)) as (card & g & X & IG). destruct (var_has _ _ _ _ X) as (b & id & c & IB & EI & _).
  rewrite (num_ok m _ (adr i) b V_id id H) by (first [exact EI|apply in_or_app; right; apply IG; exact IB]). reflexivity.
Qed.
Lemma find_ok : forall names s o, model_variable names s = Ok o -> (forall i, o = Some i -> i < len vs) ->
  m_model_variable m (Some x) names s = Ok (option_map adr o).
Proof.
  intros names s o E K. unfold m_model_variable. rewrite nvars_at. cbn [bind]. rewrite E. cbn [bind]. rewrite const_loop; [cbn [bind]| |].
  - destruct o as [i|]; [|reflexivity]. apply variable_at_ok. apply K. reflexivity.
  - lia.
  - intros i Hi. assert (KI : i < len vs). { destruct o as [j|]; [specialize (K j eq_refl); lia|lia]. } rewrite (variable_at_ok i KI). cbn [bind].
    destruct (holds_var _ _ _ _ i HO KI) as (card & g & X & IG).
    destruct X as (sym & name & sn & strs & lik & prior & np & parents & mapping & b & EG & _).
    erewrite (ptr_ok m _ (adr i) _ V_symbol _ H); [reflexivity| |].
    + apply in_or_app. right. apply IG. rewrite EG. left. reflexivity.
    + reflexivity.
Qed.
End Model.

Lemma holds_maps : forall x vs rest i, i < len vs -> maps_ok (holds x vs rest) (nth i vs 0).
Proof.
  intros x vs rest i K F m tmp (cl & live & t & gm & ks & -> & V & C & E & MD & NK & KK & LV) H.
  destruct (known_maps vs cl live t (gm ++ rest) vs i (LV i K) K (nth_In vs 0 K) (blocks_of t ++ gm ++ rest) m tmp) as (m' & F' & EM & KN & H'); [|exact H|].
  - exists t. split; [reflexivity|]. split; [exact V|]. split; [exact C|]. split; [exact E|]. split; [reflexivity|]. split; [reflexivity|]. apply grown_refl.
  - destruct KN as (t' & -> & V' & C' & E' & QM & QE & _). exists m', (blocks_of t' ++ gm ++ rest). split; [exact EM|]. split; [|exact H'].
    exists cl, live, t', gm, ks. split; [reflexivity|]. split; [exact V'|]. split; [exact C'|]. split; [exact E'|]. split; [exact MD|]. split; [exact NK|].
    split; [rewrite QM; exact KK|exact LV].
Qed.
Lemma holds_parents : forall x vs rest i, i < len vs -> parents_ok (holds x vs rest) (nth i vs 0).
Proof.
  intros x vs rest i K F HO. destruct (holds_var _ _ _ _ i HO K) as (card & g & X & IG). destruct (var_parents _ _ _ _ X) as (b & k & IB & EB).
  exists b, k. split; [apply IG; exact IB|exact EB].
Qed.

(** ** Arrays of series and of results *)
Lemma nth_pair : forall (R : nat -> fp -> Prop) ys GS i, Forall2 R ys GS -> i < len ys -> exists y g, nth_error (ptrs ys) i = Some (P (Some y)) /\ R y g /\ incl g (concat GS) /\
  nth_error ys i = Some y /\ nth_error GS i = Some g.
Proof.
  intros R ys GS i FF K. destruct (nth_error ys i) as [y|] eqn:EY; [|apply nth_error_None in EY; lia].
  destruct (Forall2_nth _ _ _ _ _ i y FF EY) as (g & EG & Q). exists y, g. split; [unfold ptrs; rewrite nth_error_map, EY; reflexivity|]. split; [exact Q|].
  split; [apply concat_in; eapply nth_error_In; exact EG|]. auto.
Qed.

Lemma free_series_ok : forall m f set ys GS, Forall2 ser ys GS -> heap_is m ((set, ptrs ys) :: concat GS ++ f) ->
  exists m', free_series m (Some set) (len ys) = Ok m' /\ heap_is m' f.
Proof. exact release_ok. Qed.

Lemma read_results_ok : forall m F u g, unc u g -> incl g F -> heap_is m F -> exists m', read_results m (Some u) = Ok m' /\ heap_is m' F.
Proof.
  intros m F u g (k & n & U) I H. unfold read_results. assert (U' := U). destruct U as (a & d & ba & R & gc & -> & _).
  rewrite (num_ok m F u _ U_length n H) by (first [reflexivity|apply I; left; reflexivity]). cbn [bind].
  match goal with |- context [for_up 0 n ?b m] => destruct (for_up_inv memory (fun _ m => heap_is m F) b 0 n m) as (m' & E & H') end; [lia|exact H| |eauto].
  intros t mt K HM. eapply write_results_ok; [exact U'|exact I|exact HM|lia].
Qed.

Lemma write_uncertainseries_ok : forall m F set us U v opened, heap_is m F -> In (set, ptrs us) F -> Forall2 unc us U -> incl (concat U) F -> has_var F v ->
  exists m', m_write_uncertainseries m (Some set) (len us) (Some v) opened = Ok m' /\ heap_is m' F.
Proof.
  intros m F set us U v opened H IS FU IU (b & id & c & IB & _ & EC). unfold m_write_uncertainseries. rewrite (num_ok m F v b V_card c H IB EC). cbn [bind].
  destruct (negb _); [eauto|]. al H.
  match goal with |- context [for_up 0 _ ?b m0] => assert (E1 : for_up 0 (len us) b m0 = Ok m0) end.
  { apply const_loop; [lia|]. intros i K. destruct (nth_pair _ _ _ i FU ltac:(lia)) as (u & g & EU & Q & IG & _).
    rewrite (ptr_ok m0 _ set _ i (Some u) H) by (first [exact EU|right; exact IS]). cbn [bind].
    destruct Q as (k & n & aa & d & ba & R & gc & -> & _). erewrite (ptr_ok m0 _ u _ U_variables (Some aa) H); [reflexivity|right; apply IU, IG; left; reflexivity|reflexivity]. }
  rewrite E1. cbn [bind]. clear E1. destruct (negb opened).
  - destruct (free_ok _ _ a _ H) as (m' & E & H' & _). eauto.
  - match goal with |- context [for_up 0 _ ?b m0] => destruct (for_up_inv memory (fun _ m => heap_is m ((a, repeat (N 0) (len us)) :: F)) b 0 (len us) m0) as (m' & E & H') end; [lia|exact H| |].
    + intros i mi K HM. cbv beta in HM. destruct (nth_pair _ _ _ i FU ltac:(lia)) as (u & g & EU & Q & IG & _).
      rewrite (ptr_ok mi _ set _ i (Some u) HM) by (first [exact EU|right; exact IS]). cbn [bind]. eapply read_results_ok; [exact Q| |exact HM].
      intros y Hy. right. apply IU, IG. exact Hy.
    + rewrite E. cbn [bind]. destruct (free_ok _ _ a _ H') as (m2 & E2 & H2 & _). eauto.
Qed.

Lemma read_rows_ok : forall m F y g, full y g -> incl g F -> heap_is m F -> read_rows_of m (Some y) = Ok m.
Proof.
  intros m F y g (n & hid & obs & d & gh & go & rs & gr & -> & _ & _ & L & A) I H. unfold read_rows_of.
  assert (IY : In (y, [N n; P hid; P obs; P (Some d)]) F) by (apply I; left; reflexivity).
  rewrite (num_ok m F y _ Y_length n H IY eq_refl). cbn [bind]. apply const_loop; [lia|]. intros t K.
  rewrite (ptr_ok m F y _ Y_data (Some d) H IY eq_refl). cbn [bind]. destruct (nth_error rs t) as [r|] eqn:ER; [|apply nth_error_None in ER; lia].
  rewrite (ptr_ok m F d (ptrs rs) t (Some r) H); [cbn [bind]| |unfold ptrs; rewrite nth_error_map, ER; reflexivity].
  2:{ apply I. right. apply in_or_app. right. apply in_or_app. right. left. reflexivity. }
  assert (IR : In r (map fst gr)) by (eapply Permutation_in; [apply Permutation_sym; exact A|]; eapply nth_error_In; exact ER).
  apply in_map_iff in IR. destruct IR as ((r' & br) & EE & IR). cbn in EE. subst r'. unfold use. rewrite (heap_in m F r br H); [reflexivity|].
  apply I. right. apply in_or_app. right. apply in_or_app. right. right. exact IR.
Qed.

Lemma write_timeseries_ok : forall m F set ys GS nvars opened, heap_is m F -> In (set, ptrs ys) F -> Forall2 full ys GS -> incl (concat GS) F ->
  exists m', m_write_timeseries m (Some set) (len ys) nvars opened = Ok m' /\ heap_is m' F.
Proof.
  intros m F set ys GS nvars opened H IS FY IY. unfold m_write_timeseries. destruct (Nat.eqb_spec (len ys) 0) as [|LY]; [exists m; auto|].
  destruct (Nat.eqb nvars 0); [exists m; auto|]. cbn [orb].
  destruct (nth_pair _ _ _ 0 FY ltac:(lia)) as (y0 & g0 & EY0 & Q0 & IG0 & _). rewrite (ptr_ok m _ set _ 0 (Some y0) H) by (first [exact EY0|exact IS]). cbn [bind].
  destruct Q0 as (n0 & hid0 & obs0 & d0 & gh0 & go0 & rs0 & gr0 & -> & _).
  erewrite (ptr_ok m _ y0 _ Y_observed obs0 H); [cbn [bind]|apply IY, IG0; left; reflexivity|reflexivity]. clear EY0 IG0 y0 n0 hid0 obs0 d0 gh0 go0 rs0 gr0. al H.
  match goal with |- context [for_up 1 _ ?b (m0, a)] =>
    destruct (for_up_inv (memory * nat) (fun _ st => heap_is (fst st) ((snd st, repeat (P None) nvars) :: F)) b 1 (len ys) (m0, a)) as ((m1 & o) & E1 & H1) end; [lia|exact H| |].
  { intros i (mi & o) K HM. cbn [fst snd] in HM. destruct (nth_pair _ _ _ i FY ltac:(lia)) as (y & g & EY & Q & IG & _).
    rewrite (ptr_ok mi _ set _ i (Some y) HM) by (first [exact EY|right; exact IS]). cbn [bind].
    destruct Q as (n & hid & obs & d & gh & go & rs & gr & -> & _).
    erewrite (ptr_ok mi _ y _ Y_observed obs HM); [cbn [bind]|right; apply IY, IG; left; reflexivity|reflexivity].
    al HM. front HM o. destruct (free_ok _ _ o _ HM) as (m3 & E3 & H3 & _). rewrite E3. cbn [bind]. eexists. split; [reflexivity|exact H3]. }
  rewrite E1. cbn [bind]. cbn [fst snd] in H1. clear E1. al H1. destruct (negb opened).
  - front H1 o. destruct (free_ok _ _ o _ H1) as (m3 & E3 & H3 & _). rewrite E3. cbn [bind]. destruct (free_ok _ _ a0 _ H3) as (m4 & E4 & H4 & _). eauto.
  - match type of H1 with heap_is _ ?G => set (FF := G) in * end.
    match goal with |- context [for_up 0 _ ?b m2] => destruct (for_up_inv memory (fun _ m => heap_is m FF) b 0 (len ys) m2) as (m3 & E3 & H3) end; [lia|exact H1| |].
    + intros i mi K HM. cbv beta in HM. destruct (nth_pair _ _ _ i FY ltac:(lia)) as (y & g & EY & Q & IG & _).
      rewrite (ptr_ok mi _ set _ i (Some y) HM) by (first [exact EY|right; right; exact IS]). cbn [bind]. al HM.
      erewrite (read_rows_ok _ _ y g Q); [cbn [bind]| |exact HM]. 2:{ intros z Hz. right. right. right. apply IY, IG. exact Hz. }
      destruct (free_ok _ _ a1 _ HM) as (m6 & E6 & H6 & _). eauto.
    + rewrite E3. cbn [bind]. unfold FF in H3. front H3 o. destruct (free_ok _ _ o _ H3) as (m4 & E4 & H4 & _). rewrite E4. cbn [bind].
      destruct (free_ok _ _ a0 _ H4) as (m5 & E5 & H5 & _). eauto.
Qed.

(** ** The model is written *)
Lemma write_model_ok : forall m x vs rest F tmp children families w opened, holds x vs rest F -> heap_is m (tmp ++ F) -> Forall (fun i => i < len vs) children ->
  exists m' F', m_write_model m (Some x) children families w opened = Ok m' /\ holds x vs rest F' /\ heap_is m' (tmp ++ F').
Proof.
  intros m x vs rest F tmp children families w opened HO H FC. unfold m_write_model. destruct (negb opened); [exists m, F; auto|].
  rewrite (mark_ok x vs rest F tmp m HO H). cbn [bind].
  match goal with |- context [for_up 0 _ ?b m] => destruct (for_up_inv memory (fun _ m => exists F, holds x vs rest F /\ heap_is m (tmp ++ F)) b 0 (len children) m) as (m' & E & F' & HO' & H') end; [lia|eauto| |eauto].
  clear F m HO H. intros i m K (F & HO & H). destruct (nth_error children i) as [c|] eqn:EC; [|apply nth_error_None in EC; lia].
  unfold rd. rewrite EC. cbn [bind]. assert (KC : c < len vs) by (rewrite Forall_forall in FC; apply FC; eapply nth_error_In; exact EC).
  rewrite (variable_at_ok x vs rest F tmp m HO H c KC). cbn [bind].
  destruct (holds_parents x vs rest c KC F HO) as (b & k & IB & EB). rewrite (num_ok m _ (nth c vs 0) b V_nparents k H) by (first [exact EB|apply in_or_app; right; exact IB]). cbn [bind].
  al H. destruct (new_potential_ok _ _ (families c) H) as (m1 & p & gp & E1 & PP & H1). rewrite E1. cbn [bind]. clear H E1. wk H1.
  destruct (holds_maps x vs rest c KC F m2 (gp ++ (a, repeat (N 0) (k + 1)) :: tmp) HO) as (m3 & F' & E3 & HO' & H3).
  { eapply heap_perm; [|exact H1]. rewrite <- app_assoc. apply Permutation_refl. }
  rewrite E3. cbn [bind]. erewrite (touch_ok m3 _ p H3) by (eapply alive_incl; [|exact (pot_alive _ _ _ PP)]; intros z Hz; apply in_or_app; left; apply in_or_app; left; exact Hz). cbn [bind].
  assert (H4 : heap_is m3 ((a, repeat (N 0) (k + 1)) :: gp ++ tmp ++ F')). { eapply heap_perm; [|exact H3]. perm. }
  destruct (free_ok _ _ a _ H4) as (m5 & E5 & H5 & _). rewrite E5. cbn [bind]. destruct (free_potential_ok _ _ _ _ _ PP H5) as (m6 & E6 & H6).
  exists m6. split; [exact E6|]. exists F'. auto.
Qed.
