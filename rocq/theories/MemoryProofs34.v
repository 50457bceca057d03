(** * Memory of learning and sampling (for C94) *)
From Coq Require Import Permutation.
From Verif Require Import Base BaseProofs HeapProofs MemoryModel MemorySpec MemoryProofs MemoryProofs2 MemoryProofs3 MemoryProofs4 MemoryProofs5 MemoryProofs10 MemoryModel5 MemoryProofs33.
Import ListNotations.
Open Scope nat_scope.
Local Open Scope res_scope.
Local Open Scope list_scope.

(** [I]: what is known of the memory that is not temporary. *)
Definition maps_ok (I : fp -> Prop) (v : nat) : Prop := forall F m tmp, I F -> heap_is m (tmp ++ F) ->
  exists m' F', find_family_mapping m (Some v) = Ok m' /\ I F' /\ heap_is m' (tmp ++ F').
Definition parents_ok (I : fp -> Prop) (v : nat) : Prop := forall F, I F -> exists b k, In (v, b) F /\ nth_error b V_nparents = Some (N k).

Lemma in_left : forall A (x : list A) l r, incl x l -> incl x (l ++ r).
Proof. intros A x l r I y K. apply in_or_app. left. apply I. exact K. Qed.
Lemma in_right : forall A (l r : list A), incl r (l ++ r).
Proof. intros A l r y K. apply in_or_app. right. exact K. Qed.
Lemma rd_some : forall (vars : list nat) i, i < length vars -> exists v, rd (map Some vars) i = Ok (Some v) /\ In v vars.
Proof.
  intros vars i K. destruct (nth_error vars i) as [v|] eqn:E; [|apply nth_error_None in E; lia]. exists v.
  unfold rd. rewrite nth_error_map, E. split; [reflexivity|eapply nth_error_In; exact E].
Qed.

Lemma counts_ok : forall (I : fp -> Prop) vars, Forall (maps_ok I) vars -> forall m F tmp a p gr gp skip w, I F -> heap_is m (tmp ++ F) ->
  parr a (length vars) gr -> incl gr tmp -> parr p (length vars) gp -> incl gp tmp ->
  exists m' F', e_step_counts m (map Some vars) (Some p) (Some a) skip w = Ok m' /\ I F' /\ heap_is m' (tmp ++ F').
Proof.
  intros I vars MV m F tmp a p gr gp skip w IF H PA IA PP IP. unfold e_step_counts. rewrite map_length.
  match goal with |- context [for_up 0 ?n ?b m] =>
    destruct (for_up_inv memory (fun _ m => exists F, I F /\ heap_is m (tmp ++ F)) b 0 n m) as (m' & E & F' & IF' & H') end; [lia|eauto| |eauto].
  intros i mi K (Fi & IFi & HM). destruct (parr_own mi _ a _ gr i PA (in_left _ _ _ _ IA) HM ltac:(lia)) as (x & EX & AX). rewrite EX. cbn [bind].
  destruct (rd_some vars i ltac:(lia)) as (v & EV & IV). rewrite EV. cbn [bind]. destruct (skip i); [eauto|]. wk HM.
  rewrite Forall_forall in MV. destruct (MV v IV Fi m0 tmp IFi HM) as (m1 & F1 & E1 & I1 & H1). rewrite E1. cbn [bind].
  rewrite (touch_ok m1 _ x H1 (alive_incl _ _ _ (in_left _ _ _ _ IA) AX)). cbn [bind].
  destruct (parr_own m1 _ p _ gp i PP (in_left _ _ _ _ IP) H1 ltac:(lia)) as (q & EQ & AQ). rewrite EQ. cbn [bind].
  rewrite (touch_ok m1 _ q H1 (alive_incl _ _ _ (in_left _ _ _ _ IP) AQ)). eauto.
Qed.

(** All that e_step allocates. *)
Lemma e_step_free_ok : forall m F r gr d bd o bo a ga nv n, parr r nv gr -> parr a (n + 1) ga -> heap_is m (gr ++ (d, bd) :: (o, bo) :: ga ++ F) ->
  exists m', e_step_free m (Some r) (Some d) (Some o) (Some a) nv n = Ok m' /\ heap_is m' F.
Proof.
  intros m F r gr d bd o bo a ga nv n PR PA H. unfold e_step_free.
  destruct (free_array_ok m _ r nv gr PR H) as (m1 & E1 & H1). rewrite E1. cbn [bind].
  destruct (free_ok _ _ d _ H1) as (m2 & E2 & H2 & _). rewrite E2. cbn [bind].
  destruct (free_ok _ _ o _ H2) as (m3 & E3 & H3 & _). rewrite E3. cbn [bind].
  exact (free_array_ok m3 F a (n + 1) ga PA H3).
Qed.

Lemma e_step_ok : forall (I : fp -> Prop) vars out y n, Forall (maps_ok I) vars -> (forall F, I F -> Forall (has_var F) out) -> (forall F, I F -> length_of F y n) ->
  forall m F tmp p gp nobs families bad skip w, I F -> heap_is m (tmp ++ F) -> parr p (length vars) gp -> incl gp tmp ->
  exists m' F' ok, e_step m (Some y) nobs (map Some vars) (map Some out) families (Some p) bad skip w = Ok (m', ok) /\ I F' /\ heap_is m' (tmp ++ F').
Proof.
  intros I vars out y n MV HO HY m F tmp p gp nobs families bad skip w IF H PP IP. unfold e_step. rewrite map_length.
  al H. al H. al H. cbv zeta. set (nv := length vars) in *.
  set (bo := repeat (P None) nobs) in *. set (bd := repeat (N 0) nobs) in *.
  match goal with |- context [for_up 0 nv ?b m2] =>
    destruct (for_up_inv memory (fun i m => exists g, parr_some a1 nv i g /\ heap_is m (g ++ (a0, bd) :: (a, bo) :: tmp ++ F)) b 0 nv m2) as (m3 & E3 & gr & Q3 & H3) end.
  { lia. } { exists [(a1, repeat (P None) nv)]. split; [apply parr_start|exact H]. }
  { intros i mi K (g & Q & HM).
    assert (IZ : incl gp (g ++ (a0, bd) :: (a, bo) :: tmp ++ F)).
    { intros z Z. apply in_or_app. right. right. right. apply in_or_app. left. apply IP. exact Z. }
    destruct (parr_get mi _ p _ gp i PP IZ HM ltac:(fold nv; lia)) as (x & EX & AX). rewrite EX. cbn [bind]. rewrite (touch_ok mi _ x HM AX).
    cbn [bind]. destruct (new_potential_ok mi _ (families i) HM) as (m4 & q & gq & E4 & P4 & H4). rewrite E4. cbn [bind].
    destruct (parr_step m4 _ a1 nv i g q _ gq Q ltac:(lia) P4 H4) as (m5 & g5 & E5 & Q5 & H5). eauto. }
  rewrite E3. cbn [bind]. apply parr_end in Q3. clear H E3. rename H3 into H.
  destruct (HY F IF) as (by_ & IY & EY).
  rewrite (num_ok m3 _ y by_ Y_length n H) by (first [exact EY|apply in_or_app; right; right; right; apply in_or_app; right; exact IY]). cbn [bind].
  al H. 
  destruct (cardinalities_ok m4 _ out H) as (outc & EO & _).
  { eapply has_vars_incl; [|exact (HO F IF)]. intros z Z. right. apply in_or_app. right. right. right. apply in_or_app. right. exact Z. }
  rewrite EO. cbn [bind]. destruct (interface_ok m4 _ outc H) as (m5 & card & gi & E5 & A5 & H5). rewrite E5.
  match type of H5 with heap_is ?M ?X => eapply (heap_perm M X ((a2, _) :: gi ++ gr ++ (a0, bd) :: (a, bo) :: tmp ++ F)) in H5; [|perm] end.
  destruct (fill_ok m5 _ a2 (n + 1) (fun _ => outc) H5) as (m6 & ga & E6 & P6 & H6). rewrite E6. cbn [bind].
  destruct (free_interface m6 ((ga ++ gr ++ (a0, bd) :: (a, bo) :: tmp) ++ F) card gi A5) as (m7 & E7 & H7). { eapply heap_perm; [|exact H6]. cbn [app]. perm. } rewrite E7. cbn [bind].
  set (G := ga ++ gr ++ (a0, bd) :: (a, bo) :: tmp) in *.
  assert (IG : incl ga G) by (intros z Z; apply in_or_app; left; exact Z).
  assert (IR : incl gr G) by (intros z Z; apply in_or_app; right; apply in_or_app; left; exact Z).
  assert (IQ : incl gp G) by (intros z Z; apply in_or_app; right; apply in_or_app; right; right; right; apply IP; exact Z).
  assert (FIN : forall mt F t d, heap_is mt (G ++ F) -> t <= n -> match d with None => True | Some q => alive (G ++ F) q end ->
     exists m', (let* p := ptr mt (Some a2) t in finish_pass mt outc p d) = Ok m' /\ heap_is m' (G ++ F)).
  { intros mt F0 t d HM K D. destruct (parr_get mt _ a2 (n + 1) ga t P6 (in_left _ _ _ F0 IG) HM ltac:(lia)) as (q & EP & AP). rewrite EP. cbn [bind]. apply finish_pass_ok; assumption. }
  assert (STA : forall mt F t, heap_is mt (G ++ F) -> t <= n -> exists m', (let* p := ptr mt (Some a2) t in start_pass mt outc p) = Ok m' /\ heap_is m' (G ++ F)).
  { intros mt F0 t HM K. destruct (parr_get mt _ a2 (n + 1) ga t P6 (in_left _ _ _ F0 IG) HM ltac:(lia)) as (q & EP & AP). rewrite EP. cbn [bind]. apply start_pass_ok; assumption. }
  match goal with |- context [for_up 0 n ?b (m7, true)] =>
    destruct (for_up_inv (memory * bool) (fun _ st => heap_is (fst st) (G ++ F)) b 0 n (m7, true)) as ((m8 & ok) & E8 & H8) end; [lia|exact H7| |].
  { intros t [mt ok] K HM. cbn [fst] in HM. destruct ok; cbn [negb]; [|exists (mt, false); auto].
    match goal with |- context [bind ?X _] => assert (S1 : exists m', X = Ok m' /\ heap_is m' (G ++ F)) end.
    { destruct (Nat.ltb 0 t); [|eauto]. apply FIN; [exact HM|lia|exact Logic.I]. }
    destruct S1 as (m9 & E9 & H9). rewrite E9. cbn [bind]. wk H9. destruct (bad t); [eexists; split; [reflexivity|exact H9]|].
    destruct (parr_get m8 _ a2 (n + 1) ga t P6 (in_left _ _ _ F IG) H9 ltac:(lia)) as (q & EP & AP). rewrite EP. cbn [bind].
    destruct (start_pass_ok m8 _ outc q H9 AP) as (m10 & E10 & H10). rewrite E10. cbn [bind]. wk H10. eexists. split; [reflexivity|exact H10]. }
  rewrite E8. cbn [bind]. cbn [fst] in H8.
  assert (FREE : forall mt F, heap_is mt (G ++ F) -> exists m', e_step_free mt (Some a1) (Some a0) (Some a) (Some a2) nv n = Ok m' /\ heap_is m' (tmp ++ F)).
  { intros mt F0 HM. apply (e_step_free_ok mt _ a1 gr a0 bd a bo a2 ga nv n Q3 P6). eapply heap_perm; [|exact HM]. unfold G. cbn [app]. perm. }
  destruct ok; cbn [negb].
  2:{ destruct (FREE m8 F H8) as (m9 & E9 & H9). rewrite E9. cbn [bind]. exists m9, F, false. auto. }
  match goal with |- context [for_down n 0 ?b m8] =>
    destruct (for_down_inv memory (fun _ m => exists F, I F /\ heap_is m (G ++ F)) b n 0 m8) as (m9 & E9 & F9 & I9 & H9) end; [lia|eauto| |].
  { intros t mt K (Ft & IFt & HM).
    match goal with |- context [bind ?X _] => assert (S1 : exists m', X = Ok m' /\ heap_is m' (G ++ Ft)) end.
    { destruct (Nat.ltb 0 t); [|eauto]. apply FIN; [exact HM|lia|exact Logic.I]. }
    destruct S1 as (m9 & E9 & H9). rewrite E9. cbn [bind]. wk H9.
    match goal with |- context [bind ?X _] => assert (S2 : exists m', X = Ok m' /\ heap_is m' (G ++ Ft)) end.
    { destruct (Nat.ltb t (n - 1)); [|eauto].
      match type of H9 with heap_is ?M _ => 
        destruct (parr_get M _ a2 (n + 1) ga (t + 1) P6 (in_left _ _ _ Ft IG) H9 ltac:(lia)) as (q & EP & AP); rewrite EP; cbn [bind];
        destruct (parr_get M _ a2 (n + 1) ga t P6 (in_left _ _ _ Ft IG) H9 ltac:(lia)) as (q2 & EQ & AQ); rewrite EQ; cbn [bind] end. apply finish_pass_ok; assumption. }
    destruct S2 as (m11 & E11 & H11). rewrite E11. cbn [bind]. wk H11.
    match type of H11 with heap_is ?M _ => 
      destruct (counts_ok I vars MV M Ft G a1 p gr gp (skip t) (fun i => w t (5 + i)) IFt H11 Q3 IR PP IQ) as (mc & F12 & E12 & I12 & H12) end.
    rewrite E12. cbn [bind].
    match goal with |- context [bind ?X _] => assert (S3 : exists m', X = Ok m' /\ heap_is m' (G ++ F12)) end.
    { destruct (Nat.ltb 0 t); [|eauto]. apply STA; [exact H12|lia]. }
    destruct S3 as (md & E13 & H13). rewrite E13. cbn [bind]. destruct (work_ok (w t 4) md _ H13) as (me & E14 & H14). eauto. }
  rewrite E9. cbn [bind]. destruct (FREE m9 F9 H9) as (m10 & E10 & H10). rewrite E10. cbn [bind]. exists m10, F9, true. auto.
Qed.

Lemma m_step_ok : forall (I : fp -> Prop) vars, Forall (maps_ok I) vars -> Forall (parents_ok I) vars ->
  forall m F tmp p gp fails w, I F -> heap_is m (tmp ++ F) -> parr p (length vars) gp -> incl gp tmp ->
  exists m' F' ok, m_step m (map Some vars) (Some p) fails w = Ok (m', ok) /\ I F' /\ heap_is m' (tmp ++ F').
Proof.
  intros I vars MV PV m F tmp p gp fails w IF H PP IP. unfold m_step. rewrite map_length.
  assert (TCH : forall mi F i, heap_is mi (tmp ++ F) -> i < length vars -> exists q, ptr mi (Some p) i = Ok (Some q) /\ touch mi (Some q) = Ok mi).
  { intros mi F0 i HM K. destruct (parr_get mi _ p _ gp i PP (in_left _ _ _ F0 IP) HM K) as (q & EQ & AQ). exists q. split; [exact EQ|]. exact (touch_ok mi _ q HM AQ). }
  match goal with |- context [for_up 0 ?n ?b m] =>
    destruct (for_up_inv memory (fun _ m => heap_is m (tmp ++ F)) b 0 n m) as (m1 & E1 & H1) end; [lia|exact H| |].
  { intros i mi K HM. destruct (TCH mi F i HM ltac:(lia)) as (q & EQ & TQ). rewrite EQ. cbn [bind]. eauto. }
  rewrite E1. cbn [bind].
  match goal with |- context [for_up 0 ?n ?b (m1, true)] =>
    destruct (for_up_inv (memory * bool) (fun _ st => exists F, I F /\ heap_is (fst st) (tmp ++ F)) b 0 n (m1, true)) as ((m2 & ok) & E2 & F2 & I2 & H2) end; [lia|eauto| |eauto 6].
  intros i [mi ok] K (Fi & IFi & HM). cbn [fst] in HM. destruct ok; cbn [negb]; [|exists (mi, false); eauto].
  destruct (rd_some vars i ltac:(lia)) as (v & EV & IV). rewrite EV. cbn [bind].
  rewrite Forall_forall in MV, PV. destruct (PV v IV Fi IFi) as (b & k & IB & EB).
  rewrite (num_ok mi _ v b V_nparents k HM) by (first [exact EB|apply in_or_app; right; exact IB]). cbn [bind].
  destruct (Nat.ltb 0 k).
  - wk HM. destruct (MV v IV Fi m0 tmp IFi HM) as (m3 & F3 & E3 & I3 & H3). rewrite E3. cbn [bind].
    destruct (TCH m3 F3 i H3 ltac:(lia)) as (q & EQ & TQ). rewrite EQ. cbn [bind]. rewrite TQ. cbn [bind]. eexists. split; [reflexivity|]. eauto.
  - destruct (TCH mi Fi i HM ltac:(lia)) as (q & EQ & TQ). rewrite EQ. cbn [bind]. rewrite TQ. cbn [bind]. eexists. split; [reflexivity|]. eauto.
Qed.

Definition series_ok (I : fp -> Prop) (y : nat) : Prop := exists n, forall F, I F -> length_of F y n.

Lemma e_steps_ok : forall (I : fp -> Prop) vars out it, Forall (maps_ok I) vars -> (forall F, I F -> Forall (has_var F) out) ->
  forall ts k m F tmp p gp families, Forall (fun y => series_ok I (fst y)) ts -> I F -> heap_is m (tmp ++ F) -> parr p (length vars) gp -> incl gp tmp ->
  exists m' F' ok, e_steps m (map (fun y => (Some (fst y), snd y)) ts) k (map Some vars) (map Some out) families (Some p) it = Ok (m', ok) /\ I F' /\ heap_is m' (tmp ++ F').
Proof.
  intros I vars out it MV HO. induction ts as [|[y nobs] ts IH]; intros k m F tmp p gp families ST IF H PP IP; cbn [map e_steps].
  - exists m, F, true. auto.
  - inversion ST as [|? ? (n & HY) ST']; subst. cbn [fst snd].
    destruct (e_step_ok I vars out y n MV HO HY m F tmp p gp nobs families (it_bad it k) (it_skip it) (it_work it (S k)) IF H PP IP) as (m1 & F1 & ok & E1 & I1 & H1).
    rewrite E1. cbn [bind]. destruct ok; [|eauto 6]. eapply IH; eassumption.
Qed.

Lemma em_loop_ok : forall (I : fp -> Prop) vars out, Forall (maps_ok I) vars -> Forall (parents_ok I) vars -> (forall F, I F -> Forall (has_var F) out) ->
  forall its ts m F tmp p gp families, Forall (fun y => series_ok I (fst y)) ts -> I F -> heap_is m ((gp ++ tmp) ++ F) -> parr p (length vars) gp ->
  exists m' F' e, em_loop m (map (fun y => (Some (fst y), snd y)) ts) (map Some vars) (map Some out) families (Some p) its = Ok (m', e) /\ I F' /\ heap_is m' (tmp ++ F').
Proof.
  intros I vars out MV PV HO. induction its as [|it its IH]; intros ts m F tmp p gp families ST IF H PP; cbn [em_loop]; rewrite map_length.
  - rewrite <- app_assoc in H. destruct (free_array_ok m _ p _ gp PP H) as (m1 & E1 & H1). rewrite E1. cbn [bind]. eauto 6.
  - assert (IP : incl gp (gp ++ tmp)) by (intros z Z; apply in_or_app; left; exact Z).
    assert (FR : forall mi F (e : ending), heap_is mi ((gp ++ tmp) ++ F) -> I F ->
      exists m' F' (e' : ending), (let* m := free_array mi (Some p) (length vars) in Ok (m, e)) = Ok (m', e') /\ I F' /\ heap_is m' (tmp ++ F')).
    { intros mi F0 e HM I0. rewrite <- app_assoc in HM. destruct (free_array_ok mi _ p _ gp PP HM) as (m1 & E1 & H1). rewrite E1. cbn [bind]. eauto 6. }
    destruct (m_step_ok I vars MV PV m F _ p gp (it_fails it) (it_work it 0 0) IF H PP IP) as (m1 & F1 & ok & E1 & I1 & H1). rewrite E1. cbn [bind].
    destruct ok; cbn [negb]; [|apply (FR m1 F1); assumption].
    match goal with |- context [for_up 0 ?n ?b m1] =>
      destruct (for_up_inv memory (fun _ m => heap_is m ((gp ++ tmp) ++ F1)) b 0 n m1) as (m2 & E2 & H2) end; [lia|exact H1| |].
    { intros i mi K HM. destruct (parr_get mi _ p _ gp i PP (in_left _ _ _ F1 IP) HM ltac:(lia)) as (q & EQ & AQ). rewrite EQ. cbn [bind].
      rewrite (touch_ok mi _ q HM AQ). eauto. }
    rewrite E2. cbn [bind].
    destruct (e_steps_ok I vars out it MV HO ts 0 m2 F1 _ p gp families ST I1 H2 PP IP) as (m3 & F3 & ok & E3 & I3 & H3). rewrite E3. cbn [bind].
    destruct ok; cbn [negb]; [|apply (FR m3 F3); assumption].
    destruct (it_curve it); [apply (FR m3 F3); assumption|]. destruct (it_invalid it); [apply (FR m3 F3); assumption|].
    eapply IH; eassumption.
Qed.

Lemma em_learn_ok : forall (I : fp -> Prop) vars out, Forall (maps_ok I) vars -> Forall (parents_ok I) vars -> (forall F, I F -> Forall (has_var F) out) ->
  forall its ts m F tmp families random w, Forall (fun y => series_ok I (fst y)) ts -> I F -> heap_is m (tmp ++ F) ->
  exists m' F' e, em_learn m (map (fun y => (Some (fst y), snd y)) ts) (map Some vars) (map Some out) families random w its = Ok (m', e) /\ I F' /\ heap_is m' (tmp ++ F').
Proof.
  intros I vars out MV PV HO its ts m F tmp families random w ST IF H. unfold em_learn. rewrite map_length. al H. cbv zeta. set (nv := length vars) in *.
  match goal with |- context [for_up 0 nv ?b m0] =>
    destruct (for_up_inv memory (fun i m => exists g, parr_some a nv i g /\ heap_is m (g ++ tmp ++ F)) b 0 nv m0) as (m1 & E1 & g & Q & H1) end.
  { lia. } { exists [(a, repeat (P None) nv)]. split; [apply parr_start|exact H]. }
  { intros i mi K (g & Q & HM). destruct (rd_some vars i ltac:(fold nv; lia)) as (v & EV & IV). rewrite EV. cbn [bind].
    rewrite Forall_forall in PV. destruct (PV v IV F IF) as (b & k & IB & EB).
    rewrite (num_ok mi _ v b V_nparents k HM) by (first [exact EB|apply in_or_app; right; apply in_or_app; right; exact IB]). cbn [bind].
    al HM. set (bc := repeat (N 0) (k + 1)) in *.
    destruct (new_potential_ok m1 _ (families i) HM) as (m4 & q & gq & E4 & P4 & H4). rewrite E4. cbn [bind].
    destruct (parr_step m4 ((a0, bc) :: tmp ++ F) a nv i g q _ gq Q ltac:(lia) P4) as (m5 & g5 & E5 & Q5 & H5). { eapply heap_perm; [|exact H4]. perm. }
    rewrite E5. cbn [bind]. front H5 a0. destruct (free_ok _ _ a0 _ H5) as (m6 & E6 & H6 & _). exists m6. split; [exact E6|]. eauto. }
  rewrite E1. cbn [bind]. apply parr_end in Q.
  match goal with |- context [for_up 0 nv ?b m1] =>
    destruct (for_up_inv memory (fun _ m => exists F, I F /\ heap_is m ((g ++ tmp) ++ F)) b 0 nv m1) as (m2 & E2 & F2 & I2 & H2) end.
  { lia. } { exists F. split; [exact IF|]. rewrite <- app_assoc. exact H1. }
  { intros i mi K (Fi & IFi & HM). destruct (rd_some vars i ltac:(fold nv; lia)) as (v & EV & IV). rewrite EV. cbn [bind].
    match goal with |- context [bind ?X _] => assert (S1 : exists m' F', X = Ok m' /\ I F' /\ heap_is m' ((g ++ tmp) ++ F')) end.
    { destruct random; [eauto|]. wk HM. rewrite Forall_forall in MV. exact (MV v IV Fi _ _ IFi HM). }
    destruct S1 as (m3 & F3 & E3 & I3 & H3). rewrite E3. cbn [bind].
    destruct (parr_get m3 _ a _ g i Q (in_left _ _ _ F3 (in_left _ g g tmp (fun z Z => Z))) H3 ltac:(lia)) as (q & EQ & AQ). rewrite EQ. cbn [bind].
    rewrite (touch_ok m3 _ q H3 AQ). eauto. }
  rewrite E2. cbn [bind]. eapply em_loop_ok; eassumption.
Qed.

(** ** Sampling *)
Definition zero_rows (width : nat) (rs : list nat) : fp := map (fun r => (r, repeat (N 0) width)) rs.
Lemma zero_rows_of : forall m f d n width, heap_is m ((d, repeat (P None) n) :: f) ->
  exists m' rs, rows m (Some d) n width = Ok m' /\ length rs = n /\ heap_is m' ((d, ptrs rs) :: zero_rows width rs ++ f).
Proof.
  intros m f d n width H. unfold rows.
  destruct (for_up_inv memory (fun t m => exists rs, length rs = t /\
      heap_is m ((d, ptrs rs ++ repeat (P None) (n - t)) :: zero_rows width rs ++ f))
    (fun t m => let '(m, r) := calloc m (N 0) width in store m (Some d) t (P (Some r))) 0 n m) as (m' & E & rs & L & HH).
  - lia.
  - exists []. split; [reflexivity|]. rewrite Nat.sub_0_r. exact H.
  - intros t mt Ht (rs & L & HM). al HM. replace (n - t) with (S (n - S t)) in HM by lia.
    front HM d. destruct (store_ok _ _ d _ t (P (Some a)) HM (ptrs_length _ _ _ L)) as (m' & E & H' & _). exists m'. split; [exact E|].
    rewrite ptrs_set in H' by exact L. exists (rs ++ [a]). split; [rewrite app_length; cbn; lia|].
    unfold zero_rows in *. rewrite map_app. cbn [map]. eapply heap_perm; [|exact H']. cbn [app]. perm.
  - exists m', rs. rewrite Nat.sub_diag in HH. cbn [repeat] in HH. rewrite app_nil_r in HH. auto.
Qed.

Lemma get_probability_ok : forall m F v w, heap_is m F -> has_var F v ->
  exists m' a b, get_probability m (Some v) w = Ok (m', Some a) /\ heap_is m' ((a, b) :: F).
Proof.
  intros m F v w H (b & id & card & IB & _ & EC). unfold get_probability. rewrite (num_ok m F v b V_card card H IB EC). cbn [bind].
  al H. wk H. eauto.
Qed.

(** A series with its rows. *)
Definition full (y : nat) (g : fp) : Prop :=
  exists n hid obs d gh go rs gr, g = (y, [N n; P hid; P obs; P (Some d)]) :: gh ++ go ++ (d, ptrs rs) :: gr /\
    addresses gh (opt hid) /\ addresses go (opt obs) /\ length rs = n /\ addresses gr rs.
Lemma full_ser : forall y g, full y g -> ser y g.
Proof. intros y g (n & hid & obs & d & gh & go & rs & gr & E & A & B & L & C). exists n, hid, obs, (Some d), gh, go, ((d, ptrs rs) :: gr). split; [exact E|]. split; [exact A|]. split; [exact B|]. exists rs, gr. auto. Qed.

Lemma generate_data_full : forall m F vars out n w, heap_is m F -> Forall (has_var F) vars -> Forall (has_var F) out ->
  exists m' y g, generate_data m (map Some vars) (map Some out) n w = Ok (m', Some y) /\ full y g /\ heap_is m' (g ++ F).
Proof.
  intros m F vars out n w H HV HO. unfold generate_data. rewrite map_length. al H. al H. cbv zeta. st H. st H. st H. st H. al H. st H. gp H.
  front H a1. destruct (zero_rows_of _ _ a1 n (length vars) H) as (mr & rs & E & L & HR). rewrite E. cbn [bind]. clear H E. rename HR into H.
  set (bv := map P (map Some vars)) in *. set (Z := zero_rows (length vars) rs) in *.
  destruct (cardinalities_ok mr _ out H) as (outc & EO & _).
  { eapply has_vars_incl; [|exact HO]. intros z Y. right. apply in_or_app. right. right. right. exact Y. }
  rewrite EO. cbn [bind]. destruct (interface_ok mr _ outc H) as (mi & card & gi & EI & AI & HI). rewrite EI.
  destruct (new_potential_ok mi _ outc HI) as (mp & q & gq & EP & PQ & HP). rewrite EP. cbn [bind].
  set (G := gq ++ (a1, ptrs rs) :: Z ++ (a0, [N n; P None; P (Some a); P (Some a1)]) :: (a, bv) :: F).
  destruct (free_interface mp G card gi AI) as (mf & EF & HF). { eapply heap_perm; [|exact HP]. unfold G. perm. } rewrite EF. cbn [bind]. 
  assert (AQ : alive G q). { eapply alive_incl; [|eapply pot_alive; exact PQ]. intros z Y. apply in_or_app. left. exact Y. }
  assert (VG : Forall (has_var G) vars).
  { eapply has_vars_incl; [|exact HV]. intros z Y. apply in_or_app. right. right. apply in_or_app. right. right. right. exact Y. }
  wk HF.
  match goal with |- context [for_up 0 n ?b ?mm] =>
    destruct (for_up_inv memory (fun _ m => heap_is m G) b 0 n mm) as (me & EE & HE) end; [lia|exact HF| |].
  { intros t mt K HM.
    match goal with |- context [bind ?X _] => assert (S1 : exists m', X = Ok m' /\ heap_is m' G) end.
    { destruct (Nat.ltb 0 t); [|eauto]. apply finish_pass_ok; [exact HM|exact AQ|exact Logic.I]. }
    destruct S1 as (mu & EU & HU). rewrite EU. cbn [bind]. clear HM.
    match goal with |- context [for_up 0 (length vars) ?b mu] =>
      destruct (for_up_inv memory (fun _ m => heap_is m G) b 0 (length vars) mu) as (mv & EV & HV2) end; [lia|exact HU| |].
    { intros i mj KI HM. destruct (rd_some vars i ltac:(lia)) as (v & EV & IV). rewrite EV. cbn [bind].
      rewrite Forall_forall in VG. destruct (get_probability_ok mj G v (w t (2 + i)) HM (VG v IV)) as (mk & x & bx & EX & HX). rewrite EX. cbn [bind].
      destruct (free_ok _ _ x _ HX) as (ml & EL & HL & _). rewrite EL. cbn [bind].
      destruct (nth_error rs t) as [r|] eqn:ER; [|apply nth_error_None in ER; lia].
      rewrite (ptr_ok ml G a1 (ptrs rs) t (Some r) HL); [|apply in_or_app; right; left; reflexivity|unfold ptrs; rewrite nth_error_map, ER; reflexivity]. cbn [bind].
      rewrite (fetch_ok ml G r (repeat (N 0) (length vars)) i (N 0) HL).
      - cbn [bind]. apply work_ok. exact HL.
      - apply in_or_app. right. right. apply in_or_app. left. unfold Z, zero_rows. apply in_map_iff. exists r. split; [reflexivity|eapply nth_error_In; exact ER].
      - apply nth_error_repeat. lia. }
    rewrite EV. cbn [bind]. wk HV2. destruct (start_pass_ok _ G outc q HV2 AQ) as (mx & EX & HX). rewrite EX. cbn [bind]. apply work_ok. exact HX. }
  rewrite EE. cbn [bind]. unfold G in HE. destruct (free_potential_ok me _ q _ gq PQ HE) as (mz & EZ & HZ). rewrite EZ. cbn [bind].
  eexists mz, a0, ((a0, _) :: [] ++ [(a, bv)] ++ (a1, ptrs rs) :: Z). split; [reflexivity|]. split.
  2:{ eapply heap_perm; [|exact HZ]. cbn [app]. perm. }
  exists n, None, (Some a), a1, [], [(a, bv)], rs, Z. split; [reflexivity|]. split; [apply Permutation_refl|]. split; [apply Permutation_refl|].
  split; [exact L|]. unfold addresses, Z, zero_rows. rewrite map_map. cbn [fst]. rewrite map_id. apply Permutation_refl.
Qed.
Lemma generate_data_ok : forall m F vars out n w, heap_is m F -> Forall (has_var F) vars -> Forall (has_var F) out ->
  exists m' y g, generate_data m (map Some vars) (map Some out) n w = Ok (m', Some y) /\ ser y g /\ heap_is m' (g ++ F).
Proof. intros m F vars out n w H HV HO. destruct (generate_data_full m F vars out n w H HV HO) as (m' & y & g & E & Q & H'). exists m', y, g. split; [exact E|]. split; [apply full_ser; exact Q|exact H']. Qed.
