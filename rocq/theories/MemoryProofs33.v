(** * Memory of inference (for C94) *)
From Coq Require Import Permutation.
From Verif Require Import Base BaseProofs HeapProofs MemoryModel MemorySpec MemoryProofs MemoryProofs2 MemoryProofs3 MemoryProofs4 MemoryProofs5 MemoryProofs10 MemoryModel5.
Import ListNotations.
Open Scope nat_scope.
Local Open Scope res_scope.
Local Open Scope list_scope.

(** ** Arrays that live for a while *)
Lemma scratch_ok : forall m F n, heap_is m F -> exists m', scratch m n = Ok m' /\ heap_is m' F.
Proof. intros m F n H. unfold scratch. al H. destruct (free_ok _ _ a _ H) as (m' & E & H' & _). eauto. Qed.
Lemma work_ok : forall l m F, heap_is m F -> exists m', work m l = Ok m' /\ heap_is m' F.
Proof.
  induction l as [|n l IH]; intros m F H; cbn [work]; [eauto|].
  destruct (scratch_ok m F n H) as (m1 & E1 & H1). rewrite E1. cbn [bind]. apply IH. exact H1.
Qed.
Ltac wk H :=
  match goal with |- context [work ?m ?l] =>
    let m' := fresh "m" in let E := fresh "E" in let H' := fresh "H" in
    destruct (work_ok l m _ H) as (m' & E & H'); rewrite E; cbn [bind]; clear E H; rename H' into H end.

(** ** Potentials that exist *)
Definition alive (F : fp) (p : nat) : Prop := exists b x, In (p, b) F /\ nth_error b T_data = Some (P x).
Lemma alive_incl : forall F G p, incl F G -> alive F p -> alive G p.
Proof. intros F G p I (b & x & K & E). exists b, x. auto. Qed.
Lemma pot_alive : forall p d g, pot p d g -> alive g p.
Proof. intros p d g (c & t & n & x & l & bc & bt & bx & ->). exists [N d; P (Some c); P (Some t); N n; P (Some x); P (Some l)], (Some x). split; [left; reflexivity|reflexivity]. Qed.
Lemma touch_ok : forall m F p, heap_is m F -> alive F p -> touch m (Some p) = Ok m.
Proof. intros m F p H (b & x & K & E). unfold touch. rewrite (ptr_ok m F p b T_data x H K E). reflexivity. Qed.

Lemma start_pass_ok : forall m F out p, heap_is m F -> alive F p -> exists m', start_pass m out (Some p) = Ok m' /\ heap_is m' F.
Proof.
  intros m F out p H A. unfold start_pass. destruct out as [|c out]; [exists m; split; [eapply touch_ok; eassumption|exact H]|].
  set (n := length (c :: out)). al H. rewrite (touch_ok _ _ p H) by (eapply alive_incl; [|exact A]; intros x K; right; exact K). cbn [bind].
  destruct (free_ok _ _ a _ H) as (m' & E & H' & _). rewrite E. cbn [bind]. exists m'. split; [eapply touch_ok; eassumption|exact H'].
Qed.
Lemma finish_pass_ok : forall m F out p q, heap_is m F -> alive F p -> match q with Some q => alive F q | None => True end ->
  exists m', finish_pass m out (Some p) q = Ok m' /\ heap_is m' F.
Proof.
  intros m F out p q H A B. unfold finish_pass. destruct out as [|c out]; [eauto|].
  set (n := length (c :: out)). al H. rewrite (touch_ok _ _ p H) by (eapply alive_incl; [|exact A]; intros x K; right; exact K). cbn [bind].
  assert (X : match q with Some _ => touch m0 q | None => Ok m0 end = Ok m0).
  { destruct q as [q|]; [|reflexivity]. eapply touch_ok; [exact H|]. eapply alive_incl; [|exact B]. intros x K. right. exact K. }
  rewrite X. cbn [bind]. destruct (free_ok _ _ a _ H) as (m' & E & H' & _). eauto.
Qed.

(** The array of cardinalities. *)
Lemma interface_ok : forall m F out, heap_is m F -> exists m' o g, interface_array m out = (m', o) /\ addresses g (opt o) /\ heap_is m' (g ++ F).
Proof.
  intros m F out H. unfold interface_array. destruct out as [|c out]; [exists m, None, []; split; [reflexivity|split; [apply Permutation_refl|exact H]]|].
  set (n := length (c :: out)). al H. eexists _, (Some a), [(a, _)]. split; [reflexivity|]. split; [apply Permutation_refl|exact H].
Qed.
Lemma free_interface : forall m F o g, addresses g (opt o) -> heap_is m (g ++ F) -> exists m', free m o = Ok m' /\ heap_is m' F.
Proof.
  intros m F o g A H. rewrite <- (app_nil_r (opt o)) in A. eapply heap_perm in H; [|apply Permutation_app_comm].
  destruct (free_opt m F g o [] A H) as (m' & g' & E & A' & H'). rewrite (addresses_nil _ A'), app_nil_r in H'. eauto.
Qed.

(** ** Arrays of potentials *)
Definition parr (a n : nat) (g : fp) : Prop :=
  exists ps gl, g = (a, ptrs ps) :: concat gl /\ Forall2 (fun p g => exists d, pot p d g) ps gl /\ length ps = n.

Lemma concat_in : forall (gl : list fp) g, In g gl -> incl g (concat gl).
Proof. intros gl g I x K. apply in_concat. eauto. Qed.
Lemma Forall2_in : forall A B (R : A -> B -> Prop) l k i x, Forall2 R l k -> nth_error l i = Some x -> exists y, In y k /\ R x y.
Proof.
  intros A B R l k i x F. revert i. induction F as [|a b l k Q F IH]; intros [|i] E; try discriminate; cbn in E.
  - injection E as ->. exists b. split; [left; reflexivity|exact Q].
  - destruct (IH i E) as (y & I & K). exists y. split; [right; exact I|exact K].
Qed.
Lemma parr_own : forall m F a n g i, parr a n g -> incl g F -> heap_is m F -> i < n -> exists p, ptr m (Some a) i = Ok (Some p) /\ alive g p.
Proof.
  intros m F a n g i (ps & gl & -> & Q & L) I H K. destruct (nth_error ps i) as [p|] eqn:EP; [|apply nth_error_None in EP; lia].
  exists p. split.
  - eapply ptr_ok; [exact H|apply I; left; reflexivity|]. unfold ptrs. rewrite nth_error_map, EP. reflexivity.
  - destruct (Forall2_in _ _ _ _ _ _ _ Q EP) as (y & IY & d & PY). eapply alive_incl; [|eapply pot_alive; exact PY].
    intros x X. right. eapply concat_in; eassumption.
Qed.
Lemma parr_get : forall m F a n g i, parr a n g -> incl g F -> heap_is m F -> i < n -> exists p, ptr m (Some a) i = Ok (Some p) /\ alive F p.
Proof.
  intros m F a n g i P I H K. destruct (parr_own m F a n g i P I H K) as (p & E & A). exists p. split; [exact E|eapply alive_incl; eassumption].
Qed.

(** The invariant while such an array is being filled. *)
Definition parr_some (a n i : nat) (g : fp) : Prop :=
  exists ps gl, g = (a, ptrs ps ++ repeat (P None) (n - i)) :: concat gl /\ Forall2 (fun p g => exists d, pot p d g) ps gl /\ length ps = i.
Lemma parr_start : forall a n, parr_some a n 0 [(a, repeat (P None) n)].
Proof. intros a n. exists [], []. rewrite Nat.sub_0_r. split; [reflexivity|]. split; [constructor|reflexivity]. Qed.
Lemma parr_end : forall a n g, parr_some a n n g -> parr a n g.
Proof. intros a n g (ps & gl & -> & Q & L). exists ps, gl. rewrite Nat.sub_diag. cbn [repeat]. rewrite app_nil_r. auto. Qed.
Lemma parr_step : forall m F a n i g p d gp, parr_some a n i g -> i < n -> pot p d gp -> heap_is m (gp ++ g ++ F) ->
  exists m' g', store m (Some a) i (P (Some p)) = Ok m' /\ parr_some a n (S i) g' /\ heap_is m' (g' ++ F).
Proof.
  intros m F a n i g p d gp (ps & gl & -> & Q & L) K PP H. replace (n - i) with (S (n - S i)) in H by lia. cbn [app] in H. front H a.
  destruct (store_ok _ _ a _ i (P (Some p)) H (ptrs_length _ _ _ L)) as (m' & E & H' & _). rewrite ptrs_set in H' by exact L.
  exists m', ((a, ptrs (ps ++ [p]) ++ repeat (P None) (n - S i)) :: concat (gl ++ [gp])). split; [exact E|]. split.
  - exists (ps ++ [p]), (gl ++ [gp]). split; [reflexivity|]. split; [apply Forall2_app; [exact Q|constructor; [eauto|constructor]]|rewrite app_length; cbn; lia].
  - cbn [app]. rewrite concat_app. cbn [concat]. rewrite app_nil_r. eapply heap_perm; [|exact H']. perm.
Qed.

Lemma fill_ok : forall m F a n cards, heap_is m ((a, repeat (P None) n) :: F) ->
  exists m' g, fill m (Some a) n cards = Ok m' /\ parr a n g /\ heap_is m' (g ++ F).
Proof.
  intros m F a n cards H. unfold fill.
  match goal with |- context [for_up 0 n ?b m] =>
    destruct (for_up_inv memory (fun i m => exists g, parr_some a n i g /\ heap_is m (g ++ F)) b 0 n m) as (m' & E & g & Q & H') end.
  - lia.
  - eexists. split; [apply parr_start|exact H].
  - intros i mi K (g & Q & HM). destruct (new_potential_ok mi _ (cards i) HM) as (m1 & p & gp & E & PP & H1). rewrite E. cbn [bind].
    destruct (parr_step m1 F a n i g p _ gp Q ltac:(lia) PP H1) as (m2 & g2 & E2 & Q2 & H2). eauto.
  - exists m', g. split; [exact E|]. split; [apply parr_end; exact Q|exact H'].
Qed.

Lemma skipn_one : forall A (l : list A) i x, nth_error l i = Some x -> skipn i l = x :: skipn (S i) l.
Proof.
  induction l as [|y q IH]; intros [|t] x EX; try discriminate.
  - injection EX as ->. reflexivity.
  - cbn in EX |- *. apply IH. exact EX.
Qed.
Lemma Forall2_nth : forall A B (R : A -> B -> Prop) l k i x, Forall2 R l k -> nth_error l i = Some x -> exists y, nth_error k i = Some y /\ R x y.
Proof.
  intros A B R l k i x F. revert i. induction F as [|a b l k Q F IH]; intros [|i] E; try discriminate; cbn in E.
  - injection E as ->. exists b. auto.
  - exact (IH i E).
Qed.
Lemma Forall2_len : forall A B (R : A -> B -> Prop) l k, Forall2 R l k -> length l = length k.
Proof. intros A B R l k F. induction F; cbn; congruence. Qed.

Lemma free_array_ok : forall m F a n g, parr a n g -> heap_is m (g ++ F) -> exists m', free_array m (Some a) n = Ok m' /\ heap_is m' F.
Proof.
  intros m F a n g (ps & gl & -> & Q & L) H. unfold free_array. cbn [app] in H.
  match goal with |- context [for_up 0 n ?b m] =>
    destruct (for_up_inv memory (fun i m => heap_is m ((a, ptrs ps) :: concat (skipn i gl) ++ F)) b 0 n m) as (m' & E & H') end.
  - lia.
  - exact H.
  - intros i mi K HM. destruct (nth_error ps i) as [p|] eqn:EP; [|apply nth_error_None in EP; lia].
    rewrite (ptr_ok mi _ a (ptrs ps) i (Some p) HM (or_introl eq_refl)) by (unfold ptrs; rewrite nth_error_map, EP; reflexivity). cbn [bind].
    destruct (Forall2_nth _ _ _ _ _ _ _ Q EP) as (g & EG & d & PG). assert (SK : skipn i gl = g :: skipn (S i) gl) by (apply skipn_one; exact EG). cbv beta in HM. rewrite SK in HM. cbn [concat] in HM.
    match type of HM with heap_is ?M ?X => eapply (heap_perm M X (g ++ _)) in HM; [|rewrite <- app_assoc; chunk] end.
    destruct (free_potential_ok mi _ p d g PG HM) as (m' & E & H'). exists m'. split; [exact E|exact H'].
  - rewrite E. cbn [bind]. rewrite <- L, (Forall2_len _ _ _ _ _ Q), skipn_all in H'. cbn [concat app] in H'.
    destruct (free_ok _ _ a _ H') as (m2 & E2 & H2 & _). eauto.
Qed.

(** ** Writing results *)
Lemma in_cells : forall R t r cs i x, nth_error R t = Some (r, cs) -> nth_error cs i = Some x -> In x (cells R).
Proof.
  intros R t r cs i x E K. unfold cells. apply in_flat_map. exists (r, cs). split; [eapply nth_error_In; exact E|]. cbn. eapply nth_error_In; exact K.
Qed.
Lemma write_results_ok : forall m F u k n g t w, unc_of u k n g -> incl g F -> heap_is m F -> t < n ->
  exists m', write_results m (Some u) t w = Ok m' /\ heap_is m' F.
Proof.
  intros m F u k n g t w (a & d & ba & R & gc & -> & L & FR & A) I H K. unfold write_results.
  assert (IU : In (u, [N k; P (Some a); N n; P (Some d)]) F) by (apply I; left; reflexivity).
  rewrite (num_ok m F u _ U_nvars k H IU eq_refl). cbn [bind].
  match goal with |- context [for_up 0 k ?b m] =>
    destruct (for_up_inv memory (fun _ m => heap_is m F) b 0 k m) as (m' & E & H') end; [lia|exact H| |eauto].
  intros i mi J HM. wk HM. rewrite (ptr_ok m0 F u _ U_data (Some d) HM IU eq_refl). cbn [bind].
  destruct (nth_error R t) as [[r cs]|] eqn:ER; [|apply nth_error_None in ER; lia].
  rewrite (ptr_ok m0 F d (ptrs (map fst R)) t (Some r) HM); [|apply I; right; right; left; reflexivity|unfold ptrs; rewrite !nth_error_map, ER; reflexivity]. cbn [bind].
  assert (LC : length cs = k). { rewrite Forall_forall in FR. exact (FR (r, cs) (nth_error_In _ _ ER)). }
  destruct (nth_error cs i) as [x|] eqn:EX; [|apply nth_error_None in EX; lia].
  rewrite (ptr_ok m0 F r (ptrs cs) i (Some x) HM).
  2:{ apply I. right. right. right. apply in_or_app. left. unfold row_blocks. apply in_map_iff. exists (r, cs). split; [reflexivity|eapply nth_error_In; exact ER]. }
  2:{ unfold ptrs. rewrite nth_error_map, EX. reflexivity. }
  cbn [bind]. assert (IX : In x (map fst gc)). { eapply Permutation_in; [apply Permutation_sym; exact A|]. eapply in_cells; eassumption. }
  apply in_map_iff in IX. destruct IX as ((x' & bx) & EE & IX). cbn in EE. subst x'.
  rewrite (heap_in m0 F x bx HM). { exists m0. auto. }
  apply I. right. right. right. apply in_or_app. right. exact IX.
Qed.

(** ** Inference *)
Definition length_of (F : fp) (y n : nat) : Prop := exists b, In (y, b) F /\ nth_error b Y_length = Some (N n).
Lemma length_incl : forall F G y n, incl F G -> length_of F y n -> length_of G y n.
Proof. intros F G y n I (b & K & E). exists b. auto. Qed.
Lemma has_vars_incl : forall F G l, incl F G -> Forall (has_var F) l -> Forall (has_var G) l.
Proof. intros F G l I. apply Forall_impl. intros v. apply has_var_incl. exact I. Qed.

Lemma forward_ok : forall m F y n vars out w, heap_is m F -> length_of F y n -> Forall (has_var F) vars -> Forall (has_var F) out ->
  exists m' u g, forward_inference m (Some y) (map Some vars) (map Some out) w = Ok (m', Some u) /\ unc u g /\ heap_is m' (g ++ F).
Proof.
  intros m F y n vars out w H (by_ & IY & EY) HV HO. unfold forward_inference.
  destruct (cardinalities_ok m F out H HO) as (outc & EO & _). rewrite EO. cbn [bind].
  destruct (interface_ok m F outc H) as (m1 & card & gi & E1 & A1 & H1). rewrite E1.
  rewrite (num_ok m1 _ y by_ Y_length n H1) by (first [exact EY|apply in_or_app; right; exact IY]). cbn [bind].
  destruct (cardinalities_ok m1 _ vars H1) as (cards & EC & LC). { eapply has_vars_incl; [|exact HV]. intros x K. apply in_or_app. right. exact K. }
  rewrite EC. cbn [bind]. destruct (new_uncertainseries_of m1 _ cards n H1) as (m2 & u & g & E2 & U2 & H2). rewrite E2. cbn [bind].
  destruct (new_potential_ok m2 _ outc H2) as (m3 & al & ga & E3 & P3 & H3). rewrite E3. cbn [bind].
  destruct (free_interface m3 (ga ++ g ++ F) card gi A1) as (m4 & E4 & H4). { eapply heap_perm; [|exact H3]. perm. } rewrite E4. cbn [bind].
  assert (AL : alive (ga ++ g ++ F) al) by (eapply alive_incl; [|eapply pot_alive; exact P3]; intros x K; apply in_or_app; left; exact K).
  match goal with |- context [for_up 0 n ?b m4] =>
    destruct (for_up_inv memory (fun _ m => heap_is m (ga ++ g ++ F)) b 0 n m4) as (m5 & E5 & H5) end; [lia|exact H4| |].
  - intros t mt K HM.
    match goal with |- context [bind ?X _] => assert (S1 : exists m', X = Ok m' /\ heap_is m' (ga ++ g ++ F)) end.
    { destruct (Nat.ltb 0 t); [|eauto]. apply finish_pass_ok; [exact HM|exact AL|exact Logic.I]. }
    destruct S1 as (m6 & E6 & H6). rewrite E6. cbn [bind]. wk H6.
    destruct (write_results_ok m0 (ga ++ g ++ F) u (length cards) n g t (fun i => w t (2 + i)) U2) as (m7 & E7 & H7).
    { intros x X. apply in_or_app. right. apply in_or_app. left. exact X. } { exact H6. } { lia. }
    rewrite E7. cbn [bind]. destruct (start_pass_ok m7 _ outc al H7 AL) as (m8 & E8 & H8). rewrite E8. cbn [bind]. apply work_ok. exact H8.
  - rewrite E5. cbn [bind]. destruct (free_potential_ok m5 _ al _ ga P3 H5) as (m6 & E6 & H6). rewrite E6. cbn [bind].
    exists m6, u, g. split; [reflexivity|]. split; [unfold unc; eauto|exact H6].
Qed.

Lemma forward_backward_ok : forall m F y n vars out w, heap_is m F -> length_of F y n -> Forall (has_var F) vars -> Forall (has_var F) out ->
  exists m' u g, forward_backward_inference m (Some y) (map Some vars) (map Some out) w = Ok (m', Some u) /\ unc u g /\ heap_is m' (g ++ F).
Proof.
  intros m F y n vars out w H (by_ & IY & EY) HV HO. unfold forward_backward_inference.
  destruct (cardinalities_ok m F out H HO) as (outc & EO & _). rewrite EO. cbn [bind].
  destruct (interface_ok m F outc H) as (m1 & card & gi & E1 & A1 & H1). rewrite E1.
  rewrite (num_ok m1 _ y by_ Y_length n H1) by (first [exact EY|apply in_or_app; right; exact IY]). cbn [bind].
  destruct (cardinalities_ok m1 _ vars H1) as (cards & EC & LC). { eapply has_vars_incl; [|exact HV]. intros x K. apply in_or_app. right. exact K. }
  rewrite EC. cbn [bind]. destruct (new_uncertainseries_of m1 _ cards n H1) as (m2 & u & g & E2 & U2 & H2). rewrite E2. cbn [bind]. cbv zeta.
  al H2. destruct (fill_ok m0 _ a (n + 1) (fun _ => outc) H2) as (m3 & ga & E3 & P3 & H3). rewrite E3. cbn [bind].
  destruct (free_interface m3 (ga ++ g ++ F) card gi A1) as (m4 & E4 & H4). { eapply heap_perm; [|exact H3]. perm. } rewrite E4. cbn [bind].
  assert (IG : incl ga (ga ++ g ++ F)) by (intros x K; apply in_or_app; left; exact K).
  set (G := ga ++ g ++ F) in *.
  assert (FIN : forall mt t d, heap_is mt G -> t <= n -> match d with None => True | Some q => alive G q end ->
     exists m', (let* p := ptr mt (Some a) t in finish_pass mt outc p d) = Ok m' /\ heap_is m' G).
  { intros mt t d HM K D. destruct (parr_get mt G a (n + 1) ga t P3 IG HM ltac:(lia)) as (p & EP & AP). rewrite EP. cbn [bind]. apply finish_pass_ok; assumption. }
  assert (STA : forall mt t, heap_is mt G -> t <= n -> exists m', (let* p := ptr mt (Some a) t in start_pass mt outc p) = Ok m' /\ heap_is m' G).
  { intros mt t HM K. destruct (parr_get mt G a (n + 1) ga t P3 IG HM ltac:(lia)) as (p & EP & AP). rewrite EP. cbn [bind]. apply start_pass_ok; assumption. }
  match goal with |- context [for_up 0 n ?b m4] =>
    destruct (for_up_inv memory (fun _ m => heap_is m G) b 0 n m4) as (m5 & E5 & H5) end; [lia|exact H4| |].
  { intros t mt K HM.
    match goal with |- context [bind ?X _] => assert (S1 : exists m', X = Ok m' /\ heap_is m' G) end.
    { destruct (Nat.ltb 0 t); [|eauto]. apply FIN; [exact HM|lia|exact Logic.I]. }
    destruct S1 as (m6 & E6 & H6). rewrite E6. cbn [bind]. wk H6.
    destruct (parr_get m5 G a (n + 1) ga t P3 IG H6 ltac:(lia)) as (p & EP & AP). rewrite EP. cbn [bind].
    destruct (start_pass_ok m5 _ outc p H6 AP) as (m8 & E8 & H8). rewrite E8. cbn [bind]. apply work_ok. exact H8. }
  rewrite E5. cbn [bind].
  match goal with |- context [for_down n 0 ?b m5] =>
    destruct (for_down_inv memory (fun _ m => heap_is m G) b n 0 m5) as (m6 & E6 & H6) end; [lia|exact H5| |].
  { intros t mt K HM.
    match goal with |- context [bind ?X _] => assert (S1 : exists m', X = Ok m' /\ heap_is m' G) end.
    { destruct (Nat.ltb 0 t); [|eauto]. apply FIN; [exact HM|lia|exact Logic.I]. }
    destruct S1 as (m7 & E7 & H7). rewrite E7. cbn [bind]. wk H7.
    match goal with |- context [bind ?X _] => assert (S2 : exists m', X = Ok m' /\ heap_is m' G) end.
    { destruct (Nat.ltb t (n - 1)); [|eauto].
      destruct (parr_get m6 G a (n + 1) ga (t + 1) P3 IG H7 ltac:(lia)) as (p & EP & AP). rewrite EP. cbn [bind].
      destruct (parr_get m6 G a (n + 1) ga t P3 IG H7 ltac:(lia)) as (q & EQ & AQ). rewrite EQ. cbn [bind]. apply finish_pass_ok; assumption. }
    destruct S2 as (m8 & E8 & H8). rewrite E8. cbn [bind]. wk H8.
    destruct (write_results_ok m9 G u (length cards) n g t (fun i => w t (5 + i)) U2) as (m10 & E10 & H10).
    { intros x X. unfold G. apply in_or_app. right. apply in_or_app. left. exact X. } { exact H8. } { lia. }
    rewrite E10. cbn [bind].
    match goal with |- context [bind ?X _] => assert (S3 : exists m', X = Ok m' /\ heap_is m' G) end.
    { destruct (Nat.ltb 0 t); [|eauto]. apply STA; [exact H10|lia]. }
    destruct S3 as (m11 & E11 & H11). rewrite E11. cbn [bind]. apply work_ok. exact H11. }
  rewrite E6. cbn [bind]. destruct (free_array_ok m6 (g ++ F) a (n + 1) ga P3 H6) as (m7 & E7 & H7). rewrite E7. cbn [bind].
  exists m7, u, g. split; [reflexivity|]. split; [unfold unc; eauto|exact H7].
Qed.
