(** * Memory of parsing: distributions (for C92) *)
From Coq Require Import Permutation String.
From Verif Require Import Base BaseProofs PotentialModel VariableModel HeapProofs GraphModel MemoryModel MemorySpec MemoryProofs MemoryProofs2 MemoryProofs3 MemoryProofs4 MemoryProofs5 MemoryProofs6 MemoryProofs7 MemoryProofs8 MemoryProofs9 MemoryModel3 MemoryProofs20 MemoryProofs23 ParseModel NetGrammarModel NetSpec NetGrammarProofs MemoryModel4 MemorySpec4 MemoryProofs26.
Import ListNotations.
Open Scope nat_scope.
Local Open Scope res_scope.
Local Open Scope list_scope.
Local Notation len := List.length.

Ltac inc := let x := fresh "x" in let K := fresh "K" in intros x K; repeat (rewrite in_app_iff in K || cbn [In] in K); repeat (rewrite in_app_iff || cbn [In]); tauto.

Lemma m_symbols_ok : forall l m vars o L f, owns m (mblk vars ++ oblk o ++ L) f ->
  exists m' o', m_symbols m vars l o = Ok (m', o') /\ owns m' (mblk vars ++ oblk o' ++ L) f.
Proof.
  induction l as [|x l IH]; intros m vars o L f O; cbn [m_symbols]; [exists m, o; auto|].
  destruct (m_text_ok _ _ _ O) as (m1 & s & E1 & O1). rewrite E1. cbn [bind].
  destruct (m_list_ok m1 o (s :: mblk vars ++ L) f) as (m2 & ml & E2 & O2 & _). { eapply owns_perm; [exact O1|]. perm. } rewrite E2.
  rewrite (use_list_ok m2 vars _ _ O2) by inc. cbn [bind]. us O2.
  destruct (m_link_ok m2 ml _ _ O2) as (m3 & ml3 & E3 & O3 & _). rewrite E3. cbn [bind]. frl O3.
  destruct (IH m0 vars (Some ml3) L f) as (m4 & o4 & E4 & O4). { eapply owns_perm; [exact O3|]. cbn [oblk]. perm. } eauto.
Qed.

Lemma m_numbers_ok : forall l m o L f, owns m (oblk o ++ L) f -> exists m' o', m_numbers m l o = Ok (m', o') /\ owns m' (oblk o' ++ L) f /\ (l <> [] \/ o <> None -> o' <> None).
Proof.
  induction l as [|x l IH]; intros m o L f O; cbn [m_numbers]; [exists m, o; split; [reflexivity|split; [exact O|tauto]]|].
  destruct (m_append_ok m o L f O) as (m1 & ml & E1 & O1 & _). rewrite E1. cbn [bind].
  destruct (IH m1 (Some ml) L f O1) as (m2 & o2 & E2 & O2 & NE). exists m2, o2. split; [exact E2|]. split; [exact O2|]. intros _. apply NE. right. discriminate.
Qed.
Lemma m_data_ok : forall m l L f, owns m L f -> l <> [] -> exists m' a, m_data m l = Ok (m', a) /\ owns m' (a :: L) f.
Proof.
  intros m l L f O NE. unfold m_data. destruct (m_numbers_ok l m None L f O) as (m1 & o & E1 & O1 & K). rewrite E1. cbn [bind]. destruct o as [ml|]; [|destruct (K (or_introl NE) eq_refl)].
  cbn [oblk] in O1. rewrite (use_list_ok m1 ml _ _ O1) by inc. cbn [bind]. tk O1.
  destruct (m_drop_ok m0 ml (a :: L) f) as (m2 & E2 & O2). { eapply owns_perm; [exact O1|]. perm. } rewrite E2. cbn [bind]. eauto.
Qed.

Lemma m_create_ok : forall m cards L f, owns m L f -> exists m' q d g, m_create_potential m cards = Ok (m', Some q) /\ pot q d g /\ owns m' L (g ++ f).
Proof.
  intros m cards L f O. unfold m_create_potential. tk O. tk O. tk O. tk O.
  match type of O with owns ?M ?LL ?ff => destruct (new_potential_ok M _ cards O) as (m5 & q & g & E5 & P5 & H5) end. rewrite E5. cbn [bind].
  destruct (free_each_ok [a; a0; a1; a2] m5 L (g ++ f)) as (m6 & E6 & O6).
  { unfold owns. eapply heap_perm; [|exact H5]. unfold led. cbn [app map]. perm. }
  rewrite E6. cbn [bind]. eauto 8.
Qed.

(** ** The list of the potentials *)
Definition pent (st : statics) : list (option nat * option nat) := match st_potentials st with Some (_, l) => l | None => [] end.
Definition pblk (o : option (mlist * list (option nat * option nat))) : list nat := match o with Some (ml, l) => mblk ml ++ addresses_in (map snd l) | None => [] end.
Definition pots (l : list (option nat * option nat)) (gl : list fp) : Prop := Forall2 (fun e g => exists q d, fst e = Some q /\ pot q d g) l gl.
Definition links_ok (st : statics) : Prop := match st_potentials st with Some (ml, l) => len (b_nodes ml) = len l | None => True end.

Lemma addresses_app : forall a b, addresses_in (a ++ b) = addresses_in a ++ addresses_in b.
Proof. intros. unfold addresses_in. apply flat_map_app. Qed.

Lemma declaration_value : forall vl d p, potential_declaration vl d = Ok (Some p) -> pd_data d <> Some [].
Proof.
  intros vl d p E Q. unfold potential_declaration in E. rewrite Q in E. destruct (search_list vl (pd_child d) 0) as [c| |]; cbn [bind] in E; try discriminate E.
  match type of E with bind ?r _ = _ => destruct r as [[x|]| |] end; cbn [bind] in E; discriminate E.
Qed.

Lemma m_potential_ok : forall m st vars vl d p L f gl, st_vars st = Some vars -> owns m (mblk vars ++ pblk (st_potentials st) ++ L) (concat gl ++ f) ->
  pots (pent st) gl -> links_ok st -> potential_declaration vl d = Ok (Some p) ->
  exists m' st' gl', m_potential m st vl d = Ok (Some (m', st', p)) /\ owns m' (mblk vars ++ pblk (st_potentials st') ++ L) (concat gl' ++ f) /\
    pots (pent st') gl' /\ links_ok st' /\ st_vars st' = st_vars st /\ st_relations st' = st_relations st /\ st_potentials st' <> None.
Proof.
  intros m st vars vl d p L f gl SV O P LK E. unfold m_potential. rewrite SV.
  destruct (m_text_ok _ _ _ O) as (m1 & s & E1 & O1). rewrite E1. cbn [bind]. rewrite (use_list_ok m1 vars _ _ O1) by inc. cbn [bind]. frl O1. clear E1.
  set (PB := pblk (st_potentials st)) in *.
  assert (S1 : exists m2 given, match pd_parents d with None => Ok (m0, None) | Some l => m_symbols m0 vars l None end = Ok (m2, given) /\ owns m2 (oblk given ++ mblk vars ++ PB ++ L) (concat gl ++ f)).
  { destruct (pd_parents d) as [l|]; [|exists m0, None; auto]. destruct (m_symbols_ok l m0 vars None (PB ++ L) _ O1) as (m2 & o & E2 & O2). exists m2, o. split; [exact E2|]. eapply owns_perm; [exact O2|]. perm. }
  destruct S1 as (m2 & given & E2 & O2). rewrite E2. cbn [bind]. clear E2.
  assert (S2 : exists m3 doubles, match pd_data d with None => Ok (m2, None) | Some l => let* (m, a) := m_data m2 l in Ok (m, Some a) end = Ok (m3, doubles) /\
     owns m3 (addresses_in [doubles] ++ oblk given ++ mblk vars ++ PB ++ L) (concat gl ++ f)).
  { destruct (pd_data d) as [l|] eqn:ED; [|exists m2, None; auto]. destruct (m_data_ok m2 l _ _ O2) as (m3 & a & E3 & O3). { intros ->. exact (declaration_value _ _ _ E ED). } rewrite E3. cbn [bind]. exists m3, (Some a). auto. }
  destruct S2 as (m3 & doubles & E3 & O3). rewrite E3. cbn [bind]. clear E3. rewrite E. cbn [bind].
  assert (S3 : exists m4 family parents, match given with None => (m3, None, None) | Some _ => let '(m, f) := take m3 in let '(m, a) := take m in (m, Some f, Some a) end = (m4, family, parents) /\
     owns m4 (addresses_in [doubles; family; parents] ++ oblk given ++ mblk vars ++ PB ++ L) (concat gl ++ f)).
  { destruct given as [gv|]; [|exists m3, None, None; split; [reflexivity|]; destruct doubles; exact O3]. tk O3. tk O3. exists m5, (Some a), (Some a0). split; [reflexivity|].
    eapply owns_perm; [exact O3|]. destruct doubles; cbn [addresses_in flat_map app]; perm. }
  destruct S3 as (m4 & family & parents & E4 & O4). rewrite E4. clear E4.
  assert (S4 : owns m4 (oblk (option_map fst (st_potentials st)) ++ addresses_in (map snd (pent st)) ++ addresses_in [doubles; family; parents] ++ oblk given ++ mblk vars ++ L) (concat gl ++ f)).
  { eapply owns_perm; [exact O4|]. unfold PB, pent. destruct (st_potentials st) as [[ml l]|]; cbn [option_map fst oblk pblk map snd addresses_in flat_map app]; [|perm]. perm. }
  destruct (m_list_ok _ _ _ _ S4) as (m5 & ml & E5 & O5 & N5). rewrite E5. clear E5 S4 O4.
  rewrite (use_all_ok _ m5 _ _ O5) by inc. cbn [bind].
  destruct (m_create_ok m5 (dims (pp_data p)) _ _ O5) as (m6 & q & dq & g & E6 & PQ & O6). rewrite E6. cbn [bind].
  destruct (m_link_ok _ _ _ _ O6) as (m7 & ml7 & E7 & O7 & N7). rewrite E7. cbn [bind]. clear E6 E7.
  assert (S8 : exists m8, free m7 doubles = Ok m8 /\ owns m8 (mblk ml7 ++ addresses_in (map snd (pent st)) ++ addresses_in [family; parents] ++ oblk given ++ mblk vars ++ L) (g ++ concat gl ++ f)).
  { destruct doubles as [a|]; cbn [addresses_in flat_map app] in O7; [|exists m7; auto]. apply free_owns. eapply owns_perm; [exact O7|]. cbn [addresses_in flat_map app]. perm. }
  destruct S8 as (m8 & E8 & O8). rewrite E8. cbn [bind]. clear E8.
  assert (S9 : exists m9, match given with None => Ok m8 | Some g => m_drop m8 g end = Ok m9 /\ owns m9 (mblk ml7 ++ addresses_in (map snd (pent st)) ++ addresses_in [family; parents] ++ mblk vars ++ L) (g ++ concat gl ++ f)).
  { destruct given as [gv|]; [|exists m8; auto]. apply m_drop_ok. eapply owns_perm; [exact O8|]. cbn [oblk]. perm. }
  destruct S9 as (m9 & E9 & O9). rewrite E9. cbn [bind]. clear E9.
  assert (S10 : exists m10, free m9 family = Ok m10 /\ owns m10 (mblk ml7 ++ addresses_in (map snd (pent st)) ++ addresses_in [parents] ++ mblk vars ++ L) (g ++ concat gl ++ f)).
  { destruct family as [a|]; cbn [addresses_in flat_map app] in O9; [|exists m9; auto]. apply free_owns. eapply owns_perm; [exact O9|]. cbn [addresses_in flat_map app]. perm. }
  destruct S10 as (m10 & E10 & O10). rewrite E10. cbn [bind]. clear E10.
  eexists m10, (mkStatics (st_label st) (Some vars) (st_relations st) (Some (ml7, pent st ++ [(Some q, parents)]))), (gl ++ [g]). split; [reflexivity|]. cbn [st_potentials st_vars st_relations].
  split; [|split; [|split; [|split; [|split]]]].
  - unfold owns in *. cbn [pblk]. rewrite map_app, addresses_app. cbn [map snd]. rewrite concat_app. cbn [concat]. rewrite app_nil_r. eapply heap_perm; [|exact O10].
    unfold led. rewrite !map_app. perm.
  - unfold pent at 1. cbn [st_potentials]. apply Forall2_app; [exact P|]. constructor; [|constructor]. exists q, dq. auto.
  - unfold links_ok, pent in *. cbn [st_potentials]. rewrite app_length. cbn [len]. destruct (st_potentials st) as [[ml0 l0]|]; cbn [option_map fst olen len] in *; lia.
  - congruence.
  - reflexivity.
  - discriminate.
Qed.

Lemma m_potentials_ok : forall l m st vars vl ps x L f gl, st_vars st = Some vars -> owns m (mblk vars ++ pblk (st_potentials st) ++ L) (concat gl ++ f) ->
  pots (pent st) gl -> links_ok st -> match x with Null => ps = [] | Live q => q = ps | Freed => False end ->
  forall y, potential_declarations vl l x = Ok (Some y) ->
  exists m' st' gl' ps', m_potentials m st vl l ps = Ok (Some (m', st', ps')) /\ owns m' (mblk vars ++ pblk (st_potentials st') ++ L) (concat gl' ++ f) /\
    pots (pent st') gl' /\ links_ok st' /\ st_vars st' = st_vars st /\ st_relations st' = st_relations st /\ match y with Null => ps' = [] | Live q => q = ps' | Freed => False end.
Proof.
  induction l as [|d l IH]; intros m st vars vl ps x L f gl SV O P LK X y E; cbn [potential_declarations m_potentials] in *.
  - injection E as <-. exists m, st, gl, ps. do 6 (split; [assumption || reflexivity|]). exact X.
  - destruct (potential_declaration vl d) as [[p|]| |] eqn:EP; cbn [bind] in E; try discriminate E.
    destruct (m_potential_ok m st vars vl d p L f gl SV O P LK EP) as (m1 & st1 & gl1 & E1 & O1 & P1 & LK1 & V1 & R1 & _). rewrite E1. cbn [bind].
    destruct (append_to x p) as [x1| |] eqn:EA; cbn [bind] in E; try discriminate E.
    destruct (IH m1 st1 vars vl (ps ++ [p]) x1 L f gl1 ltac:(congruence) O1 P1 LK1) with (y := y) as (m2 & st2 & gl2 & ps2 & E2 & O2 & P2 & LK2 & V2 & R2 & Y2); [|exact E|].
    { unfold append_to in EA. destruct x; try discriminate EA; injection EA as <-; [rewrite X; reflexivity|congruence]. }
    exists m2, st2, gl2, ps2. split; [exact E2|]. split; [exact O2|]. split; [exact P2|]. split; [exact LK2|]. split; [congruence|]. split; [congruence|exact Y2].
Qed.

(** ** Freeing the lists *)
Lemma free_relations_ok : forall links texts m L f, len links = len texts -> owns m (links ++ texts ++ L) f -> exists m', free_relations m links texts = Ok m' /\ owns m' L f.
Proof.
  induction links as [|k links IH]; intros [|s texts] m L f N O; try discriminate N; [exists m; auto|]. cbn [free_relations]. cbn in N.
  destruct (IH texts m (k :: s :: L) f ltac:(lia)) as (m1 & E1 & O1). { eapply owns_perm; [exact O|]. perm. } rewrite E1. cbn [bind]. frl O1. apply free_owns. exact O1.
Qed.
Lemma m_free_relations_ok : forall o m L f, (match o with Some (ml, texts) => len (b_nodes ml) = len texts | None => True end) ->
  owns m (match o with Some (ml, texts) => mblk ml ++ texts | None => [] end ++ L) f -> exists m', m_free_relations m o = Ok m' /\ owns m' L f.
Proof.
  intros [[ml texts]|] m L f N O; [|exists m; auto]. cbn [m_free_relations]. rewrite (use_owns m _ _ (b_list ml) O) by (left; reflexivity). cbn [bind].
  destruct (free_relations_ok (b_nodes ml) texts m (b_list ml :: L) f N) as (m1 & E1 & O1). { eapply owns_perm; [exact O|]. unfold mblk. perm. } rewrite E1. cbn [bind].
  apply free_owns. exact O1.
Qed.
Lemma free_potentials_ok : forall links l gl m L f, len links = len l -> pots l gl -> owns m (links ++ addresses_in (map snd l) ++ L) (concat gl ++ f) ->
  exists m', free_potentials m links l = Ok m' /\ owns m' L f.
Proof.
  induction links as [|k links IH]; intros [|[p par] l] gl m L f N P O; try discriminate N; inversion P as [|e g l' gl' (q & d & EQ & PQ) P']; subst; [exists m; auto|].
  cbn [free_potentials]. cbn in N, EQ. subst p. cbn [concat map snd] in O.
  destruct (IH l gl' m (k :: addresses_in [par] ++ L) (g ++ f) ltac:(lia) P') as (m1 & E1 & O1).
  { change (addresses_in (par :: map snd l)) with (addresses_in ([par] ++ map snd l)) in O. rewrite addresses_app in O. unfold owns in *. eapply heap_perm; [|exact O]. unfold led. rewrite !map_app. cbn [map]. rewrite !map_app. perm. }
  rewrite E1. cbn [bind]. destruct (free_potential_ok m1 (led (k :: addresses_in [par] ++ L) ++ f) q d g PQ) as (m2 & E2 & H2). { unfold owns in O1. eapply heap_perm; [|exact O1]. perm. }
  rewrite E2. cbn [bind]. change (owns m2 (k :: addresses_in [par] ++ L) f) in H2. destruct par as [a|]; cbn [addresses_in flat_map app] in H2.
  - frl H2. apply free_owns. exact H2.
  - cbn [free bind]. apply free_owns. exact H2.
Qed.
Lemma m_free_potentials_ok : forall st gl m L f, links_ok st -> pots (pent st) gl -> owns m (pblk (st_potentials st) ++ L) (concat gl ++ f) ->
  exists m', m_free_potentials m (st_potentials st) = Ok m' /\ owns m' L f.
Proof.
  intros st gl m L f N P O. unfold links_ok, pent in *. destruct (st_potentials st) as [[ml l]|]; [|inversion P; subst; exists m; auto]. cbn [m_free_potentials pblk] in *.
  rewrite (use_owns m _ _ (b_list ml) O) by (left; reflexivity). cbn [bind].
  destruct (free_potentials_ok (b_nodes ml) l gl m (b_list ml :: L) f N P) as (m1 & E1 & O1). { eapply owns_perm; [exact O|]. unfold mblk. perm. } rewrite E1. cbn [bind].
  apply free_owns. exact O1.
Qed.
