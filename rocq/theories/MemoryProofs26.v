(** * Memory of parsing: lists and nodes (for C92) *)
From Coq Require Import Permutation String.
From Verif Require Import Base BaseProofs VariableModel HeapProofs GraphModel MemoryModel MemorySpec MemoryProofs MemoryProofs2 MemoryProofs3 MemoryProofs4 MemoryProofs5 MemoryProofs6 MemoryProofs7 MemoryProofs8 MemoryProofs9 MemoryModel3 MemoryProofs20 MemoryProofs23 ParseModel NetGrammarModel NetSpec NetGrammarProofs MemoryModel4 MemorySpec4.
Import ListNotations.
Open Scope nat_scope.
Local Open Scope res_scope.
Local Open Scope list_scope.
Local Notation len := List.length.

Lemma use_all_ok : forall l m L f, owns m L f -> incl l L -> use_all m l = Ok tt.
Proof.
  induction l as [|a l IH]; intros m L f O I; [reflexivity|]. cbn [use_all]. rewrite (use_owns m L f a O) by (apply I; left; reflexivity). cbn [bind].
  eapply IH; [exact O|]. intros x Hx. apply I. right. exact Hx.
Qed.
Lemma free_each_ok : forall l m L f, owns m (l ++ L) f -> exists m', free_each m l = Ok m' /\ owns m' L f.
Proof.
  induction l as [|a l IH]; intros m L f O; [exists m; auto|]. cbn [free_each app] in *. destruct (free_owns _ _ _ _ O) as (m1 & E1 & O1). rewrite E1. cbn [bind].
  apply IH. exact O1.
Qed.
Lemma m_text_ok : forall m L f, owns m L f -> exists m' s, m_text m = Ok (m', s) /\ owns m' (s :: L) f.
Proof. intros m L f O. unfold m_text. tk O. tk O. frl O. eauto. Qed.
Lemma m_scrap_ok : forall m L f, owns m L f -> exists m', m_scrap m = Ok m' /\ owns m' L f.
Proof. intros m L f O. unfold m_scrap. tk O. destruct (free_owns _ _ _ _ O) as (m1 & E1 & O1). eauto. Qed.

(** ** Lists *)
Definition mblk (l : mlist) : list nat := b_list l :: b_nodes l.
Definition oblk (o : option mlist) : list nat := match o with Some l => mblk l | None => [] end.
Definition olen (o : option mlist) : nat := match o with Some l => len (b_nodes l) | None => 0 end.

Lemma use_list_ok : forall m l L f, owns m L f -> incl (mblk l) L -> use_list m l = Ok tt.
Proof.
  intros m l L f O I. unfold use_list. rewrite (use_owns m L f _ O) by (apply I; left; reflexivity). cbn [bind].
  eapply use_all_ok; [exact O|]. intros x Hx. apply I. right. exact Hx.
Qed.
Lemma m_list_ok : forall m o L f, owns m (oblk o ++ L) f -> exists m' l, m_list m o = (m', l) /\ owns m' (mblk l ++ L) f /\ len (b_nodes l) = olen o.
Proof. intros m [l|] L f O; cbn [m_list oblk] in *; [exists m, l; auto|]. cbn [app] in O. tk O. exists m0, (mkMlist a []). auto. Qed.
Lemma m_link_ok : forall m l L f, owns m (mblk l ++ L) f -> exists m' l', m_link m l = Ok (m', l') /\ owns m' (mblk l' ++ L) f /\ len (b_nodes l') = S (len (b_nodes l)).
Proof.
  intros m l L f O. unfold m_link. rewrite (use_list_ok m l _ _ O) by (intros x Hx; apply in_or_app; left; exact Hx). cbn [bind]. tk O. eexists _, _. split; [reflexivity|].
  split; [|cbn [b_nodes]; rewrite app_length; cbn; lia]. eapply owns_perm; [exact O|]. unfold mblk. cbn [b_list b_nodes]. perm.
Qed.
Lemma m_append_ok : forall m o L f, owns m (oblk o ++ L) f -> exists m' l, m_append m o = Ok (m', l) /\ owns m' (mblk l ++ L) f /\ len (b_nodes l) = S (olen o).
Proof.
  intros m o L f O. unfold m_append. destruct (m_list_ok m o L f O) as (m1 & l & E & O1 & N). rewrite E. destruct (m_link_ok m1 l L f O1) as (m2 & l2 & E2 & O2 & N2).
  exists m2, l2. split; [exact E2|]. split; [exact O2|]. congruence.
Qed.
Lemma m_drop_ok : forall m l L f, owns m (mblk l ++ L) f -> exists m', m_drop m l = Ok m' /\ owns m' L f.
Proof.
  intros m l L f O. unfold m_drop. rewrite (use_owns m _ _ (b_list l) O) by (left; reflexivity). cbn [bind].
  destruct (free_all_owns (b_nodes l) m (b_list l :: L) f) as (m1 & E1 & O1). { eapply owns_perm; [exact O|]. unfold mblk. perm. }
  rewrite E1. cbn [bind]. apply free_owns. exact O1.
Qed.

(** ** States *)
Lemma m_strings_ok : forall l m o names L f, owns m (oblk o ++ names ++ L) f ->
  exists m' o' names', m_strings m l o names = Ok (m', o', names') /\ owns m' (oblk o' ++ names' ++ L) f /\ len names' = len names + len l /\ (l <> [] -> o' <> None).
Proof.
  induction l as [|x l IH]; intros m o names L f O; cbn [m_strings].
  - exists m, o, names. split; [reflexivity|]. split; [exact O|]. split; [cbn; lia|congruence].
  - destruct (m_text_ok _ _ _ O) as (m1 & s & E1 & O1). rewrite E1. cbn [bind].
    destruct (m_append_ok m1 o (s :: names ++ L) f) as (m2 & ml & E2 & O2 & _). { eapply owns_perm; [exact O1|]. perm. } rewrite E2. cbn [bind].
    destruct (IH m2 (Some ml) (names ++ [s]) L f) as (m3 & o3 & names3 & E3 & O3 & N3 & NE). { eapply owns_perm; [exact O2|]. cbn [oblk]. perm. }
    exists m3, o3, names3. split; [exact E3|]. split; [exact O3|]. split; [rewrite N3, app_length; cbn; lia|]. intros _. destruct l as [|y l]; [|apply NE; discriminate].
    cbn in E3. injection E3 as _ <- _. discriminate.
Qed.
Lemma m_states_ok : forall m l L f, owns m L f -> l <> [] ->
  exists m' a names, m_states m l = Ok (m', (a, names)) /\ owns m' (a :: names ++ L) f /\ len names = len l.
Proof.
  intros m l L f O NE. unfold m_states. destruct (m_strings_ok l m None [] L f O) as (m1 & o & names & E1 & O1 & N & NN). rewrite E1. cbn [bind]. destruct o as [ml|]; [|destruct (NN NE eq_refl)].
  cbn [oblk] in O1. rewrite (use_list_ok m1 ml _ _ O1) by (intros x Hx; apply in_or_app; left; exact Hx). cbn [bind]. tk O1.
  destruct (m_drop_ok m0 ml (a :: names ++ L) f) as (m2 & E2 & O2). { eapply owns_perm; [exact O1|]. perm. } rewrite E2. cbn [bind].
  exists m2, a, names. split; [reflexivity|]. split; [exact O2|]. exact N.
Qed.

(** ** Fields *)
Definition ablk (arrays : list (nat * list nat)) : list nat := flat_map (fun x => fst x :: snd x) arrays.
Lemma m_fields_ok : forall l m L f, owns m L f -> (forall x, In x (state_lists l) -> x <> []) ->
  exists m' labels nx arrays, m_fields m l = Ok (m', labels, nx, arrays) /\ owns m' (labels ++ nx ++ ablk arrays ++ L) f /\
    len labels = len (NetSpec.labels l) /\ len nx = len (nexts l) /\ Forall2 (fun a x => len (snd a) = len x) arrays (state_lists l).
Proof.
  induction l as [|x l IH]; intros m L f O ST; cbn [m_fields].
  - exists m, [], [], []. cbn. auto.
  - assert (ST' : forall y, In y (state_lists l) -> y <> []). { intros y Hy. apply ST. unfold state_lists. cbn [flat_map]. apply in_or_app. right. exact Hy. }
    destruct x as [|x|s|s| |].
    + destruct (m_text_ok _ _ _ O) as (m1 & s1 & E1 & O1). rewrite E1. cbn [bind]. destruct (m_text_ok _ _ _ O1) as (m2 & s2 & E2 & O2). rewrite E2. cbn [bind]. frl O2. frl O2.
      apply IH; assumption.
    + destruct (m_states_ok m x L f O) as (m1 & a & names & E1 & O1 & N1). { apply ST. left. reflexivity. } rewrite E1. cbn [bind].
      destruct (IH m1 _ f O1 ST') as (m2 & la & nx & ar & E2 & O2 & N2 & N3 & F). rewrite E2. cbn [bind]. exists m2, la, nx, ((a, names) :: ar). split; [reflexivity|].
      split; [eapply owns_perm; [exact O2|]; cbn [ablk flat_map fst snd]; unfold ablk; perm|]. split; [exact N2|]. split; [exact N3|]. constructor; [exact N1|exact F].
    + destruct (m_text_ok _ _ _ O) as (m1 & s1 & E1 & O1). rewrite E1. cbn [bind]. destruct (IH m1 _ f O1 ST') as (m2 & la & nx & ar & E2 & O2 & N2 & N3 & F). rewrite E2. cbn [bind].
      exists m2, (s1 :: la), nx, ar. split; [reflexivity|]. split; [eapply owns_perm; [exact O2|]; perm|]. split; [cbn; f_equal; exact N2|]. split; [exact N3|exact F].
    + destruct (m_text_ok _ _ _ O) as (m1 & s1 & E1 & O1). rewrite E1. cbn [bind]. destruct (IH m1 _ f O1 ST') as (m2 & la & nx & ar & E2 & O2 & N2 & N3 & F). rewrite E2. cbn [bind].
      exists m2, la, (s1 :: nx), ar. split; [reflexivity|]. split; [eapply owns_perm; [exact O2|]; perm|]. split; [exact N2|]. split; [cbn; f_equal; exact N3|exact F].
    + apply IH; assumption.
    + apply IH; assumption.
Qed.
