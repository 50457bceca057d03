(** * Proofs: what nipjoint prints *)
From Coq Require Import String Ascii Permutation.
From Verif Require Import Base BaseProofs StringModel StringSpec PotentialModel PotentialSpec PotentialProofs PotentialProofs2 VariableModel AssignSpec AssignProofs
  JoinTreeModel JoinTreeSpec NipModel NipSpec SliceSpec LearnModel SeriesFileModel SeriesFileSpec
  ParseModel ParseSpec NetLexModel NetGrammarModel NetSpec WriteModel WriteSpec WriteProofs ToolModel ToolSpec ToolProofs2 ToolProofs3 ToolProofs4
  ToolModel4 ToolSpec5.
Import ListNotations.
Open Scope nat_scope.
Local Open Scope res_scope.
Local Notation len := List.length.
Local Notation chars := list_ascii_of_string.

Lemma listed_snoc : forall l x, listed (l ++ [x]) = concat (map (fun f => f ++ chars ", ") l) ++ x.
Proof.
  induction l as [|a l IH]; intros x; [reflexivity|]. cbn [map concat]. rewrite <- !app_assoc. rewrite <- IH.
  destruct l; reflexivity.
Qed.
Lemma listed_last : forall l, l <> [] ->
  concat (map (fun i => nth i l [] ++ (if Nat.ltb i (len l - 1) then chars ", " else [])) (seq 0 (len l))) = listed l.
Proof.
  intros l NE. destruct (exists_last NE) as (l' & x & ->). rewrite listed_snoc, app_length. cbn [len].
  replace (len l' + 1) with (S (len l')) by lia. rewrite seq_S, map_app, concat_app. cbn [map concat Nat.add Nat.sub].
  rewrite Nat.sub_0_r, Nat.ltb_irrefl. rewrite app_nth2, Nat.sub_diag by lia. cbn [nth]. rewrite !app_nil_r. f_equal. f_equal.
  apply (list_ext_nth _ []); rewrite !map_length, ?seq_length; auto. intros i Hi.
  rewrite (nth_map _ _ _ _ _ 0) by now rewrite seq_length. rewrite (nth_map _ _ _ _ _ []) by auto.
  rewrite seq_nth by auto. cbn [Nat.add]. rewrite app_nth1 by auto. replace (Nat.ltb i (len l')) with true by (symmetry; now apply Nat.ltb_lt). reflexivity.
Qed.

Lemma fprintf_potential_ok : forall p out, wf p -> dims p <> [] -> Forall (fun q => (0 <= q)%Qc /\ (q <= 1)%Qc) (data p) ->
  exists lines, fprintf_potential p out = Ok (out ++ concat lines) /\
    Forall2 (fun ix line => joint_line ix (cell p ix) line) (all_ix (dims p)) lines.
Proof.
  intros p out W ND HQ. unfold fprintf_potential.
  assert (DD : dimensionality p <> 0) by (unfold dimensionality; destruct (dims p); [congruence|discriminate]).
  replace (Nat.eqb (dimensionality p) 0) with false by (symmetry; now apply Nat.eqb_neq).
  destruct W as (POS & LD & MX).
  set (line := fun k => chars "P(" ++ listed (map (fun x => print_d (Z.of_nat x)) (unflat (dims p) k)) ++ chars ") = " ++ print_f (nth k (data p) 0%Qc) ++ [end_of_line]).
  exists (map line (seq 0 (size_of_data p))). split.
  - apply append_loop. intros k o Hk. rewrite inverse_mapping_ok; [|repeat split; auto|exact Hk|].
    2: { unfold temp_index. rewrite repeat_length. lia. }
    cbn [bind]. set (ix := unflat (dims p) k). assert (LI : len ix = dimensionality p) by apply unflat_length.
    rewrite (append_loop (dimensionality p) _ (fun i => print_d (Z.of_nat (nth i ix 0)) ++ (if Nat.ltb i (dimensionality p - 1) then chars ", " else [])) _).
    2: { intros i o' Hi. rewrite (rd_ok _ ix i 0) by lia. cbn [bind]. destruct (Nat.ltb i (dimensionality p - 1)); cbn [str]; rewrite <- ?app_assoc; [reflexivity|]. now rewrite app_nil_r. }
    cbn [bind]. rewrite (rd_ok _ (data p) k 0%Qc) by exact Hk. cbn [bind]. unfold line. fold ix.
    rewrite <- (listed_last (map (fun x => print_d (Z.of_nat x)) ix)). 2: { destruct ix; [cbn in LI; congruence|discriminate]. }
    rewrite map_length, LI, <- !app_assoc. unfold NL, str. change NEWLINE with end_of_line. do 4 f_equal. f_equal.
    apply map_ext_in. intros i Hi. apply in_seq in Hi. f_equal. rewrite (nth_indep _ [] (print_d (Z.of_nat 0))) by (rewrite map_length; lia).
    symmetry. apply (map_nth (fun x => print_d (Z.of_nat x))).
  - rewrite all_ix_unflat. unfold size_of_data. rewrite LD.
    assert (K : forall l, (forall k, In k l -> k < prod (dims p)) -> Forall2 (fun ix ln => joint_line ix (cell p ix) ln) (map (unflat (dims p)) l) (map line l)).
    { induction l as [|k l IH]; intros H; cbn [map]; constructor; [|apply IH; intros; apply H; now right].
      assert (Hk : k < prod (dims p)) by (apply H; now left).
      exists (map (fun x => print_d (Z.of_nat x)) (unflat (dims p) k)), (print_f (nth k (data p) 0%Qc)). split; [|split; [|reflexivity]].
      - assert (V := unflat_valid (dims p) k POS). unfold valid_ix in V.
        assert (B : forall d, In d (dims p) -> (Z.of_nat d <= INT_MAX)%Z).
        { intros d Hd. apply Z.le_trans with (2 := MX). apply inj_le. clear -POS Hd. induction (dims p) as [|e ds IH]; [destruct Hd|].
          apply Forall_inv in POS as P0. apply Forall_inv_tail in POS. cbn [prod fold_right]. 
          assert (PP : 0 < prod ds). { clear -POS. induction POS; cbn [prod fold_right]; [lia|]. unfold prod in *. cbn. nia. }
          unfold prod in *. cbn in *. destruct Hd as [->|Hd]; [nia|]. specialize (IH POS Hd). nia. }
        revert V B. generalize (unflat (dims p) k) as jx. generalize (dims p) as es. clear. intros es jx V B. induction V as [|x d ix ds Hx V IH]; cbn [map]; constructor; [|apply IH; intros; apply B; now right].
        apply print_d_ok. specialize (B d (or_introl eq_refl)). lia.
      - unfold cell. rewrite flat_unflat by auto. apply printed. rewrite Forall_forall in HQ. apply HQ. apply nth_In. lia. }
    apply K. intros k Hk. apply in_seq in Hk. lia.
Qed.

Section Head.
Variable k1 k2 : list pvar -> list nat -> Z.
Variable c : Z.
Variable net_text : list ascii.
Variable t : net.
Hypothesis NF : net_file k1 k2 c net_text t.
Local Notation n := (ParseSpec.size t).
Variable names : list named_variable.
Variable m : model.
Hypothesis P : parsed t names m.

Lemma joint_head_ok : forall vars, vars <> [] -> (forall v, In v vars -> v < n) ->
  write_joint_head names vars (str "nipjoint:" ++ NL) = Ok (joint_heading t vars).
Proof.
  intros vars NE HV. destruct (exists_last NE) as (l & x & ->). unfold write_joint_head. rewrite app_length. cbn [len].
  replace (len l + 1) with (S (len l)) by lia. set (f := fun v => chars (nth v (symbols t) EmptyString)).
  rewrite (append_loop (len l) _ (fun i => f (nth i l 0) ++ chars ", ")).
  2: { intros i o Hi. rewrite (rd_ok _ (l ++ [x]) i 0) by (rewrite app_length; lia). cbn [bind].
       rewrite (symbol_text_ok k1 k2 c net_text t NF names m _ P) by (apply HV, nth_In; rewrite app_length; lia). cbn [bind]. rewrite app_nth1 by auto. reflexivity. }
  cbn [bind]. rewrite (rd_ok _ (l ++ [x]) (len l) 0) by (rewrite app_length; cbn; lia). cbn [bind]. rewrite app_nth2, Nat.sub_diag by lia. cbn [nth].
  rewrite (symbol_text_ok k1 k2 c net_text t NF names m _ P) by (apply HV, in_or_app; right; now left). cbn [bind].
  unfold joint_heading. rewrite map_app. cbn [map]. fold f. rewrite listed_snoc. rewrite map_map, <- !app_assoc. unfold NL, str. change NEWLINE with end_of_line.
  do 5 f_equal. f_equal. transitivity (map (fun v => f v ++ chars ", ") (map (fun i => nth i l 0) (seq 0 (len l)))); [now rewrite map_map|].
  now rewrite map_nth_seq.
Qed.

Lemma joint_named_ok : forall l, incl l (symbols t) -> joint_named names l = Ok (Some (map (ParseSpec.number t) l)).
Proof.
  induction l as [|s l IH]; intros H; cbn [joint_named map]; [reflexivity|].
  destruct (symbol_number k1 k2 c net_text t NF names m s P) as (-> & _); [apply H; now left|]. cbn [bind].
  rewrite IH by (intros x Hx; apply H; now right). reflexivity.
Qed.
Lemma joint_named_unknown : forall l, ~ incl l (symbols t) -> joint_named names l = Ok None.
Proof.
  induction l as [|s l IH]; intros H; [elim H; intros x []|]. cbn [joint_named].
  destruct (in_dec string_dec s (symbols t)) as [I|N].
  - destruct (symbol_number k1 k2 c net_text t NF names m s P I) as (-> & _). cbn [bind]. rewrite IH; [reflexivity|].
    intros K. apply H. intros x [<-|Hx]; auto.
  - rewrite (symbol_unknown k1 k2 c net_text t NF names m s P N). reflexivity.
Qed.
End Head.
