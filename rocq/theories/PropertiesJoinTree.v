(** * Properties C31-C33 and C37: propagation (src/nipjointree.c, src/nip.c)

    The specification is in AssignSpec.v (assignments, sums over variables)
    and JoinTreeSpec.v: [joint jt] is the function represented by the tree
    (product of the clique tables over the product of the sepset tables),
    [shape_ok] the consistency of the data structure, [is_tree] and
    [running_intersection] the properties of a join tree, [calibrated] the
    agreement of every sepset with both neighbours. *)
From Coq Require Import Permutation Relations.
From Verif Require Import Base PotentialModel PotentialSpec JoinTreeModel
  AssignSpec JoinTreeSpec JoinTreeProofs7 JoinTreeCheck.
Import ListNotations.
Open Scope nat_scope.

(** C31.  One message, for every tree and all tables with zeros. *)
Theorem C31_message_preserves_joint : forall card jt c1 s c2,
  shape_ok card jt -> tables_nonneg jt -> s < length (sps jt) -> joins jt s c1 c2 ->
  exists jt', message_pass jt c1 s c2 = Ok (jt', NO_ERROR) /\
    same_shape jt jt' /\ shape_ok card jt' /\ tables_nonneg jt' /\
    forall a, valid card a -> joint jt' a = joint jt a.
Proof. exact C31_message_lemma. Qed.
Print Assumptions C31_message_preserves_joint.

(** C31 for any order and number of messages. *)
Theorem C31_messages_preserve_joint : forall card ms jt,
  shape_ok card jt -> tables_nonneg jt ->
  Forall (fun m => match m with (c1, s, c2) => s < length (sps jt) /\ joins jt s c1 c2 end) ms ->
  exists jt', pass_all jt ms = Ok jt' /\
    same_shape jt jt' /\ shape_ok card jt' /\ tables_nonneg jt' /\
    forall a, valid card a -> joint jt' a = joint jt a.
Proof. exact C31_messages_lemma. Qed.
Print Assumptions C31_messages_preserve_joint.

(** What a message does: the sepset becomes the marginal of the sender. *)
Theorem C31_message_content : forall card jt c1 s c2 jt' e,
  shape_ok card jt -> s < length (sps jt) -> joins jt s c1 c2 ->
  message_pass jt c1 s c2 = Ok (jt', e) ->
  forall a, valid card a ->
    psi jt' s a = sumv card (minus (c_vars (clq jt c1)) (s_vars (sep jt s))) (phi jt c1) a /\
    phi jt' c1 a = phi jt c1 a /\
    phi jt' c2 a = (phi jt c2 a * psi jt' s a / psi jt s a)%Qc.
Proof. exact C31_content_lemma. Qed.
Print Assumptions C31_message_content.

(** C32.  make_consistent terminates without error, keeps the joint and makes
    every clique agree with each of its sepsets. *)
Theorem C32_make_consistent_calibrates : forall card jt,
  shape_ok card jt -> tables_nonneg jt -> is_tree jt ->
  exists jt', make_consistent jt = Ok (jt', NO_ERROR) /\
    same_shape jt jt' /\ shape_ok card jt' /\ tables_nonneg jt' /\
    (forall a, valid card a -> joint jt' a = joint jt a) /\
    calibrated card jt'.
Proof. exact C32_lemma. Qed.
Print Assumptions C32_make_consistent_calibrates.

(** C33.  After make_consistent every clique holds the marginal of the joint
    that the tree represented before the call. *)
Theorem C33_exact_clique_marginals : forall card jt jt' e,
  shape_ok card jt -> tables_nonneg jt -> is_tree jt -> running_intersection jt ->
  make_consistent jt = Ok (jt', e) ->
  forall k a, k < length (cls jt) -> valid card a ->
    phi jt' k a = sumv card (minus (all_vars jt) (c_vars (clq jt k))) (joint jt) a.
Proof. exact C33_clique_lemma. Qed.
Print Assumptions C33_exact_clique_marginals.

(** C33 for one variable: what nip_marginalise_clique then reads from any
    clique containing the variable is its marginal, whichever clique it is. *)
Theorem C33_exact_variable_marginals : forall card jt jt' e,
  shape_ok card jt -> tables_nonneg jt -> is_tree jt -> running_intersection jt ->
  make_consistent jt = Ok (jt', e) ->
  forall k v r, k < length (cls jt) -> In v (c_vars (clq jt k)) -> length r = card v ->
    exists r', marginalise_clique jt' k v r = Ok (r', NO_ERROR) /\ length r' = card v /\
      forall a, valid card a ->
        nth (a v) r' 0%Qc = sumv card (minus (all_vars jt) [v]) (joint jt) a.
Proof. exact C33_variable_lemma. Qed.
Print Assumptions C33_exact_variable_marginals.

(** C37.  After make_consistent the probability mass is the sum of the joint
    over all assignments. *)
Theorem C37_mass_is_total : forall card jt jt' e a,
  shape_ok card jt -> tables_nonneg jt -> is_tree jt -> running_intersection jt ->
  make_consistent jt = Ok (jt', e) -> valid card a ->
  exists jt'', probability_mass jt' = Ok (jt'', sumv card (all_vars jt) (joint jt) a).
Proof. exact C37_mass_lemma. Qed.
Print Assumptions C37_mass_is_total.

(** The hypotheses are met by a tree of three cliques {0,1}, {1,2}, {1,3} with
    zeros in its tables ([ex_tree] of JoinTreeCheck.v). *)
Example C31_case : shape_ok ex_card ex_tree /\ tables_nonneg ex_tree /\
  is_tree ex_tree /\ running_intersection ex_tree /\ joins ex_tree 0 0 1.
Proof.
  split; [apply shapeb_ok; [exact ex_card_pos|vm_compute; reflexivity]|].
  split; [apply nonneg_treeb_ok; vm_compute; reflexivity|].
  split; [apply (is_treeb_ok _ [(1, 1, 2); (0, 0, 1)]); vm_compute; reflexivity|].
  split; [apply ripb_ok; vm_compute; reflexivity|]. left; split; reflexivity.
Qed.

Example C37_case :
  exists jt' jt'', make_consistent ex_tree = Ok (jt', NO_ERROR) /\
    probability_mass jt' = Ok (jt'', qn 60).
Proof. eexists. eexists. split; vm_compute; reflexivity. Qed.
