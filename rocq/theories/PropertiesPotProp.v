(** * Properties of potentials (Property C97) *)
From Verif Require Import Base MemoryModel MemorySpec PotPropSpec PotPropModel PotPropProofs.
Import ListNotations.
Open Scope nat_scope.

(** C97.  A program sets properties of a new potential, each with two strings of its
    own, asks for properties, and frees the potential.  It is always told the value
    that was set first for the key, or that there is none; and all memory is free at
    the end, that of the strings, too. *)
Theorem C97_answers : forall cards l, Forall proper l ->
  exists m, with_potential [] cards l = Ok (m, answers_first [] l) /\ all_free m.
Proof. exact C97_answers_lemma. Qed.
Print Assumptions C97_answers.

(** The value set last, if no key is set twice. *)
Theorem C97_once : forall cards l, Forall proper l -> NoDup (keys_set l) ->
  exists m, with_potential [] cards l = Ok (m, answers_last [] l) /\ all_free m.
Proof. exact C97_once_lemma. Qed.
Print Assumptions C97_once.

(** A copy has no properties. *)
Theorem C97_copy : forall cards l k, Forall proper l -> is_text k ->
  exists m, with_copy [] cards l k = Ok (m, [None]) /\ all_free m.
Proof. exact C97_copy_lemma. Qed.
Print Assumptions C97_copy.

(** "ab" is set to "x", then to "y"; "ac" to "z". *)
Definition some_requests : list request :=
  [Get_property [97; 98]; Set_property [97; 98] [120]; Set_property [97; 99] [122]; Get_property [97; 98];
   Set_property [97; 98] [121]; Get_property [97; 98]; Get_property [97; 99]; Get_property [97]; Set_property [] []; Get_property []].
Definition some_answers : list (option (list nat)) := [None; Some [120]; Some [120]; Some [122]; None; Some []].
Example C97_case : Forall proper some_requests /\ answers_first [] some_requests = some_answers /\
  (let* r := with_potential [] [2; 3] some_requests in Ok (snd r))%res = Ok some_answers /\
  NoDup (keys_set [Set_property [97] [120]; Set_property [98] [120]; Get_property [98]]).
Proof.
  split; [repeat (constructor; [cbn; repeat (split || constructor); discriminate|]); constructor|]. split; [reflexivity|]. split; [vm_compute; reflexivity|].
  cbn. constructor; [intros [Q|[]]; discriminate Q|]. constructor; [intros []|constructor].
Qed.

(** That setting a property replaces its value is false. *)
Theorem C97_replaced_refuted : exists cards l m a, Forall proper l /\ with_potential [] cards l = Ok (m, a) /\ a <> answers_last [] l.
Proof.
  exists [2], [Set_property [97] [120]; Set_property [97] [121]; Get_property [97]]. eexists _, _. split.
  - repeat (constructor; [cbn; repeat (split || constructor); discriminate|]). constructor.
  - split; [vm_compute; reflexivity|discriminate].
Qed.
Print Assumptions C97_replaced_refuted.

(** That a program may go on using a string after it gave it to a potential is false:
    if it is the value of two properties, it is freed twice. *)
Theorem C97_shared_refuted : forall cards k1 k2 v, with_shared_value [] cards k1 k2 v = UB.
Proof. exact C97_shared_lemma. Qed.
Print Assumptions C97_shared_refuted.
