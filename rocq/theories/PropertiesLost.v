(** * C105: The memory of files that are not accepted *)
From Coq Require Import String Ascii.
From Verif Require Import Base VariableModel ParseModel NetLexModel NetGrammarModel NetSpec MemoryModel MemorySpec MemorySpec3 MemoryModel4 MemorySpec4 KeptSpec LostModel LostSpec LostProofs.
Import ListNotations.
Open Scope nat_scope.
Local Open Scope list_scope.

(** Any number of files are missing or rejected at the header of a node: nothing undefined
    happens, and all that can be reached can be freed afterwards.  But exactly the blocks
    of [lost_by] are left of each. *)
Theorem C105_attempts : forall l c, attempts_ok l -> (c + Z.of_nat (List.length (all_nodes l)) <= LONG_MAX)%Z ->
  exists m st vs g m', m_attempts [] no_statics [] (fresh_globals c) l = Ok (Some (m, st, vs, g)) /\
    List.length vs = List.length (all_nodes l) /\ clean_up m st vs = Ok m' /\ live m' = list_sum (map lost_by l).
Proof. exact attempts_lost. Qed.
Print Assumptions C105_attempts.

(** So the memory that is lost has no bound: at least one block for every call. *)
Theorem C105_nothing_lost_refuted : forall l c, attempts_ok l -> (c + Z.of_nat (List.length (all_nodes l)) <= LONG_MAX)%Z ->
  exists m st vs g m', m_attempts [] no_statics [] (fresh_globals c) l = Ok (Some (m, st, vs, g)) /\
    clean_up m st vs = Ok m' /\ List.length l <= live m'.
Proof.
  intros l c H HC. destruct (attempts_lost l c H HC) as (m & st & vs & g & m' & E & _ & E2 & L).
  exists m, st, vs, g, m'. split; [exact E|]. split; [exact E2|]. rewrite L. apply lost_one.
Qed.
Print Assumptions C105_nothing_lost_refuted.

(** The attempts meet the hypotheses: a missing file, one with a node and then a node that
    is called like a keyword, a file with a wrong brace. *)
Definition two_states : list field := [F_states ["no"; "yes"]%string].
Definition some_attempts : list attempt :=
  [ Missing;
    Wrong [("A"%string, two_states)] [T_key K_node; T_key K_data];
    Missing;
    Wrong [("B"%string, two_states); ("C"%string, F_next "B" :: F_next "B" :: two_states)]
      [T_key K_node; T_unquoted ["D"]%char; T_char "("%char] ].
Example C105_case : attempts_ok some_attempts /\ map lost_by some_attempts = [1; 1; 1; 3].
Proof.
  split; [|reflexivity]. split; [|split].
  - intros nodes h [E|[E|[E|[E|[]]]]]; try discriminate E; injection E as <- <-; exists [].
    + apply wrong_symbol. discriminate.
    + apply wrong_brace. discriminate.
  - split.
    + repeat constructor; discriminate.
    + intros l1 d1 l2 d2 l3 E N. assert (I : In d1 (decls_of some_attempts)) by (rewrite E; apply in_or_app; right; left; reflexivity).
      exfalso. apply N. cbn in I. destruct I as [<-|[<-|[<-|[]]]]; reflexivity.
  - intros x y [<-|[<-|[<-|[]]]] [<-|[]]; discriminate.
Qed.
