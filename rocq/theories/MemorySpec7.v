(** * Specification for Property C96: the memory of nipbenchmark and nipconvert *)
From Verif Require Import Base NipModel ParseModel MemoryModel MemorySpec3 MemoryModel4 MemorySpec4.
Import ListNotations.
Open Scope nat_scope.

(** At least [extra] blocks are allocated in [m] beside those that parsing the
    network file leaves (C92). *)
Definition at_least_left (s : source) (M : NipModel.model) (extra : nat) (m : memory) : Prop :=
  exists leak, leaked (m_jt M) leak /\ ignored s + 11 * length leak + extra <= live m.
