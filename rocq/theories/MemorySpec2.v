(** * Specification for Property C89: the memory of data files

    A user reads a file and later frees the series and their array, as
    util/niptrain.c 265-267 does. *)
From Verif Require Import Base MemoryModel.
Import ListNotations.
Open Scope nat_scope.
Local Open Scope res_scope.

(** The blocks that are allocated, and what they contain, are the same. *)
Definition same_memory (m m' : memory) : Prop :=
  forall a b, nth_error m' a = Some (Some b) <-> nth_error m a = Some (Some b).

(** What was allocated is still there, with the same contents. *)
Definition keeps (m m' : memory) : Prop :=
  forall a b, nth_error m a = Some (Some b) -> nth_error m' a = Some (Some b).

(** free_timeseries for each of the [n] series of the array, then the array. *)
Definition release (m : memory) (results : option nat) (n : nat) : res memory :=
  let* m := for_up 0 n (fun i m => let* y := ptr m results i in free_timeseries m y) m in
  free m results.
