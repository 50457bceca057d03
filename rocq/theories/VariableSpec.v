(** * Vocabulary for the statements about nipvariable.c *)
From Coq Require Import String Ascii.
From Verif Require Import Base VariableModel.
Import ListNotations.
Open Scope nat_scope.

(** One call of nip_new_variable: which allocations succeed and the arguments. *)
Record creation := mkCreation {
  cr_ok1 : bool; cr_ok2 : bool; cr_ok3 : bool;
  cr_symbol : option string;
  cr_states : option (list (option string));
  cr_card : nat
}.

(** A history of calls: the variables created, and the counter at the end. *)
Fixpoint create_all (counter : Z) (calls : list creation)
  : res (list named_variable * Z) :=
  match calls with
  | [] => Ok ([], counter)
  | c :: cs =>
      bind (new_variable counter (cr_ok1 c) (cr_ok2 c) (cr_ok3 c)
              (cr_symbol c) (cr_states c) (cr_card c))
        (fun '(o, counter1) =>
           bind (create_all counter1 cs)
             (fun '(vs, counter2) =>
                Ok (match o with Some v => v :: vs | None => vs end, counter2)))
  end.

