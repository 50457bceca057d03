(** * Model of src/niperrorhandler.c *)
From Verif Require Import Base.
Import ListNotations.
Local Open Scope res_scope.

(** The static variables NIP_ERROR_CODE and NIP_ERROR_COUNTER, niperrorhandler.c
    26-30, which start as 0. *)
Record handler := mkHandler { e_code : Z; e_counter : Z }.
Definition initial_handler : handler := mkHandler 0 0.

(** nip_report_error, niperrorhandler.c 32-57, without the message printed if
    [verbose]; returns its argument [error].  Incrementing INT_MAX is
    undefined. *)
Definition report_error (h : handler) (error : Z) : res (handler * Z) :=
  if (e_counter h =? INT_MAX)%Z then UB
  else Ok (mkHandler error (e_counter h + 1), error).

(** nip_reset_error_handler, niperrorhandler.c 59-62. *)
Definition reset_error_handler (h : handler) : handler := mkHandler 0 0.

(** nip_check_error_type, niperrorhandler.c 64-66. *)
Definition check_error_type (h : handler) : Z := e_code h.

(** nip_check_error_counter, niperrorhandler.c 68-70. *)
Definition check_error_counter (h : handler) : Z := e_counter h.

(** A history of calls. *)
Inductive event := Report (error : Z) | Reset.
Fixpoint handle (h : handler) (es : list event) : res handler :=
  match es with
  | [] => Ok h
  | Report e :: r => let* (h, _) := report_error h e in handle h r
  | Reset :: r => handle (reset_error_handler h) r
  end.
