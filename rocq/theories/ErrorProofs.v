(** * Proofs about src/niperrorhandler.c *)
From Verif Require Import Base BaseProofs ErrorModel.
Import ListNotations.
Local Open Scope res_scope.

Lemma handle_app : forall a b h, handle h (a ++ b) = let* h := handle h a in handle h b.
Proof.
  induction a as [|[e|] a IH]; intros b h; cbn [app handle bind]; [reflexivity| |apply IH].
  destruct (report_error h e) as [[h' x]| |]; cbn [bind]; [apply IH|reflexivity|reflexivity].
Qed.

Lemma handle_reports : forall es h, (0 <= e_counter h)%Z ->
  (e_counter h + Z.of_nat (length es) <= INT_MAX)%Z ->
  handle h (map Report es) = Ok (mkHandler (last es (e_code h)) (e_counter h + Z.of_nat (length es))).
Proof.
  induction es as [|e es IH]; intros h H0 H; cbn [map handle length] in *.
  - destruct h as [c n]. cbn. rewrite Z.add_0_r. reflexivity.
  - unfold report_error. destruct (Z.eqb_spec (e_counter h) INT_MAX); [lia|]. cbn [bind].
    rewrite IH; cbn [e_counter e_code]; [|lia|lia]. f_equal. f_equal; [|lia].
    destruct es; [reflexivity|]. cbn [last]. clear. revert z. induction es; intros z; [reflexivity|]. cbn. apply IHes.
Qed.

Lemma handle_ok : forall es h, (0 <= e_counter h)%Z ->
  (e_counter h + Z.of_nat (length es) <= INT_MAX)%Z -> exists h', handle h es = Ok h'.
Proof.
  induction es as [|[e|] es IH]; intros h H0 H; cbn [handle length] in *.
  - eexists. reflexivity.
  - unfold report_error. destruct (Z.eqb_spec (e_counter h) INT_MAX); [lia|]. cbn [bind].
    apply IH; cbn; lia.
  - apply IH; cbn; lia.
Qed.

Lemma C53_lemma : forall before es, (Z.of_nat (length before + length es) <= INT_MAX)%Z ->
  (exists h, handle initial_handler (before ++ Reset :: map Report es) = Ok h /\
     check_error_counter h = Z.of_nat (length es) /\ check_error_type h = last es 0%Z) /\
  (exists h, handle initial_handler (map Report es) = Ok h /\
     check_error_counter h = Z.of_nat (length es) /\ check_error_type h = last es 0%Z).
Proof.
  intros before es H. split.
  - destruct (handle_ok before initial_handler) as (h & E); [cbn; lia|cbn; lia|].
    rewrite handle_app, E. cbn [bind handle]. unfold reset_error_handler.
    rewrite handle_reports by (cbn; lia). eexists. split; [reflexivity|]. cbn. split; reflexivity.
  - rewrite handle_reports by (cbn; lia). eexists. split; [reflexivity|]. cbn. split; reflexivity.
Qed.
