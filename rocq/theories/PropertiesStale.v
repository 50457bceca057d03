(** * C106: A file can be corrected after a potential that is rejected *)
From Coq Require Import String.
From Verif Require Import Base PotentialModel PotentialSpec VariableModel NipModel ParseModel ParseSpec ParseCheck StaleModel StaleSpec StaleProofs StaleProofs2.
Import ListNotations.
Open Scope nat_scope.
Local Open Scope res_scope.

(** What is read when nothing has been left behind: as before. *)
Theorem C106_fresh : forall k1 k2 g t, parse_model k1 k2 g t =
  let* e := parse_after k1 k2 g [] t in Ok (match e with Accepted names m g _ => Some (names, m, g) | _ => None end).
Proof. exact parse_same. Qed.
Print Assumptions C106_fresh.

(** A file with too few numbers or an unknown parent is rejected and leaves the parents. *)
Theorem C106_rejected : forall ds wrong parents c k1 k2, spoilt ds wrong parents -> (c + Z.of_nat (List.length ds) <= LONG_MAX)%Z ->
  exists g, parse_after k1 k2 (fresh_globals c) [] (mkNet ds wrong) = Ok (Rejected g parents).
Proof. intros ds wrong parents c k1 k2 L H. destruct (first_rejected ds wrong parents c k1 k2 L H) as (g & E & _). eauto. Qed.
Print Assumptions C106_rejected.

(** If one of them has more than one state, the corrected file is rejected as well.  Nothing
    undefined happens if the sizes fit into an int, and now its parents are left, too. *)
Theorem C106_once_refuted : forall ds wrong parents t d l c k1 k2,
  spoilt ds wrong parents -> (exists u, In u parents /\ 2 <= card_in (mkNet ds wrong) u) ->
  net_ok t -> n_nodes t = ds -> first_given (n_potentials t) d -> pd_data d = Some l -> List.length l = cells_of t d ->
  same_labels ds -> (c + 2 * Z.of_nat (List.length ds) <= LONG_MAX)%Z ->
  (Z.of_nat (cells_of t d * prod (map (card_in t) parents)) <= INT_MAX)%Z ->
  exists g1 g2, parse_all k1 k2 (fresh_globals c) [] [mkNet ds wrong; t] =
    Ok [Rejected g1 parents; Rejected g2 (parents_of t d ++ parents)].
Proof. exact rejected_again. Qed.
Print Assumptions C106_once_refuted.

(** No correction of the file is accepted after it, however often one is read: the parents are taken for parents of its first potential
    with a bar, and its numbers for too few. *)
Theorem C106_corrected_refuted : forall ds wrong parents c k1 k2 ts es,
  spoilt ds wrong parents -> (exists u, In u parents /\ 2 <= card_in (mkNet ds wrong) u) ->
  (c + Z.of_nat (List.length ds) <= LONG_MAX)%Z -> Forall (corrected ds) ts ->
  parse_all k1 k2 (fresh_globals c) [] (mkNet ds wrong :: ts) = Ok es ->
  List.length es = S (List.length ts) /\ forall e, In e es -> exists g stale, e = Rejected g stale.
Proof.
  intros ds wrong parents c k1 k2 ts es L U H C E. destruct (never_accepted ds wrong parents c k1 k2 ts es L U H C E) as (A & B).
  split; [exact A|]. intros e I. exact (proj1 (Forall_forall _ _) B e I).
Qed.
Print Assumptions C106_corrected_refuted.

(** A number is missing in the file of [px_net], or there is an unknown parent; the file
    itself is then rejected, although a new process accepts it. *)
Definition px_wrong : list pot_decl :=
  match n_potentials px_net with
  | [d1; d2; d3] => [d1; mkDecl (pd_child d2) (pd_parents d2) (option_map (@removelast Qc) (pd_data d2)); d3]
  | _ => []
  end.
Definition px_unknown : list pot_decl :=
  match n_potentials px_net with
  | [d1; d2; d3] => [d1; mkDecl (pd_child d2) (Some ["X0"; "Z"]%string) (pd_data d2); d3]
  | _ => []
  end.
Definition endings (ts : list net) : res (list (option (list nat))) :=
  let* es := parse_all kz kz (fresh_globals 0) [] ts in
  Ok (map (fun e => match e with Rejected _ stale => Some stale | _ => None end) es).
Example C106_case : spoilt (n_nodes px_net) px_wrong [2] /\ spoilt (n_nodes px_net) px_unknown [2] /\
  corrected (n_nodes px_net) px_net /\ card_in (mkNet (n_nodes px_net) px_wrong) 2 = 2 /\
  same_labels (n_nodes px_net) /\ map (cells_of px_net) (n_potentials px_net) = [2; 4; 6] /\
  endings [mkNet (n_nodes px_net) px_wrong; px_net; px_net] = Ok [Some [2]; Some [2; 2]; Some [2; 2; 2]] /\
  endings [mkNet (n_nodes px_net) px_unknown; px_net] = Ok [Some [2]; Some [2; 2]] /\ endings [px_net] = Ok [None].
Proof.
  split; [|split; [|split; [|split; [|split; [|split; [|split; [|split]]]]]]].
  - match eval cbn in (n_potentials px_net) with [?d1; ?d2; ?d3] =>
      match eval cbn in (option_map (@removelast Qc) (pd_data d2)) with Some ?l => exact (few_numbers (n_nodes px_net) [d1] d2 [d3] l [d3] px_ok
        ltac:(repeat constructor) ltac:(discriminate) ltac:(discriminate) ltac:(cbn; lia)) end end.
  - match eval cbn in (n_potentials px_net) with [?d1; ?d2; ?d3] =>
      exact (unknown_parent (n_nodes px_net) [d1] d2 [d3] ["X0"%string] "Z"%string [] (pd_data d2) [d3] px_ok
        ltac:(repeat constructor) ltac:(discriminate) ltac:(intros x [<-|[]]; cbn; auto) ltac:(cbn; intuition discriminate)) end.
  - split; [exact px_ok|]. split; [reflexivity|]. match eval cbn in (n_potentials px_net) with [?d1; ?d2; ?d3] =>
      exists d2; eexists; split; [exists [d1], [d3]; split; [reflexivity|split; [repeat constructor|discriminate]]|split; reflexivity] end.
  - reflexivity.
  - right. intros d [<-|[<-|[<-|[]]]]; discriminate.
  - reflexivity.
  - vm_compute. reflexivity.
  - vm_compute. reflexivity.
  - vm_compute. reflexivity.
Qed.
