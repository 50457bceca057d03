(** * Properties C29, C30, C54 and C61-C65: reading NET files (src/huginnet.y)

    The specification is in ParseSpec.v.  A file [t : net] is a list of node
    declarations and a list of potential declarations; variables are numbered
    in the order of their declarations.  [net_ok t]: a proper file;
    [parsed t names m]: the model that should come out; [family_of t d],
    [table_of t d]: variables and numbers of a potential declaration;
    [parsed_joint t]: product of what the parser makes of the tables,
    [file_joint t]: product of the tables.  [k1] and [k2] are the costs used in
    triangulation: the theorems hold for all.  [fresh_globals c] are the static
    variables at the start of the process, [c] being the number of variables
    created before. *)
From Coq Require Import Permutation Sorted String.
From Verif Require Import Base PotentialModel PotentialSpec VariableModel JoinTreeModel AssignSpec
  JoinTreeSpec NipModel NipSpec SliceModel SliceSpec LearnSpec GraphModel GraphSpec ParseModel
  ParseSpec ParseProofs ParseProofs8 ParseProofs9 ParseCheck ParseProofs10.
Import ListNotations.
Open Scope nat_scope.
Local Open Scope res_scope.

(** C29.  nip_create_potential: the variables in ascending order, and for every
    assignment the entry of the data for the same assignment, the first of
    [vars] running fastest; all ones without data. *)
Theorem C29_reordered_table : forall card vars dat, NoDup vars -> (forall v, 0 < card v) ->
  (Z.of_nat (prod (map card vars)) <= INT_MAX)%Z ->
  match dat with Some l => prod (map card vars) <= length l | None => True end ->
  exists vs p, Permutation vs vars /\ StronglySorted lt vs /\
    create_potential card vars (length vars) dat = Ok (Some p) /\ table card vs p /\
    forall a, valid card a -> den vs p a =
      match dat with
      | Some l => nth (flat (map card vars) (map a vars)) l 0%Qc
      | None => 1%Qc
      end.
Proof. exact create_potential_ok. Qed.
Print Assumptions C29_reordered_table.

(** C61.  A proper file gives a proper model. *)
Theorem C61_parsed_model : forall t c k1 k2 r, net_ok t -> (c + Z.of_nat (size t) <= LONG_MAX)%Z ->
  parse_model k1 k2 (fresh_globals c) t = Ok r ->
  exists names m g, r = Some (names, m, g) /\ parsed t names m.
Proof. intros t c k1 k2 r H. exact (parse_lemma t H c k1 k2 r). Qed.
Print Assumptions C61_parsed_model.

(** C61.  And parsing succeeds, if the tables of the cliques can be addressed. *)
Theorem C61_parsing_succeeds : forall t c k1 k2, net_ok t -> (c + Z.of_nat (size t) <= LONG_MAX)%Z ->
  cliques_fit k1 k2 t ->
  exists names m g, parse_model k1 k2 (fresh_globals c) t = Ok (Some (names, m, g)) /\ parsed t names m.
Proof. intros t c k1 k2 H. exact (parse_succeeds t H c k1 k2). Qed.
Print Assumptions C61_parsing_succeeds.

(** C61.  As in every file whose joint table can be addressed. *)
Theorem C61_small_files : forall k1 k2 t, net_ok t ->
  (Z.of_nat (prod (map (card_in t) (seq 0 (size t)))) <= INT_MAX)%Z -> cliques_fit k1 k2 t.
Proof. exact small_fits. Qed.
Print Assumptions C61_small_files.

(** C30.  What the model contains after parsing: the product of the tables,
    each normalised over the member of the family that was declared first. *)
Theorem C30_parsed_factors : forall k1 k2 c t names m g, net_ok t -> (c + Z.of_nat (size t) <= LONG_MAX)%Z ->
  parse_model k1 k2 (fresh_globals c) t = Ok (Some (names, m, g)) ->
  forall a, valid (card_in t) a -> (original m a * priors m (m_indep m) a)%Qc = parsed_joint t a.
Proof. exact C30_factors_lemma. Qed.
Print Assumptions C30_parsed_factors.

(** C30.  Conditional distributions enter the model unchanged if every node is
    declared before its parents.  Missing: the other orders of declaration,
    for which the claim is false (next theorem). *)
Theorem C30_distributions_kept_partial : forall k1 k2 c t names m g, net_ok t -> children_first t -> proper t ->
  (c + Z.of_nat (size t) <= LONG_MAX)%Z ->
  parse_model k1 k2 (fresh_globals c) t = Ok (Some (names, m, g)) ->
  forall a, valid (card_in t) a -> (original m a * priors m (m_indep m) a)%Qc = file_joint t a.
Proof. exact C30_lemma. Qed.
Print Assumptions C30_distributions_kept_partial.

Theorem C30_declaration_order_refuted : exists t names m g a, net_ok t /\ proper t /\
  parse_model kz kz (fresh_globals 0) t = Ok (Some (names, m, g)) /\ valid (card_in t) a /\
  (original m a * priors m (m_indep m) a)%Qc <> file_joint t a.
Proof. exact C30_refuted_lemma. Qed.
Print Assumptions C30_declaration_order_refuted.

(** C54.  Bits 2, 1 and 0 of the interface status are old outgoing, outgoing
    and incoming. *)
Theorem C54_interfaces : forall k1 k2 c t vl m g, net_ok t -> (c + Z.of_nat (size t) <= LONG_MAX)%Z ->
  yyparse k1 k2 (fresh_globals c) t = Ok (Some (vl, m, g)) ->
  length vl = size t /\
  forall v x, nth_error vl v = Some x ->
    (Nat.testbit (pv_iface x) 2 = true <-> old_outgoing t v) /\
    (Nat.testbit (pv_iface x) 1 = true <-> outgoing t v) /\
    (Nat.testbit (pv_iface x) 0 = true <-> incoming t v) /\
    pv_next x = next_in t v /\ (forall u, pv_previous x = Some u <-> next_in t u = Some v).
Proof. exact C54_lemma. Qed.
Print Assumptions C54_interfaces.

(** C62.  A parsed model meets the conditions of the theorems about learning
    (C43-C47, C56-C57), and its slices are conditional distributions. *)
Theorem C62_ready_for_learning : forall t names m, net_ok t -> acyclic t -> two_slices t ->
  parsed t names m -> learnable (card_in t) m.
Proof. intros t names m H A T. exact (parsed_learnable t H A T names m). Qed.
Print Assumptions C62_ready_for_learning.

Theorem C62_conditional_slices : forall t names m, net_ok t -> children_first t -> roots_given t ->
  acyclic t -> two_slices t -> columns_ok t ->
  parsed t names m -> conditional_slices (card_in t) m.
Proof. intros t names m H A B C D E. exact (parsed_conditional t H A B C D E names m). Qed.
Print Assumptions C62_conditional_slices.

(** C63.  After a successful parse every proper file leads to the use of freed
    memory. *)
Theorem C63_second_file_refuted : forall k1 k2 k1' k2' c t t' names m g', net_ok t -> net_ok t' ->
  (c + Z.of_nat (size t) + Z.of_nat (size t') <= LONG_MAX)%Z ->
  parse_model k1 k2 (fresh_globals c) t = Ok (Some (names, m, g')) ->
  parse_model k1' k2' g' t' = UB.
Proof. exact second_parse_ub. Qed.
Print Assumptions C63_second_file_refuted.

(** C64.  A node without label after a node with label leads to the use of
    freed memory, whatever else the file contains. *)
Theorem C64_labels_optional_refuted : forall k1 k2 c t d1 d2 l, n_nodes t = d1 :: d2 :: l ->
  nd_label d1 <> None -> nd_label d2 = None -> states d1 <> [] -> states d2 <> [] -> (c < LONG_MAX)%Z ->
  parse_model k1 k2 (fresh_globals c) t = UB.
Proof. exact label_lemma. Qed.
Print Assumptions C64_labels_optional_refuted.

(** C65.  From the file to the posterior: parse, enter the priors, insert
    observations by name, propagate, ask. *)
Theorem C65_posterior_of_the_file : forall t names m obs, net_ok t -> children_first t -> proper t ->
  parsed t names m -> observations_ok t obs ->
  exists m1 m2,
    run names m (Priors false :: map (fun o => Insert (Hard (fst o) (snd o))) obs) = Ok m1 /\
    make_consistent_model m1 = Ok m2 /\
    (forall v, v < size t -> exists m3 r, get_probability m2 v = Ok (m3, Some r) /\ length r = card_in t v /\
       forall x, x < card_in t v ->
         nth x r 0%Qc = (mass_where t (file_joint t) obs v x / mass t (file_joint t) obs)%Qc) /\
    exists m3, model_prob_mass m2 = Ok (m3, mass t (file_joint t) obs).
Proof. exact C65_lemma. Qed.
Print Assumptions C65_posterior_of_the_file.

(** ** Cases *)

(** Three variables in the order 2, 0, 1 with 2, 3 and 2 states. *)
Example C29_case : let card := fun v => if Nat.eqb v 0 then 3 else 2 in
  NoDup [2; 0; 1] /\ (forall v, 0 < card v) /\ (Z.of_nat (prod (map card [2; 0; 1]%nat)) <= INT_MAX)%Z /\
  match create_potential card [2; 0; 1] 3 (Some (map (fun i => Q2Qc (QArith_base.inject_Z (Z.of_nat i))) (seq 0 12))) with
  | Ok (Some p) => dims p = [3; 2; 2] /\
      map this (data p) = map (fun i => QArith_base.inject_Z (Z.of_nat i)) [0; 2; 4; 6; 8; 10; 1; 3; 5; 7; 9; 11]
  | _ => False
  end.
Proof.
  split; [repeat constructor; cbn; intuition discriminate|]. split; [intros v; destruct (Nat.eqb v 0); lia|].
  split; [vm_compute; discriminate|]. vm_compute. split; reflexivity.
Qed.

Example C61_case : net_ok px_net /\ cliques_fit kz kz px_net /\ (0 + Z.of_nat (size px_net) <= LONG_MAX)%Z /\
  match parse_model kz kz (fresh_globals 0) px_net with
  | Ok (Some (names, m, _)) =>
      map symbol_of names = symbols px_net /\ map c_vars (cls (m_jt m)) = [[0; 1]; [1; 2]] /\
      m_prev m = [2] /\ m_out m = [1] /\ m_indep m = [2] /\ m_children m = [0; 1]
  | _ => False
  end.
Proof. split; [apply px_ok|]. split; [apply px_fits|]. split; [vm_compute; discriminate|]. vm_compute. repeat split; reflexivity. Qed.

Example C30_case : net_ok px_net /\ children_first px_net /\ proper px_net.
Proof. split; [apply px_ok|]. split; [apply px_children_first|apply px_proper]. Qed.

(** The one variable of the previous slice, and its successor. *)
Example C54_case : match yyparse kz kz (fresh_globals 0) px_net with
  | Ok (Some (vl, _, _)) => map pv_iface vl = [0; 3; 4]
  | _ => False
  end.
Proof. vm_compute. reflexivity. Qed.

Example C62_case : net_ok px_net /\ children_first px_net /\ roots_given px_net /\ acyclic px_net /\
  two_slices px_net /\ columns_ok px_net /\ exists names m, parsed px_net names m.
Proof.
  split; [apply px_ok|]. split; [apply px_children_first|]. split; [apply px_roots|]. split; [apply px_acyclic|].
  split; [apply px_two_slices|]. split; [apply px_columns|].
  destruct (C61_parsing_succeeds px_net 0 kz kz px_ok) as (names & m & g & _ & P); [vm_compute; discriminate|apply px_fits|]. eauto.
Qed.

Example C63_case : match parse_model kz kz (fresh_globals 0) px_net with
  | Ok (Some (_, _, g)) => parse_model kz kz g px_net = UB
  | _ => False
  end.
Proof. vm_compute. reflexivity. Qed.

Example C64_case : parse_model kz kz (fresh_globals 0)
  (mkNet [mkNode "A" (Some "first") (Some ["yes"; "no"]) None; mkNode "B" None (Some ["yes"; "no"]) None]%string
     [mkDecl "A" None None; mkDecl "B" None None]%string) = UB.
Proof. vm_compute. reflexivity. Qed.

Example C65_case : (exists names m, parsed px_net names m) /\
  observations_ok px_net [("Y", "off"); ("X0", "a")]%string /\
  this (mass px_net (file_joint px_net) [("Y", "off"); ("X0", "a")]%string) = QArith_base.Qmake 11 160.
Proof. split; [apply C62_case|]. split; [apply px_observations|]. vm_compute. reflexivity. Qed.
