(** * Properties of potentials (C01 - C12)

    The vocabulary ([wf], [valid_ix], [cell], [marg], [total], [map_ok],
    [colsum]) is defined in PotentialSpec.v without reference to the code. *)
From Coq Require Import QArith_base.
From Verif Require Import Base BaseProofs PotentialModel PotentialSpec
  PotentialProofs PotentialProofs2 PotentialProofs3 PotentialProofs4.
Import ListNotations.
Open Scope nat_scope.

(** A concrete table used to show that hypotheses can be met: two dimensions,
    cardinalities 2 and 3. *)
Definition ex23 : potential :=
  mkPot [2; 3] (map (fun n => Q2Qc (inject_Z (Z.of_nat n))) [1; 2; 3; 4; 5; 6]).
(** A table with a zero column. *)
Definition ex22z : potential :=
  mkPot [2; 2] (map (fun n => Q2Qc (inject_Z (Z.of_nat n))) [0; 0; 1; 3]).
Definition ex3 : potential := mkPot [3] (repeat 1%Qc 3).
Definition q (n : Z) : Qc := Q2Qc (inject_Z n).
(** Results are compared through the underlying rationals. *)
Definition shown (r : res (potential * code)) : option (list nat * list Q * code) :=
  match r with Ok (p, c) => Some (dims p, map this (data p), c) | _ => None end.
Definition shown_o (r : res (option potential * code)) : option (list nat * list Q * code) :=
  match r with Ok (Some p, c) => Some (dims p, map this (data p), c) | _ => None end.

Example ex23_wf : wf ex23.
Proof. repeat split; simpl; try (repeat constructor; lia). unfold INT_MAX; lia. Qed.
Example ex22z_wf : wf ex22z.
Proof. repeat split; simpl; try (repeat constructor; lia). unfold INT_MAX; lia. Qed.
Example ex3_wf : wf ex3.
Proof. repeat split; simpl; try (repeat constructor; lia). unfold INT_MAX; lia. Qed.

(** ** C01 *)
Theorem C01_set_then_get : forall p ix v, wf p -> valid_ix (dims p) ix ->
  exists p', set_potential_value p ix v = Ok p' /\
    get_potential_value p' ix = Ok v /\
    (forall jx, valid_ix (dims p) jx -> jx <> ix ->
       exists x, get_potential_value p jx = Ok x /\ get_potential_value p' jx = Ok x).
Proof. exact C01_set_then_get_lemma. Qed.
Print Assumptions C01_set_then_get.

Example C01_set_then_get_ex : valid_ix (dims ex23) [1; 2] /\
  (exists p', set_potential_value ex23 [1; 2] (q 9) = Ok p' /\
     map this (data p') = map this (map q [1; 2; 3; 4; 5; 9]%Z)).
Proof. split; [repeat constructor|]. eexists; split; vm_compute; reflexivity. Qed.

Theorem C01_inverse_mapping : forall p k scratch, wf p -> k < size_of_data p ->
  length scratch = dimensionality p ->
  exists ix, inverse_mapping p k scratch = Ok ix /\ valid_ix (dims p) ix /\
    get_potential_pointer p ix = Ok k /\
    (forall jx, valid_ix (dims p) jx -> get_potential_pointer p jx = Ok k -> jx = ix).
Proof. exact C01_inverse_mapping_lemma. Qed.
Print Assumptions C01_inverse_mapping.

Example C01_inverse_mapping_ex : 4 < size_of_data ex23 /\
  inverse_mapping ex23 4 [7; 7] = Ok [0; 2].
Proof. split; vm_compute; [lia|reflexivity]. Qed.

(** ** C02 *)
Theorem C02_marginalise : forall src dst m, wf src -> wf dst ->
  map_ok m (dims src) (dims dst) -> dimensionality dst <= dimensionality src ->
  exists dst', general_marginalise src dst m = Ok (dst', NO_ERROR) /\
    dims dst' = dims dst /\ wf dst' /\
    forall ix, valid_ix (dims dst) ix ->
      cell dst' ix =
      qsum (map (cell src) (filter (fun jx => ix_eqb (sel m jx) ix) (all_ix (dims src)))).
Proof. exact general_marginalise_ok. Qed.
Print Assumptions C02_marginalise.

Theorem C02_marginalise_scalar : forall src dst m, wf src -> wf dst -> dims dst = [] ->
  exists dst', general_marginalise src dst m = Ok (dst', NO_ERROR) /\
    dims dst' = [] /\ cell dst' [] = total src.
Proof. exact C02_marginalise_scalar_lemma. Qed.
Print Assumptions C02_marginalise_scalar.

Theorem C02_marginalise_rejects : forall src dst m,
  dimensionality src < dimensionality dst ->
  general_marginalise src dst m = Ok (dst, EINVAL).
Proof. exact general_marginalise_rejects. Qed.
Print Assumptions C02_marginalise_rejects.

Example C02_ex : map_ok [1] (dims ex23) (dims ex3) /\ dimensionality ex3 <= dimensionality ex23 /\
  shown (general_marginalise ex23 ex3 [1]) = Some ([3], map this (map q [3; 7; 11]%Z), NO_ERROR) /\
  shown (general_marginalise ex23 (mkPot [] [q 5]) []) = Some ([], map this [q 21], NO_ERROR) /\
  dimensionality ex3 < dimensionality ex23.
Proof. repeat split; try (vm_compute; reflexivity); simpl; try lia; repeat constructor. Qed.

(** ** C03 *)
Theorem C03_mass_conserved : forall src dst m, wf src -> wf dst ->
  map_ok m (dims src) (dims dst) -> dimensionality dst <= dimensionality src ->
  exists dst', general_marginalise src dst m = Ok (dst', NO_ERROR) /\ total dst' = total src.
Proof. exact C03_mass_conserved_lemma. Qed.
Print Assumptions C03_mass_conserved.

(** Marginalising p to q' and q' to r' gives the same table as marginalising p
    directly with the composed mapping. *)
Theorem C03_two_steps : forall p q r m1 m2, wf p -> wf q -> wf r ->
  map_ok m1 (dims p) (dims q) -> map_ok m2 (dims q) (dims r) ->
  dimensionality q <= dimensionality p -> dimensionality r <= dimensionality q ->
  exists q' r', general_marginalise p q m1 = Ok (q', NO_ERROR) /\
    general_marginalise q' r m2 = Ok (r', NO_ERROR) /\
    general_marginalise p r (sel m2 m1) = Ok (r', NO_ERROR).
Proof. exact C03_two_steps_lemma. Qed.
Print Assumptions C03_two_steps.

Example C03_ex : exists p q r m1 m2, wf p /\ wf q /\ wf r /\
  map_ok m1 (dims p) (dims q) /\ map_ok m2 (dims q) (dims r) /\
  dimensionality q <= dimensionality p /\ dimensionality r <= dimensionality q /\ m1 <> [0; 1].
Proof.
  exists ex23, (mkPot [3; 2] (repeat 1%Qc 6)), ex3, [1; 0], [0].
  repeat split; simpl; try lia; try discriminate; try (repeat constructor; lia); unfold INT_MAX; lia.
Qed.

(** ** C04 *)
Theorem C04_total_marginalise : forall src dest v, wf src -> v < dimensionality src ->
  nth v (dims src) 0 <= length dest ->
  exists dest', total_marginalise src dest (Z.of_nat v) = Ok (dest', NO_ERROR) /\
    length dest' = length dest /\
    (forall i, i < nth v (dims src) 0 -> nth i dest' 0%Qc =
       qsum (map (cell src) (filter (fun jx => Nat.eqb (nth v jx 0) i) (all_ix (dims src))))) /\
    (forall i, nth v (dims src) 0 <= i -> nth i dest' 0%Qc = nth i dest 0%Qc).
Proof. exact C04_total_marginalise_lemma. Qed.
Print Assumptions C04_total_marginalise.

Theorem C04_agrees_with_general : forall src dst dest v, wf src -> wf dst ->
  v < dimensionality src -> dims dst = [nth v (dims src) 0] ->
  length dest = nth v (dims src) 0 ->
  exists dst', general_marginalise src dst [v] = Ok (dst', NO_ERROR) /\
    total_marginalise src dest (Z.of_nat v) = Ok (data dst', NO_ERROR).
Proof. exact C04_agrees_lemma. Qed.
Print Assumptions C04_agrees_with_general.

Theorem C04_rejects : forall src dest v,
  (v < 0 \/ Z.of_nat (dimensionality src) <= v)%Z ->
  total_marginalise src dest v = Ok (dest, EINVAL).
Proof. exact total_marginalise_rejects. Qed.
Print Assumptions C04_rejects.

Example C04_ex : 1 < dimensionality ex23 /\ nth 1 (dims ex23) 0 <= length (repeat 0%Qc 3) /\
  match total_marginalise ex23 (repeat 0%Qc 3) 1 with
  | Ok (d, c) => (map this d, c) = (map this (map q [3; 7; 11]%Z), NO_ERROR) | _ => False end.
Proof. repeat split; simpl; try lia; vm_compute; reflexivity. Qed.

(** ** C05 *)
(** New value of a target cell: [absorb1] written out. *)
Theorem C05_update : forall num den target m,
  wf target -> (num <> None \/ den <> None) ->
  (forall n, num = Some n -> wf n /\ map_ok m (dims target) (dims n)) ->
  (forall d, den = Some d -> wf d /\ map_ok m (dims target) (dims d)) ->
  length m <= dimensionality target ->
  exists t', update_potential num den target m = Ok (t', NO_ERROR) /\
    dims t' = dims target /\ wf t' /\
    forall ix, valid_ix (dims target) ix ->
      let factor := match num with Some n => cell n (sel m ix) | None => 1%Qc end in
      match den with
      | None => cell t' ix = (cell target ix * factor)%Qc
      | Some d =>
          (cell d (sel m ix) = 0%Qc -> cell t' ix = 0%Qc) /\
          (cell d (sel m ix) <> 0%Qc -> cell t' ix = (cell target ix * factor / cell d (sel m ix))%Qc)
      end.
Proof. exact C05_update_lemma. Qed.
Print Assumptions C05_update.

Theorem C05_rejects : forall num den target m,
  (num = None /\ den = None) \/
  (exists n d, num = Some n /\ den = Some d /\
     (dimensionality n <> dimensionality d \/ dimensionality target < dimensionality n)) ->
  update_potential num den target m = Ok (target, EINVAL).
Proof. exact update_potential_rejects. Qed.
Print Assumptions C05_rejects.

Example C05_ex : wf ex3 /\ map_ok [1] (dims ex23) (dims ex3) /\ length [1] <= dimensionality ex23 /\
  shown (update_potential (Some (mkPot [3] [q 1; q 2; q 3])) (Some (mkPot [3] [q 0; q 1; q 3])) ex23 [1])
   = Some ([2; 3], map this (map q [0; 0; 6; 8; 5; 6]%Z), NO_ERROR).
Proof. repeat split; simpl; try lia; try (repeat constructor; lia); try (vm_compute; reflexivity). unfold INT_MAX; lia. Qed.

(** ** C06 *)
Theorem C06_absorb : forall target num den m, wf target -> wf num -> wf den ->
  map_ok m (dims target) (dims num) -> dims den = dims num -> length m <= dimensionality target ->
  (forall ix, valid_ix (dims num) ix ->
     cell den ix = qsum (map (cell target) (filter (fun jx => ix_eqb (sel m jx) ix) (all_ix (dims target))))) ->
  (forall ix, valid_ix (dims num) ix -> cell den ix = 0%Qc -> cell num ix = 0%Qc) ->
  exists t' s', update_potential (Some num) (Some den) target m = Ok (t', NO_ERROR) /\
    general_marginalise t' den m = Ok (s', NO_ERROR) /\ s' = num.
Proof. exact C06_absorb_lemma. Qed.
Print Assumptions C06_absorb.

Example C06_ex : wf ex22z /\ map_ok [1] (dims ex22z) [2] /\
  let den := mkPot [2] [q 0; q 4] in let num := mkPot [2] [q 0; q 2] in
  forallb (fun ix => Qeq_bool (cell den ix)
     (qsum (map (cell ex22z) (filter (fun jx => ix_eqb (sel [1] jx) ix) (all_ix [2; 2]))))) (all_ix [2]) = true /\
  shown (update_potential (Some num) (Some den) ex22z [1]) =
    Some ([2; 2], [this 0%Qc; this 0%Qc; (1 # 2)%Q; (3 # 2)%Q], NO_ERROR).
Proof. split; [exact ex22z_wf|]. repeat split; try (vm_compute; reflexivity). repeat constructor. Qed.

(** ** C07 *)
Theorem C07_normalise_array : forall l,
  exists l', normalise_array l (length l) = Ok l' /\ length l' = length l /\
    (qsum l = 0%Qc -> l' = l) /\
    (qsum l <> 0%Qc -> qsum l' = 1%Qc /\ forall i, nth i l' 0%Qc = (nth i l 0 / qsum l)%Qc) /\
    normalise_array l' (length l') = Ok l'.
Proof. exact C07_normalise_array_lemma. Qed.
Print Assumptions C07_normalise_array.

Theorem C07_normalise_potential : forall p, wf p ->
  exists p', normalise_potential (Some p) = Ok (Some p', NO_ERROR) /\ dims p' = dims p /\ wf p' /\
    (total p = 0%Qc -> p' = p) /\
    (total p <> 0%Qc -> total p' = 1%Qc /\
       forall ix, valid_ix (dims p) ix -> cell p' ix = (cell p ix / total p)%Qc) /\
    normalise_potential (Some p') = Ok (Some p', NO_ERROR).
Proof. exact C07_normalise_potential_lemma. Qed.
Print Assumptions C07_normalise_potential.

Example C07_ex : wf ex23 /\ total ex23 <> 0%Qc /\ total (mkPot [2] [q 1; q (-1)]) = 0%Qc /\
  shown_o (normalise_potential (Some ex3)) = Some ([3], [(1 # 3)%Q; (1 # 3)%Q; (1 # 3)%Q], NO_ERROR).
Proof.
  split; [exact ex23_wf|]. repeat split; try (vm_compute; reflexivity).
  intros H. apply (f_equal this) in H. vm_compute in H. discriminate.
Qed.

(** ** C08 *)
Theorem C08_normalise_cpd : forall p, wf p -> 0 < dimensionality p ->
  exists p', normalise_cpd (Some p) = Ok (Some p', NO_ERROR) /\ dims p' = dims p /\ wf p' /\
    (forall t, valid_ix (tl (dims p)) t ->
       (colsum p t = 0%Qc -> forall j, j < hd 1 (dims p) -> cell p' (j :: t) = cell p (j :: t)) /\
       (colsum p t <> 0%Qc -> colsum p' t = 1%Qc /\
          forall j, j < hd 1 (dims p) -> cell p' (j :: t) = (cell p (j :: t) / colsum p t)%Qc)) /\
    normalise_cpd (Some p') = Ok (Some p', NO_ERROR).
Proof. exact C08_normalise_cpd_lemma. Qed.
Print Assumptions C08_normalise_cpd.

Example C08_ex : wf ex22z /\ 0 < dimensionality ex22z /\
  shown_o (normalise_cpd (Some ex22z)) =
    Some ([2; 2], [this 0%Qc; this 0%Qc; (1 # 4)%Q; (3 # 4)%Q], NO_ERROR).
Proof. split; [exact ex22z_wf|]. split; vm_compute; [lia|reflexivity]. Qed.

(** ** C09: the documented equality does not hold *)
Theorem C09_normalise_dimension_refuted :
  exists p, wf p /\ 0 < dimensionality p /\
    exists p1 p2, normalise_dimension (Some p) 0 = Ok (Some p1, NO_ERROR) /\
      normalise_cpd (Some p) = Ok (Some p2, NO_ERROR) /\ p1 <> p2 /\
      colsum p1 [0] <> 1%Qc.
Proof. exact C09_refuted_lemma. Qed.
Print Assumptions C09_normalise_dimension_refuted.

(** What it does instead: it divides by the marginal of the chosen variable. *)
Theorem C09_normalise_dimension_partial : forall p k, wf p -> k < dimensionality p ->
  exists p', normalise_dimension (Some p) (Z.of_nat k) = Ok (Some p', NO_ERROR) /\
    dims p' = dims p /\ wf p' /\
    forall ix, valid_ix (dims p) ix ->
      let s := qsum (map (cell p) (filter (fun jx => Nat.eqb (nth k jx 0) (nth k ix 0)) (all_ix (dims p)))) in
      (s = 0%Qc -> cell p' ix = 0%Qc) /\ (s <> 0%Qc -> cell p' ix = (cell p ix / s)%Qc).
Proof. exact C09_partial_lemma. Qed.
Print Assumptions C09_normalise_dimension_partial.

Example C09_ex : wf ex23 /\ 1 < dimensionality ex23.
Proof. split; [exact ex23_wf|vm_compute; lia]. Qed.

(** ** C10 *)
Theorem C10_copy : forall p, wf p -> copy_potential (Some p) = Ok (Some p).
Proof. exact copy_ok. Qed.
Print Assumptions C10_copy.

(** A fresh potential has the given shape; its cells are one, or the given
    data in row order (first dimension fastest). *)
Theorem C10_new : forall cs init, Forall (fun d => 0 < d) cs -> (Z.of_nat (prod cs) <= INT_MAX)%Z ->
  (forall l, init = Some l -> length l = prod cs) ->
  exists p, new_potential cs (Z.of_nat (length cs)) init = Ok (Some p) /\ wf p /\ dims p = cs /\
    (init = None -> forall ix, valid_ix cs ix -> cell p ix = 1%Qc) /\
    (forall l, init = Some l -> data p = l).
Proof. exact C10_new_lemma. Qed.
Print Assumptions C10_new.

Theorem C10_new_rejects : forall cs n init, (n < 0)%Z -> new_potential cs n init = Ok None.
Proof. exact C10_new_rejects_lemma. Qed.
Print Assumptions C10_new_rejects.

Theorem C10_retract : forall p ref, wf p -> wf ref ->
  (dims p = dims ref -> retract_potential p ref = Ok (ref, NO_ERROR)) /\
  (dims p <> dims ref -> retract_potential p ref = Ok (p, EINVAL)).
Proof. exact C10_retract_lemma. Qed.
Print Assumptions C10_retract.

Example C10_ex : wf ex23 /\ wf ex3 /\ dims ex23 <> dims ex3 /\
  (exists p, wf p /\ dims p = dims ex23 /\ p <> ex23).
Proof.
  split; [exact ex23_wf|]. split; [exact ex3_wf|]. split; [discriminate|].
  exists (mkPot [2; 3] (repeat 1%Qc 6)). repeat split; simpl; try (repeat constructor; lia); try (unfold INT_MAX; lia).
  intros H. apply (f_equal (fun p => map this (data p))) in H. vm_compute in H. discriminate.
Qed.

(** ** C11 *)
Theorem C11_update_evidence : forall num den target v, wf target -> v < dimensionality target ->
  length num = nth v (dims target) 0 ->
  (forall d, den = Some d -> length d = nth v (dims target) 0) ->
  exists t', update_evidence num den target v = Ok t' /\ dims t' = dims target /\ wf t' /\
    forall ix, valid_ix (dims target) ix ->
      let y := nth (nth v ix 0) num 0%Qc in
      match den with
      | None => cell t' ix = (cell target ix * y)%Qc
      | Some d => let z := nth (nth v ix 0) d 0%Qc in
          (z = 0%Qc -> cell t' ix = (cell target ix * y)%Qc) /\
          (z <> 0%Qc -> cell t' ix = (cell target ix * y / z)%Qc)
      end.
Proof. exact C11_update_evidence_lemma. Qed.
Print Assumptions C11_update_evidence.

Theorem C11_replace_evidence : forall e1 e2 target v, wf target -> v < dimensionality target ->
  length e1 = nth v (dims target) 0 -> length e2 = nth v (dims target) 0 ->
  (forall i, nth i e1 0%Qc = 0%Qc -> nth i e2 0%Qc = 0%Qc) ->
  exists t1 t2, update_evidence e1 None target v = Ok t1 /\
    update_evidence e2 (Some e1) t1 v = Ok t2 /\
    update_evidence e2 None target v = Ok t2.
Proof. exact C11_replace_evidence_lemma. Qed.
Print Assumptions C11_replace_evidence.

Example C11_ex : wf ex23 /\ 1 < dimensionality ex23 /\ length [q 1; q 0; q 2] = nth 1 (dims ex23) 0 /\
  (forall i, nth i [q 1; q 0; q 2] 0%Qc = 0%Qc -> nth i [q 5; q 0; q 0] 0%Qc = 0%Qc).
Proof.
  split; [exact ex23_wf|]. split; [vm_compute; lia|]. split; [reflexivity|].
  intros [|[|[|i]]]; simpl; intros H; auto;
    try (apply (f_equal this) in H; vm_compute in H; discriminate); try (destruct i; auto).
Qed.

(** ** C12 *)
Theorem C12_init_mapped : forall probs target m, wf target -> wf probs ->
  map_ok m (dims target) (dims probs) -> 0 < dimensionality probs ->
  exists t', init_potential probs target (Some m) = Ok (t', NO_ERROR) /\
    dims t' = dims target /\ wf t' /\
    forall ix, valid_ix (dims target) ix ->
      cell t' ix = (cell target ix * cell probs (sel m ix))%Qc.
Proof. exact init_potential_ok. Qed.
Print Assumptions C12_init_mapped.

Theorem C12_init_unmapped : forall probs target, wf target -> wf probs ->
  (dims probs = dims target ->
    exists t', init_potential probs target None = Ok (t', NO_ERROR) /\ dims t' = dims target /\ wf t' /\
      forall ix, valid_ix (dims target) ix -> cell t' ix = (cell target ix * cell probs ix)%Qc) /\
  (length (data probs) <> length (data target) ->
    init_potential probs target None = Ok (target, EFAULT)).
Proof. exact C12_init_unmapped_lemma. Qed.
Print Assumptions C12_init_unmapped.

Example C12_ex : wf ex23 /\ wf ex3 /\ map_ok [1] (dims ex23) (dims ex3) /\ 0 < dimensionality ex3 /\
  length (data ex3) <> length (data ex23) /\ dims ex23 = dims ex23.
Proof. split; [exact ex23_wf|]. split; [exact ex3_wf|]. repeat split; simpl; try lia; repeat constructor. Qed.
