(** * Rounded arithmetic: the theorems of C87 *)
From Coq Require Import ZArith QArith Qcanon Lia String.
From Verif Require Import Base BaseProofs PotentialModel PotentialSpec VariableModel JoinTreeModel AssignSpec
  JoinTreeSpec NipModel NipSpec SliceModel SliceSpec SliceProofs3 SliceProofs4 RoundModel RoundSpec RoundSpec2
  RoundProofs RoundProofs2 RoundProofs3 RoundProofs10 RoundProofs11 RoundProofs12 RoundProofs14.
Import ListNotations.
Open Scope nat_scope.
Local Open Scope list_scope.
Local Open Scope res_scope.

Lemma C87_filtering_lemma : forall u rnd card N m ts vars m' results,
  (0 <= u)%Qc -> (u < 1)%Qc -> rounding u rnd ->
  slices_ok card m -> series_ok m ts -> defined card m ts -> cliques_within card (m_jt m) N ->
  (forall v, In v vars -> v < length (m_vars m)) ->
  r_forward_inference rnd m ts vars = Ok (m', results) ->
  length results = length (ts_data ts) /\
  forall t, t < length (ts_data ts) -> length (nth t results []) = length vars /\
    forall i, i < length vars -> length (nth i (nth t results []) []) = card (nth i vars 0) /\
      forall x, x < card (nth i vars 0) ->
        near u (2 * (S t * slice_error m ts N) + card (nth i vars 0) + 1)
          (posterior_at card m ts (S t) (S t) t (nth i vars 0) x) (nth x (nth i (nth t results []) []) 0%Qc).
Proof.
  intros u rnd card N m ts vars m' results H0 H1 HR HM HT HD HW HV E.
  pose proof (totalised_near u rnd H0 H1 HR) as Hfl.
  apply (le_r_forward_inference rnd _ (totalised_le rnd)) in E.
  destruct (r_forward_ok u _ H0 H1 Hfl card N m ts HM HT HW vars HV HD) as (m2 & rs & E2 & _ & _ & (R1 & R2)).
  rewrite E in E2. injection E2 as <- <-. split; [exact R1|]. intros t Ht. destruct (R2 t Ht) as ((S1 & S2) & P).
  split; [exact S1|]. intros i Hi. split; [exact (S2 i Hi)|]. intros x Hx.
  rewrite filter_eq; [exact (P i x Hi Hx)|exact HM| |exact Hx]. apply HV. now apply nth_In.
Qed.

Lemma C87_smoothing_lemma : forall u rnd card N m ts vars m' results,
  (0 <= u)%Qc -> (u < 1)%Qc -> rounding u rnd ->
  slices_ok card m -> series_ok m ts -> defined card m ts -> cliques_within card (m_jt m) N ->
  (forall v, In v vars -> v < length (m_vars m)) ->
  r_forward_backward_inference rnd m ts vars = Ok (m', results) ->
  length results = length (ts_data ts) /\
  forall t, t < length (ts_data ts) -> length (nth t results []) = length vars /\
    forall i, i < length vars -> length (nth i (nth t results []) []) = card (nth i vars 0) /\
      forall x, x < card (nth i vars 0) ->
        near u (2 * (length (ts_data ts) * slice_error m ts N) + card (nth i vars 0) + 1)
          (posterior_at card m ts (length (ts_data ts)) (length (ts_data ts)) t (nth i vars 0) x)
          (nth x (nth i (nth t results []) []) 0%Qc).
Proof.
  intros u rnd card N m ts vars m' results H0 H1 HR HM HT HD HW HV E.
  pose proof (totalised_near u rnd H0 H1 HR) as Hfl.
  apply (le_r_forward_backward_inference rnd _ (totalised_le rnd)) in E.
  destruct (r_forward_backward_ok u _ H0 H1 Hfl card N m ts HM HT HW vars HV HD) as (m2 & rs & E2 & _ & _ & (R1 & R2)).
  rewrite E in E2. injection E2 as <- <-. split; [exact R1|]. intros t Ht. destruct (R2 t Ht) as ((S1 & S2) & P).
  split; [exact S1|]. intros i Hi. split; [exact (S2 i Hi)|]. intros x Hx.
  rewrite smooth_eq; [exact (P i x Hi Hx)|exact HM|exact Ht| |exact Hx]. apply HV. now apply nth_In.
Qed.

Lemma C87_completes_lemma : forall u rnd card N m ts vars,
  (0 <= u)%Qc -> (u < 1)%Qc -> rounding u rnd -> (forall x, exists y, rnd x = Ok y) ->
  slices_ok card m -> series_ok m ts -> defined card m ts -> cliques_within card (m_jt m) N ->
  (forall v, In v vars -> v < length (m_vars m)) ->
  exists m1 r1 m2 r2, r_forward_inference rnd m ts vars = Ok (m1, r1) /\
    r_forward_backward_inference rnd m ts vars = Ok (m2, r2).
Proof.
  intros u rnd card N m ts vars H0 H1 HR HT HM HS HD HW HV.
  pose proof (totalised_near u rnd H0 H1 HR) as Hfl.
  destruct (r_forward_ok u _ H0 H1 Hfl card N m ts HM HS HW vars HV HD) as (m1 & r1 & E1 & _).
  destruct (r_forward_backward_ok u _ H0 H1 Hfl card N m ts HM HS HW vars HV HD) as (m2 & r2 & E2 & _).
  exists m1, r1, m2, r2. split.
  - exact (le_r_forward_inference _ rnd (le_total rnd HT) _ _ _ _ E1).
  - exact (le_r_forward_backward_inference _ rnd (le_total rnd HT) _ _ _ _ E2).
Qed.

(** ** Without rounding *)
Lemma map_loop_up : forall A B (j : A -> B) n lo (f : nat -> B -> res B) (g : nat -> A -> res A) s,
  (forall i s, f i (j s) = bind (g i s) (fun s' => Ok (j s'))) ->
  loop_up n lo f (j s) = bind (loop_up n lo g s) (fun s' => Ok (j s')).
Proof.
  intros A B j. induction n as [|n IH]; intros lo f g s H; [reflexivity|]. cbn [loop_up]. rewrite H.
  destruct (g lo s); cbn [bind]; auto.
Qed.
Lemma bind_bind : forall A B C (a : res A) (f : A -> res B) (g : B -> res C),
  bind (bind a f) g = bind a (fun x => bind (f x) g).
Proof. intros A B C [x| |] f g; reflexivity. Qed.

Lemma eq_forward_inference : forall m ts vars,
  forward_inference m ts vars false = bind (r_forward_inference Ok m ts vars) (fun '(m', rs) => Ok (m', rs, [])).
Proof.
  intros m ts vars. unfold forward_inference, r_forward_inference. rewrite bind_bind. apply eq_bind; [reflexivity|]. intros rs.
  rewrite bind_bind. apply eq_bind; [reflexivity|]. intros al.
  rewrite bind_bind. apply eq_bind; [symmetry; apply eq_r_reset_model|]. intros m1.
  rewrite bind_bind. apply eq_bind; [symmetry; apply eq_r_use_priors|]. intros m2.
  rewrite bind_bind. unfold for_up.
  rewrite (map_loop_up _ _ (fun '(m, a, r) => (m, a, r, [])) _ _ _
    (fun t '(m, alpha, results) =>
         let* m := if Nat.ltb 0 t then r_finish_message Ok m FORWARD alpha None else Ok m in
         let* (m, _) := r_insert_ts_step Ok ts (Z.of_nat t) m MARK_ON in
         let* m := r_make_consistent_model Ok m in
         let* row := rd results t in
         let* (m, row) := r_write_results Ok m vars row in
         let* results := wr results t row in
         let* alpha := r_start_message Ok m FORWARD alpha in
         let* m := r_reset_model Ok m in
         let* m := r_use_priors Ok m true in
         Ok (m, alpha, results)) (m2, al, rs)).
  - rewrite bind_bind. apply eq_bind; [reflexivity|]. intros [[m' a'] r']. reflexivity.
  - intros t [[mi ai] ri]. rewrite bind_bind. apply eq_bind.
    { destruct (0 <? t); [symmetry; apply eq_r_finish_message|reflexivity]. }
    intros ma. cbn [reference_mass bind]. rewrite bind_bind. apply eq_bind; [symmetry; apply eq_r_insert_ts_step|].
    intros [mb e]. rewrite bind_bind. apply eq_bind; [symmetry; apply eq_r_make_consistent_model|].
    intros mc. cbn [evidence_mass bind]. rewrite bind_bind. apply eq_bind; [reflexivity|]. intros row.
    rewrite bind_bind. apply eq_bind; [symmetry; apply eq_r_write_results|]. intros [md row'].
    rewrite bind_bind. apply eq_bind; [reflexivity|]. intros r'.
    rewrite bind_bind. apply eq_bind; [symmetry; apply eq_r_start_message|]. intros a'.
    rewrite bind_bind. apply eq_bind; [symmetry; apply eq_r_reset_model|]. intros me.
    rewrite bind_bind. apply eq_bind; [symmetry; apply eq_r_use_priors|]. intros mf. reflexivity.
Qed.

Lemma eq_forward_phase : forall m ts,
  forward_phase m ts false = bind (r_forward_phase Ok m ts) (fun '(m', ag) => Ok (m', ag, [])).
Proof.
  intros m ts. unfold forward_phase, r_forward_phase. rewrite bind_bind. apply eq_bind; [reflexivity|]. intros al. cbv zeta.
  rewrite bind_bind. apply eq_bind; [symmetry; apply eq_r_reset_model|]. intros m1.
  rewrite bind_bind. apply eq_bind; [symmetry; apply eq_r_use_priors|]. intros m2.
  unfold for_up.
  set (T := length (ts_data ts)).
  rewrite (map_loop_up _ _ (fun '(m, a) => (m, a, [])) _ _ _
    (fun t '(m, alpha_gamma) =>
       let* m :=
         if Nat.ltb 0 t then
           let* a := rd alpha_gamma (t - 1) in r_finish_message Ok m FORWARD a None
         else Ok m in
       let* (m, _) := r_insert_ts_step Ok ts (Z.of_nat t) m MARK_ON in
       let* m := r_make_consistent_model Ok m in
       let* a := rd alpha_gamma t in
       let* a := r_start_message Ok m FORWARD a in
       let* alpha_gamma := wr alpha_gamma t a in
       let* m := r_reset_model Ok m in
       let* m := r_use_priors Ok m (Nat.ltb 1 T) in
       Ok (m, alpha_gamma)) (m2, repeat al (T + 1))).
  - apply eq_bind; [reflexivity|]. intros [m' a']. reflexivity.
  - intros t [mi ai]. rewrite bind_bind. apply eq_bind.
    { destruct (0 <? t); [|reflexivity]. apply eq_bind; [reflexivity|]. intros a. symmetry. apply eq_r_finish_message. }
    intros ma. cbn [reference_mass bind]. rewrite bind_bind. apply eq_bind; [symmetry; apply eq_r_insert_ts_step|].
    intros [mb e]. rewrite bind_bind. apply eq_bind; [symmetry; apply eq_r_make_consistent_model|].
    intros mc. cbn [evidence_mass bind]. rewrite bind_bind. apply eq_bind; [reflexivity|]. intros a.
    rewrite bind_bind. apply eq_bind; [symmetry; apply eq_r_start_message|]. intros a'.
    rewrite bind_bind. apply eq_bind; [reflexivity|]. intros ag'.
    rewrite bind_bind. apply eq_bind; [symmetry; apply eq_r_reset_model|]. intros me.
    rewrite bind_bind. apply eq_bind; [symmetry; apply eq_r_use_priors|]. intros mf. reflexivity.
Qed.

Lemma eq_forward_backward_inference : forall m ts vars,
  forward_backward_inference m ts vars false =
  bind (r_forward_backward_inference Ok m ts vars) (fun '(m', rs) => Ok (m', rs, [])).
Proof.
  intros m ts vars. unfold forward_backward_inference, r_forward_backward_inference.
  rewrite bind_bind. apply eq_bind; [reflexivity|]. intros rs.
  rewrite eq_forward_phase, !bind_bind. apply eq_bind; [reflexivity|]. intros [m1 ag]. cbn [bind].
  rewrite bind_bind. apply eq_bind; [symmetry; apply eq_r_backward_phase|]. intros [[m2 ag2] r2]. reflexivity.
Qed.

Lemma C87_exact_lemma : forall m ts vars,
  forward_inference m ts vars false =
    bind (r_forward_inference Ok m ts vars) (fun '(m', rs) => Ok (m', rs, [])) /\
  forward_backward_inference m ts vars false =
    bind (r_forward_backward_inference Ok m ts vars) (fun '(m', rs) => Ok (m', rs, [])).
Proof. intros. split; [apply eq_forward_inference|apply eq_forward_backward_inference]. Qed.
