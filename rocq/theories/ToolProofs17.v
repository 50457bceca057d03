(** * Proofs: the memory of nipjoint *)
From Coq Require Import Permutation.
From Verif Require Import Base BaseProofs HeapProofs MemoryModel MemorySpec MemoryProofs MemoryProofs2 MemoryProofs3 MemoryProofs4 MemoryProofs5 MemoryProofs10 ToolModel4.
Import ListNotations.
Open Scope nat_scope.
Local Open Scope res_scope.

Lemma free_gone : forall m f a, heap_is m f -> ~ In a (map fst f) -> free m (Some a) = UB.
Proof.
  intros m f a (_ & H) N. unfold free. destruct (nth_error m a) as [[b|]|] eqn:E; auto. exfalso. apply N.
  apply H in E. apply (in_map fst) in E. exact E.
Qed.

Lemma new_series_parts : forall m f h observed n, heap_is m f ->
  exists m' y hid obs dat gd, new_timeseries m (Some h) observed n = Ok (m', Some y) /\
    (0 < observed -> obs <> None) /\
    heap_is m' (((y, [N n; P (Some hid); P obs; P dat]) :: (hid, repeat (P None) h) :: map (fun a => (a, repeat (P None) observed)) (opt obs) ++ gd) ++ f) /\
    match dat with
    | None => gd = []
    | Some d => exists rs gr, gd = (d, ptrs rs) :: gr /\ length rs = n /\ addresses gr rs
    end.
Proof.
  intros m f hidden observed n H. unfold new_timeseries. cbv zeta. al H. st H. st H. st H. st H. al H. last_store H a. cbn [bind].
  destruct observed as [|ob].
  - cbn [bind]. exists m6, a, a0, None, None, []. split; [reflexivity|]. split; [lia|]. split; [|reflexivity]. cbn [opt map app]. exact H.
  - set (z := S ob) in *. al H. st H. al H. st H. gp H.
    front H a2. destruct (rows_ok _ _ a2 n z H) as (m80 & rs & gr & E & L & HR & H'). rewrite E. cbn [bind].
    exists m80, a, a0, (Some a1), (Some a2), ((a2, ptrs rs) :: gr). split; [reflexivity|]. split; [discriminate|]. split; [|eauto].
    eapply heap_perm; [|exact H']. cbn [app opt map]. perm.
Qed.

Lemma heap_start : heap_is [] [].
Proof. split; [constructor|]. intros a b. destruct a; cbn; split; try discriminate; tauto. Qed.

Lemma joint_named_lemma : forall h observed n k, exists m y m1 a m2,
  new_timeseries [] (Some h) observed n = Ok (m, y) /\ joint_array m true k h y = Ok (m1, a) /\
  joint_release m1 a y = Ok m2 /\ all_free m2.
Proof.
  intros h observed n k. destruct (new_timeseries_ok [] [] (Some h) observed n heap_start) as (m & y & g & E & S & H).
  unfold joint_array. unfold calloc. assert (K := allocate_ok m _ (repeat (P None) k) H). destruct (allocate m (repeat (P None) k)) as [m1 a] eqn:EL. cbn [fst snd] in K. destruct K as (K & _).
  destruct (free_ok _ _ a _ K) as (m2 & E2 & H2 & _). destruct (free_timeseries_ok m2 [] y g S H2) as (m3 & E3 & H3).
  exists m, (Some y), m1, (Some a), m3. split; [exact E|]. split; [now rewrite EL|]. split; [|now apply heap_none]. unfold joint_release. rewrite E2. cbn [bind]. exact E3.
Qed.

(** Freeing the rows of the data. *)
Lemma free_data : forall m f y n hid obs dat gd, heap_is m ((y, [N n; P hid; P obs; P dat]) :: f ++ gd) ->
  match dat with
  | None => gd = []
  | Some d => exists rs gr, gd = (d, ptrs rs) :: gr /\ length rs = n /\ addresses gr rs
  end ->
  exists m', (let* d := ptr m (Some y) Y_data in
      match d with
      | Some _ =>
          let* n := num m (Some y) Y_length in
          let* m := for_up 0 n (fun t m => let* r := ptr m d t in free m r) m in
          free m d
      | None => Ok m
      end) = Ok m' /\ heap_is m' ((y, [N n; P hid; P obs; P dat]) :: f).
Proof.
  intros m f y n hid obs dat gd H AD. gp H. destruct dat as [d|].
  - destruct AD as (rs & gr & -> & L & AR). gn H. rewrite <- L.
    match type of H with heap_is ?M ?F =>
      eapply (heap_perm M F ((d, _) :: ((y, _) :: f) ++ gr)) in H; [|cbn [app]; perm] end.
    rewrite <- (app_nil_r rs) in AR.
    destruct (free_strings d _ rs _ gr [] AR H) as (m1 & b1 & E & A1 & H1). rewrite E. cbn [bind]. rewrite (addresses_nil _ A1) in H1.
    clear H E. rename H1 into H. rewrite app_nil_r in H.
    destruct (free_ok _ _ d _ H) as (m' & E & H' & _). exists m'. split; [exact E|rewrite ?L; exact H'].
  - subst gd. exists m. split; [reflexivity|]. eapply heap_perm; [|exact H]. perm.
Qed.

Lemma joint_twice_lemma : forall h observed n k, 0 < h + observed -> exists m y m1 a,
  new_timeseries [] (Some h) observed n = Ok (m, y) /\ joint_array m false k h y = Ok (m1, a) /\
  joint_release m1 a y = UB.
Proof.
  intros h observed n k HP. destruct (new_series_parts [] [] h observed n heap_start) as (m & y & hid & obs & dat & gd & E & OB & H & AD).
  exists m, (Some y). unfold joint_array, joint_release. rewrite app_nil_r in H. destruct (Nat.ltb_spec 0 h) as [L|L].
  - exists m, (Some hid). split; [exact E|]. split; [gp H; reflexivity|].
    front H hid. assert (ND := proj1 H). destruct (free_ok _ _ hid _ H) as (m1 & E1 & H1 & _). rewrite E1. cbn [bind].
    destruct (free_data m1 _ y n (Some hid) obs dat gd H1 AD) as (m2 & E2 & H2). unfold free_timeseries.
    match goal with |- bind ?X ?F = UB => idtac end.
    destruct (ptr m1 (Some y) Y_data) as [d| |]; cbn [bind] in E2 |- *; [|discriminate|discriminate]. rewrite E2. cbn [bind].
    gp H2. rewrite (free_gone _ _ hid H2); [reflexivity|]. cbn [map fst app] in ND |- *. inversion ND as [|? ? Q _]; subst. intros K. apply Q.
    destruct K as [K|K]; [now left|right]. rewrite map_app. apply in_or_app. now left.
  - assert (h = 0) by lia. subst h. destruct obs as [o|]; [|exfalso; apply OB; [lia|reflexivity]]. cbn [opt map app] in H.
    exists m, (Some o). split; [exact E|]. split; [gp H; reflexivity|].
    front H o. assert (ND := proj1 H). destruct (free_ok _ _ o _ H) as (m1 & E1 & H1 & _). rewrite E1. cbn [bind].
    destruct (free_data m1 [(hid, repeat (P None) 0)] y n (Some hid) (Some o) dat gd H1 AD) as (m2 & E2 & H2). unfold free_timeseries.
    destruct (ptr m1 (Some y) Y_data) as [d| |]; cbn [bind] in E2 |- *; [|discriminate|discriminate]. rewrite E2. cbn [bind].
    gp H2. assert (ND2 := ND). fr H2. gp H2. rewrite (free_gone _ _ o H2); [reflexivity|]. cbn [map fst app] in ND |- *. inversion ND as [|? ? Q _]; subst. intros K. apply Q.
    destruct K as [K|[]]. now left.
Qed.
