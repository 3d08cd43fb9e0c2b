(** Transformation objects over their life: C110, C111, C112. *)
From Coq Require Import Reals List Bool ZArith Lra Lia.
From Verif.Model Require Import Base Vec Voxel Algebraic Transform TransformObj.
From Verif.Spec Require Import Geometry AlgSpec HistorySpec.
From Verif.Proofs Require Import VecFacts VolumeFacts AlgFacts.
From Verif.Props Require Import TransformProps.
Import ListNotations.
Open Scope R_scope.

Lemma t_run_app t a o : t_run t (a ++ [o]) = fst (t_step (t_run t a) o).
Proof. unfold t_run. rewrite fold_left_app. reflexivity. Qed.
Lemma t_step_kind t o : t_kind (fst (t_step t o)) = t_kind t.
Proof.
  destruct t as [k s m og p lk bo], o as [a|[] a|fl n|a|[pl|]|[b|]|[b|]], k; cbn; auto;
    repeat match goal with |- context [if ?b then _ else _] => destruct b; cbn; auto end.
Qed.
Lemma t_run_kind t ops : t_kind (t_run t ops) = t_kind t.
Proof. induction ops as [|o ops IH] using rev_ind; [reflexivity|]. rewrite t_run_app, t_step_kind. exact IH. Qed.
Lemma last_of_det {A B} (sel : A -> option B) b h x y : last_of sel b h x -> last_of sel b h y -> x = y.
Proof.
  intros HL. revert y. induction HL; intros y' HR; inversion HR as [|? h' o' x0 L y0 Hy|? h' o' x0 L Hk]; subst; auto;
    try (destruct h; discriminate); try (destruct h'; discriminate);
    match goal with H : _ ++ [_] = _ ++ [_] |- _ => apply app_inj_tail in H as [-> ->] end; try congruence; eauto.
Qed.
(** A refused assignment changes nothing. *)
Lemma t_step_err t o e : snd (t_step t o) = Err e -> fst (t_step t o) = t.
Proof.
  destruct t as [k s m og p lk bo], o as [a|[] a|fl n|a|[pl|]|[b|]|[b|]], k; cbn; try discriminate; auto;
    repeat match goal with |- context [if ?b then _ else _] => destruct b; cbn; try discriminate; auto end.
Qed.

(* ------------------------------------------------------------------ *)
(** * C110: what a translation accepts and what it then does *)

(** three numbers, with any number of axes of length one after them *)
Definition three_first (a : nparray) : bool :=
  match a_shape a with 3%nat :: rest => forallb (Nat.eqb 1) rest | _ => false end.
Definition sets_shift (o : t_op) : option (option nparray) :=
  match o with SetShift a => if three_first a then Some (Some a) else None | _ => None end.

Lemma prod_one l : Nat.eqb (fold_right Nat.mul 1%nat l) 1 = forallb (Nat.eqb 1) l.
Proof.
  induction l as [|n l IH]; [reflexivity|]. cbn [fold_right forallb]. rewrite <- IH.
  destruct (Nat.eqb_spec (n * fold_right Nat.mul 1%nat l) 1) as [E|E].
  - apply Nat.eq_mul_1 in E as [-> ->]. reflexivity.
  - symmetry. apply andb_false_iff. destruct (Nat.eqb_spec 1 n); [right|auto]. apply Nat.eqb_neq. subst. lia.
Qed.
Lemma shift_step t a : t_kind t = KTranslation ->
  t_step t (SetShift a) =
  if three_first a then (mkT KTranslation (Some a) (t_matrix t) (t_origin t) (t_plane t) (t_locked t) (t_basis_only t), Ok tt)
  else (t, Err AssertionError).
Proof.
  destruct t as [k s m og p lk bo]. cbn. intros ->. unfold three_first, asize.
  destruct (a_shape a) as [|n sh]; [reflexivity|]. cbn [hd fold_right].
  destruct (Nat.eqb_spec n 3) as [->|N].
  - rewrite <- prod_one. destruct (Nat.eqb_spec (3 * fold_right Nat.mul 1%nat sh) 3) as [E|E], (Nat.eqb_spec (fold_right Nat.mul 1%nat sh) 1) as [E'|E'];
      cbn [negb]; auto; lia.
  - destruct n as [|[|[|[|n]]]]; try (exfalso; lia); destruct (negb (Nat.eqb _ 3)); reflexivity.
Qed.
Lemma other_step t o : t_kind t = KTranslation -> sets_shift o = None -> t_shift (fst (t_step t o)) = t_shift t.
Proof.
  intros K H. destruct o as [a| | | | | |].
  - rewrite shift_step by auto. cbn in H. destruct (three_first a); [discriminate|reflexivity].
  - destruct t; cbn in *; subst; destruct is_list; reflexivity.
  - destruct t; cbn in *; subst; reflexivity.
  - destruct t; cbn in *; subst; reflexivity.
  - destruct t; cbn in *; subst. destruct p; reflexivity.
  - destruct t; cbn in *; subst. destruct b; reflexivity.
  - destruct t; cbn in *; subst. destruct b; reflexivity.
Qed.
Lemma run_shift ops lk bo : last_of sets_shift None ops (t_shift (t_run (new_tobj KTranslation lk bo) ops)).
Proof.
  induction ops as [|o ops IH] using rev_ind; [constructor|]. rewrite t_run_app.
  assert (K : t_kind (t_run (new_tobj KTranslation lk bo) ops) = KTranslation) by apply t_run_kind.
  destruct (sets_shift o) as [x|] eqn:E.
  - destruct o; try discriminate. cbn in E. destruct (three_first a) eqn:E1; [|discriminate]. injection E as <-.
    rewrite shift_step, E1 by auto. eapply last_set; eauto. cbn. rewrite E1. reflexivity.
  - rewrite other_step by auto. eapply last_keep; eauto.
Qed.

(** A translation that never accepted a shift, through any history of calls, cannot be applied. *)
Theorem C110_unset : forall lk bo h pts, last_of sets_shift None h None ->
  t_apply (t_run (new_tobj KTranslation lk bo) h) pts = Err TypeError.
Proof.
  intros lk bo h pts HL. pose proof (last_of_det _ _ _ _ _ (run_shift h lk bo) HL) as E.
  unfold t_apply. rewrite t_run_kind, E. reflexivity.
Qed.
(** The setter accepts exactly the arrays of three numbers whose first axis has length
    three; anything else raises AssertionError and the old shift stays. *)
Theorem C110_accepted : forall t a, t_kind t = KTranslation ->
  (snd (t_step t (SetShift a)) = Ok tt <-> exists k, a_shape a = 3%nat :: repeat 1%nat k) /\
  (snd (t_step t (SetShift a)) <> Ok tt -> t_step t (SetShift a) = (t, Err AssertionError)).
Proof.
  intros t a K. rewrite shift_step by auto.
  assert (E : three_first a = true <-> exists k, a_shape a = 3%nat :: repeat 1%nat k).
  { unfold three_first. split.
    - destruct (a_shape a) as [|[|[|[|[|n]]]] sh]; try discriminate. intros H. exists (length sh). f_equal.
      induction sh as [|x sh IH]; [reflexivity|]. cbn [forallb length repeat] in *. apply andb_true_iff in H as [H1 H2].
      apply Nat.eqb_eq in H1. subst. f_equal. auto.
    - intros [k ->]. induction k; [reflexivity|]. cbn. exact IHk. }
  destruct (three_first a); cbn; split; auto.
  - split; auto. intros _. apply E. reflexivity.
  - intros H. exfalso. apply H. reflexivity.
  - split; [discriminate|]. intros H. apply E in H. discriminate.
Qed.
(** Whatever was assigned before, a translation whose last accepted shift is a flat array
    (x, y, z) moves every point by (x, y, z). *)
Theorem C110_translates_partial : forall lk bo ops a pts,
  last_of sets_shift None ops (Some a) -> a_shape a = [3%nat] ->
  t_apply (t_run (new_tobj KTranslation lk bo) ops) pts =
  Ok (Rows (map (fun p => vadd p (mkV (nth 0 (a_data a) 0) (nth 1 (a_data a) 0) (nth 2 (a_data a) 0))) pts)).
Proof.
  intros lk bo ops a pts HL HS. pose proof (run_shift ops lk bo) as R.
  assert (E : t_shift (t_run (new_tobj KTranslation lk bo) ops) = Some a).
  { eapply last_of_det; eauto. }
  unfold t_apply. rewrite t_run_kind, E. cbn [new_tobj t_kind]. unfold add_shift. rewrite HS. reflexivity.
Qed.
(** A column of three numbers is accepted as well, and then the points are not moved by it:
    three points at the origin go to three different places. *)
Theorem C110_column_refuted : exists a, (forall lk bo, snd (t_step (new_tobj KTranslation lk bo) (SetShift a)) = Ok tt) /\
  a_data a = [1; 2; 3] /\
  forall lk bo, t_apply (t_run (new_tobj KTranslation lk bo) [SetShift a]) [v0; v0; v0] =
    Ok (Rows [mkV 1 1 1; mkV 2 2 2; mkV 3 3 3]).
Proof.
  exists (mkArr [3%nat; 1%nat] [1; 2; 3]). split; [reflexivity|]. split; [reflexivity|]. intros lk bo.
  cbn. unfold at_, along. cbn. repeat f_equal; vring.
Qed.
(** What a column does in general: one point becomes three, three points are moved along
    (1,1,1) by one number each, and any other number of points raises ValueError. *)
Theorem C110_column_wrong_partial : forall lk bo ops a pts,
  last_of sets_shift None ops (Some a) -> a_shape a = [3%nat; 1%nat] ->
  let s i := nth i (a_data a) 0 in
  let r := t_apply (t_run (new_tobj KTranslation lk bo) ops) pts in
  (length pts <> 1%nat -> length pts <> 3%nat -> r = Err ValueError) /\
  (length pts = 1%nat -> exists l, r = Ok (Rows l) /\ length l = 3%nat) /\
  (length pts = 3%nat -> exists l, r = Ok (Rows l) /\ forall i p, nth_error pts i = Some p ->
     nth_error l i = Some (vadd p (vscale (s i) (mkV 1 1 1)))).
Proof.
  intros lk bo ops a pts HL HS s r. pose proof (run_shift ops lk bo) as R.
  assert (E : t_shift (t_run (new_tobj KTranslation lk bo) ops) = Some a).
  { eapply last_of_det; eauto. }
  unfold r, t_apply. rewrite t_run_kind, E. cbn [new_tobj t_kind]. unfold add_shift. rewrite HS.
  destruct pts as [|p [|q [|u [|v pts]]]]; (split; [|split]); cbn [length]; intros; try lia; try reflexivity.
  - eexists. split; [reflexivity|reflexivity].
  - eexists. split; [reflexivity|]. unfold s, along, at_. intros i x Hx.
    destruct i as [|[|[|[|i]]]]; cbn in Hx; try discriminate; injection Hx as <-; cbn; repeat f_equal; vring.
Qed.
Example C110_nonvacuous :
  last_of sets_shift None [SetShift (mkArr [3%nat] [1; 2; 3]); SetShift (mkArr [4%nat] [1; 2; 3; 4])] (Some (mkArr [3%nat] [1; 2; 3])) /\
  last_of sets_shift None [SetShift (mkArr [3%nat; 1%nat] [1; 2; 3])] (Some (mkArr [3%nat; 1%nat] [1; 2; 3])).
Proof.
  split.
  - change [SetShift (mkArr [3%nat] [1; 2; 3]); SetShift (mkArr [4%nat] [1; 2; 3; 4])] with
      (([] ++ [SetShift (mkArr [3%nat] [1; 2; 3])]) ++ [SetShift (mkArr [4%nat] [1; 2; 3; 4])]).
    eapply last_keep; [|reflexivity]. eapply last_set; [constructor|reflexivity].
  - change [SetShift (mkArr [3%nat; 1%nat] [1; 2; 3])] with ([] ++ [SetShift (mkArr [3%nat; 1%nat] [1; 2; 3])]).
    eapply last_set; [constructor|reflexivity].
Qed.

(* ------------------------------------------------------------------ *)
(** * C111: matrices and origins *)

(** what each class accepts as a matrix: a 3x3 array; for a Rotation it must also pass the
    tests on its determinant and orthogonality (C33) *)
Definition sets_matrix (k : tkind) (o : t_op) : option (option mat) :=
  match o, k with
  | SetMatrix false a, KMatrix => if is_33 a then Some (Some (arr_mat a)) else None
  | SetMatrix false a, KRotation => if is_33 a && rotation_ok (arr_mat a) then Some (Some (arr_mat a)) else None
  | _, _ => None
  end.
(** any array of three numbers is an origin *)
Definition sets_origin (o : t_op) : option (option vec) :=
  match o with
  | SetOrigin a => if Nat.eqb (fold_right Nat.mul 1%nat (a_shape a)) 3
                   then Some (Some (mkV (nth 0 (a_data a) 0) (nth 1 (a_data a) 0) (nth 2 (a_data a) 0))) else None
  | _ => None
  end.
Lemma run_matrix k ops lk bo : k = KMatrix \/ k = KRotation \/ k = KInversion ->
  last_of (sets_matrix k) None ops (t_matrix (t_run (new_tobj k lk bo) ops)) /\
  last_of sets_origin None ops (t_origin (t_run (new_tobj k lk bo) ops)).
Proof.
  intros HK. induction ops as [|o ops [IH1 IH2]] using rev_ind; [split; constructor|]. rewrite t_run_app.
  assert (K : t_kind (t_run (new_tobj k lk bo) ops) = k) by apply t_run_kind.
  destruct (t_run (new_tobj k lk bo) ops) as [k' s m og p lk' bo']. cbn in K, IH1, IH2. subst k'.
  destruct o as [a|b a|fl n|a|pl|b|b]; destruct HK as [-> |[-> | ->]]; cbn [t_step];
    try (split; [eapply last_keep; [exact IH1|reflexivity]|eapply last_keep; [exact IH2|reflexivity]]);
    try (destruct b; split; cbn [fst t_matrix t_origin]; (eapply last_keep; [eassumption|reflexivity]));
    try (destruct pl; split; cbn [fst t_matrix t_origin]; (eapply last_keep; [eassumption|reflexivity])).
  - destruct b; [split; (eapply last_keep; [eassumption|reflexivity])|]. destruct (is_33 a) eqn:E; split; cbn [fst t_matrix t_origin];
      first [eapply last_keep; [eassumption|cbn; rewrite ?E; reflexivity]|eapply last_set; [eassumption|cbn; rewrite ?E; reflexivity]].
  - destruct b; [split; (eapply last_keep; [eassumption|reflexivity])|]. destruct (is_33 a && rotation_ok (arr_mat a)) eqn:E; split; cbn [fst t_matrix t_origin];
      first [eapply last_keep; [eassumption|cbn; rewrite ?E; reflexivity]|eapply last_set; [eassumption|cbn; rewrite ?E; reflexivity]].
  - unfold asize. destruct (Nat.eqb (fold_right Nat.mul 1%nat (a_shape a)) 3) eqn:E; split; cbn [fst t_matrix t_origin];
      first [eapply last_keep; [eassumption|cbn; rewrite ?E; reflexivity]|eapply last_set; [eassumption|cbn; rewrite ?E; reflexivity]].
  - unfold asize. destruct (Nat.eqb (fold_right Nat.mul 1%nat (a_shape a)) 3) eqn:E; split; cbn [fst t_matrix t_origin];
      first [eapply last_keep; [eassumption|cbn; rewrite ?E; reflexivity]|eapply last_set; [eassumption|cbn; rewrite ?E; reflexivity]].
  - unfold asize. destruct (Nat.eqb (fold_right Nat.mul 1%nat (a_shape a)) 3) eqn:E; split; cbn [fst t_matrix t_origin];
      first [eapply last_keep; [eassumption|cbn; rewrite ?E; reflexivity]|eapply last_set; [eassumption|cbn; rewrite ?E; reflexivity]].
Qed.

(** After any history of assignments to a MatrixTransform or a Rotation, some of them
    refused, points go to M (p - o) + o with the last accepted matrix M and the last
    accepted origin o (none: the coordinate origin), and params reports these two. *)
Theorem C111_last_values : forall k ops lk bo m og pts, k = KMatrix \/ k = KRotation ->
  last_of (sets_matrix k) None ops (Some m) -> last_of sets_origin None ops og ->
  let t := t_run (new_tobj k lk bo) ops in
  let o := match og with Some o => o | None => v0 end in
  t_apply t pts = Ok (Rows (map (fun p => vadd (mv m (vsub p o)) o) pts)) /\
  t_params t = Ok (PMatrix (Some m) og).
Proof.
  intros k ops lk bo m og pts HK HM HO t o.
  destruct (run_matrix k ops lk bo) as [R1 R2]; [tauto|]. fold t in R1, R2.
  assert (E1 := last_of_det _ _ _ _ _ R1 HM). assert (E2 := last_of_det _ _ _ _ _ R2 HO).
  assert (K : t_kind t = k) by apply t_run_kind.
  unfold t_apply, t_params. rewrite K, E1, E2. split.
  - replace (map (fun p => vadd (mv m (vsub p o)) o) pts) with (map (matrix_pt m og) pts); [destruct HK; subst; reflexivity|].
    apply map_ext. intros p. unfold matrix_pt, o. destruct og; [reflexivity|vring].
  - destruct HK; subst; reflexivity.
Qed.
(** Whatever a user assigns, a Rotation that can be applied at all keeps squared distances
    to one part in a million. *)
Theorem C111_rotation_rigid : forall ops lk bo pts out,
  t_apply (t_run (new_tobj KRotation lk bo) ops) pts = Ok out ->
  exists l, out = Rows l /\ length l = length pts /\
    forall i j p q p' q', nth_error pts i = Some p -> nth_error pts j = Some q ->
      nth_error l i = Some p' -> nth_error l j = Some q' ->
      (1 - / 10 ^ 6) * dist p q ^ 2 <= dist p' q' ^ 2 <= (1 + / 10 ^ 6) * dist p q ^ 2.
Proof.
  intros ops lk bo pts out H. destruct (run_matrix KRotation ops lk bo) as [R1 R2]; [tauto|].
  assert (K : t_kind (t_run (new_tobj KRotation lk bo) ops) = KRotation) by apply t_run_kind.
  set (t := t_run _ ops) in *. unfold t_apply in H. rewrite K in H. destruct (t_matrix t) as [m|]; [|discriminate].
  injection H as <-. assert (OK : rotation_ok m = true).
  { clear - R1. remember (Some m) as x. remember None as z eqn:Ez in R1. revert m Heqx. induction R1; intros m Hm; [congruence| |eauto].
    subst y. unfold sets_matrix in H. destruct o; try discriminate. destruct is_list; [discriminate|].
    destruct (is_33 a && rotation_ok (arr_mat a)) eqn:E; [|discriminate]. inversion H; subst. apply andb_true_iff in E. tauto. }
  eexists. split; [reflexivity|]. split; [apply map_length|]. intros i j p q p' q' Hp Hq Hp' Hq'.
  rewrite nth_error_map, Hp in Hp'. rewrite nth_error_map, Hq in Hq'. injection Hp' as <-. injection Hq' as <-.
  assert (N : new_rotation m (t_origin t) lk bo = Ok (TMatrix m (t_origin t) lk bo)) by (unfold new_rotation; rewrite OK; reflexivity).
  exact (C33_distances m (t_origin t) lk bo _ p q N).
Qed.
(** An Inversion stays one: after any history the midpoint of every point and its image is
    the last accepted origin (none: the coordinate origin). *)
Theorem C111_inversion : forall ops lk bo og pts, last_of sets_origin None ops og ->
  exists l, t_apply (t_run (new_tobj KInversion lk bo) ops) pts = Ok (Rows l) /\ length l = length pts /\
    forall i p q, nth_error pts i = Some p -> nth_error l i = Some q ->
      vscale (/ 2) (vadd p q) = match og with Some o => o | None => v0 end.
Proof.
  intros ops lk bo og pts HO. destruct (run_matrix KInversion ops lk bo) as [R1 R2]; [tauto|].
  assert (E2 := last_of_det _ _ _ _ _ R2 HO).
  assert (K : t_kind (t_run (new_tobj KInversion lk bo) ops) = KInversion) by apply t_run_kind.
  unfold t_apply. rewrite K, E2. eexists. split; [reflexivity|]. split; [apply map_length|].
  intros i p q Hp Hq. rewrite nth_error_map, Hp in Hq. injection Hq as <-.
  unfold matrix_pt. destruct og as [o|]; [destruct p, o|destruct p]; apply vec_eq; unfold mv, mscale, mI, dot; cbn; unfold dot; cbn; field.
Qed.
(** Every refused assignment leaves the object as it was. *)
Theorem C111_refused : forall t o e, snd (t_step t o) = Err e -> fst (t_step t o) = t.
Proof. exact t_step_err. Qed.
Example C111_nonvacuous :
  let m := mkM (mkV (3/5) (-4/5) 0) (mkV (4/5) (3/5) 0) (mkV 0 0 1) in
  let a := mkArr [3%nat; 3%nat] [3/5; -4/5; 0; 4/5; 3/5; 0; 0; 0; 1] in
  let h := [SetMatrix false a; SetOrigin (mkArr [3%nat; 1%nat] [1; 0; 0]); SetMatrix false (mkArr [3%nat; 3%nat] [2; 0; 0; 0; 2; 0; 0; 0; 2])] in
  last_of (sets_matrix KRotation) None h (Some m) /\ last_of sets_origin None h (Some (mkV 1 0 0)) /\
  snd (t_step (t_run (new_tobj KRotation true false) h) (SetMatrix true a)) = Err AttributeError.
Proof.
  intros m a h. unfold h.
  assert (RT : rotation_ok (arr_mat a) = true).
  { destruct C33_nonvacuous as [O D]. pose proof (C33_exact_rotations_accepted _ None true false C33_nonvacuous) as X.
    unfold new_rotation in X. destruct (rotation_ok _) eqn:E in X; [exact E|discriminate]. }
  set (s1 := SetMatrix false a). set (s2 := SetOrigin _). set (s3 := SetMatrix false _).
  change [s1; s2; s3] with ((([] ++ [s1]) ++ [s2]) ++ [s3]). split; [|split].
  - eapply last_keep. eapply last_keep. eapply last_set; [constructor|]. unfold s1. cbn [sets_matrix is_33 a_shape a andb]. fold a. rewrite RT. reflexivity.
    reflexivity.
    unfold s3. cbn [sets_matrix is_33 a_shape andb]. replace (rotation_ok _) with false; [reflexivity|].
    symmetry. unfold rotation_ok. apply andb_false_iff. left. apply Rltb_false. unfold arr_mat, at_. cbn. vunfold.
    rewrite Rabs_pos_eq; lra.
  - eapply last_keep. eapply last_set. eapply last_keep; [constructor|reflexivity]. reflexivity. reflexivity.
  - set (t := t_run _ _). assert (K : t_kind t = KRotation) by apply t_run_kind. destruct t. cbn in *. subst. reflexivity.
Qed.

(* ------------------------------------------------------------------ *)
(** * C112: reflections *)

(** images under the mirror in a plane: the displacement is along the normal and the
    midpoint is on the plane *)
Definition mirror_image (pl : plane) (p q : vec) : Prop :=
  (exists s, vsub q p = vscale s (p_normal pl)) /\
  dot (vsub (vscale (/ 2) (vadd p q)) (p_point pl)) (p_normal pl) = 0.
Definition sets_plane (o : t_op) : option (option plane) :=
  match o with SetPlane (Some p) => Some (Some p) | _ => None end.
(** no assignment to the inherited matrix and origin *)
Definition plane_only (o : t_op) : Prop :=
  match o with SetNormal _ _ => False | SetOrigin _ => False | _ => True end.

Lemma mirror_pt pl p : dot (p_normal pl) (p_normal pl) = 1 ->
  mirror_image pl p (matrix_pt (reflection_matrix (p_normal pl)) (Some (p_point pl)) p).
Proof.
  intros U. unfold matrix_pt, reflection_matrix. rewrite U. replace (2 / 1) with 2 by field.
  destruct pl as [[a b c] [x y z] tl], p as [u v w]. cbn [p_normal p_point] in *. unfold dot in U. cbn in U. split.
  - exists (- 2 * (a * (u - x) + b * (v - y) + c * (w - z))).
    apply vec_eq; unfold mv, msub, mscale, outer, mI; vunfold; cbn; ring.
  - unfold mv, msub, mscale, outer, mI; vunfold; cbn.
    set (k := a * (u - x) + b * (v - y) + c * (w - z)).
    match goal with |- ?L = 0 => replace L with (k * (1 - (a * a + b * b + c * c))) by (unfold k; field) end.
    rewrite U. ring.
Qed.
(** A reflection whose plane alone was assigned maps every point to its mirror image in the
    last plane, which is also what params reports. *)
Theorem C112_mirror_partial : forall ops lk bo pl pts, Forall plane_only ops -> valid_plane pl ->
  last_of sets_plane None ops (Some pl) ->
  let t := t_run (new_tobj KReflection lk bo) ops in
  t_params t = Ok (PPlane pl) /\
  exists l, t_apply t pts = Ok (Rows l) /\ Forall2 (mirror_image pl) pts l.
Proof.
  intros ops lk bo pl pts HO HV HL t.
  assert (G : forall x, last_of sets_plane None ops x -> t_plane t = x /\ forall p, x = Some p ->
     t_matrix t = Some (reflection_matrix (p_normal p)) /\ t_origin t = Some (p_point p)).
  { clear HL HV pl pts. subst t. induction ops as [|o ops IH] using rev_ind; intros x HL.
    - inversion HL; subst; [|destruct h; discriminate..]. split; [reflexivity|discriminate].
    - apply Forall_app in HO as [HO HP]. inversion_clear HP as [|? ? P _]. rewrite t_run_app.
      assert (K : t_kind (t_run (new_tobj KReflection lk bo) ops) = KReflection) by apply t_run_kind.
      destruct (t_run (new_tobj KReflection lk bo) ops) as [k s m og p lk' bo']. cbn in K. subst k.
      inversion HL as [? E|? h o' x0 L y Hy|? h o' x0 L Hk]; subst; [destruct ops; discriminate| |];
        match goal with H : _ ++ [_] = _ ++ [_] |- _ => apply app_inj_tail in H as [-> ->] end.
      + destruct o; try discriminate. destruct p0; [|discriminate]. injection Hy as <-. cbn. split; [reflexivity|].
        intros q E. injection E as <-. split; reflexivity.
      + destruct (IH HO _ L) as [IHa IHb]. cbn in IHa, IHb.
        destruct o as [a|[] a|fl n|a|[q|]|[b|]|[b|]]; try (exfalso; exact P); try discriminate; cbn; auto. }
  destruct (G _ HL) as [G1 G2]. destruct (G2 _ eq_refl) as [G3 G4].
  assert (K : t_kind t = KReflection) by apply t_run_kind.
  unfold t_params, t_apply. rewrite K, G1, G3, G4. split; [reflexivity|]. eexists. split; [reflexivity|].
  clear G G1 G2 G3 G4 HL. induction pts as [|p pts IH]; cbn; constructor; auto. apply mirror_pt.
  destruct HV as [HV _]. rewrite <- norm_sq, HV. ring.
Qed.
(** Assigning the inherited origin moves the mirror away from the plane the object still
    reports. *)
Theorem C112_origin_refuted : exists pl ops q, valid_plane pl /\
  forall lk bo, let t := t_run (new_tobj KReflection lk bo) ops in
    t_params t = Ok (PPlane pl) /\ t_apply t [v0] = Ok (Rows [q]) /\ ~ mirror_image pl v0 q.
Proof.
  exists (mkPlane (mkV 1 0 0) v0 1), [SetPlane (Some (mkPlane (mkV 1 0 0) v0 1)); SetOrigin (mkArr [3%nat] [1; 0; 0])], (mkV 2 0 0).
  split. { split; cbn; [unfold norm; replace (dot _ _) with 1 by (vunfold; ring); apply sqrt_1|lra]. }
  intros lk bo t. split; [reflexivity|]. split.
  - cbn. unfold arr_vec, at_, matrix_pt, reflection_matrix. cbn. do 3 f_equal. apply vec_eq; vunfold; cbn; field.
  - intros [_ H]. vunfold. cbn in H. unfold dot, vsub, vscale, vadd in H. cbn in H. lra.
Qed.
(** Assigning a flat normal to the inherited matrix gives a map that is not even an
    isometry: the identity minus 2 in every entry. *)
Theorem C112_flat_normal_refuted : exists ops q, forall lk bo,
  let t := t_run (new_tobj KReflection lk bo) ops in
  t_apply t [mkV 1 0 0; v0] = Ok (Rows [q; v0]) /\ dist q v0 <> dist (mkV 1 0 0) v0.
Proof.
  exists [SetNormal true (mkV 1 0 0)], (mkV (-1) (-2) (-2)). intros lk bo t. split.
  - cbn. unfold matrix_pt, flat_reflection. do 3 f_equal; [|f_equal]; apply vec_eq; vunfold; cbn; field.
  - intros H. apply (f_equal (fun x => x * x)) in H. unfold dist in H. rewrite !norm_sq in H. unfold dot, vsub in H. cbn in H. lra.
Qed.
(** Without a plane a reflection cannot be applied, and its params raise AttributeError. *)
Theorem C112_unset : forall lk bo pts,
  t_apply (new_tobj KReflection lk bo) pts = Err TypeError /\ t_params (new_tobj KReflection lk bo) = Err AttributeError.
Proof. intros. split; reflexivity. Qed.
Example C112_nonvacuous : let pl := mkPlane (mkV 1 0 0) v0 1 in
  let h := [SetPlane (Some (mkPlane (mkV 0 1 0) v0 1)); SetPlane (Some pl); SetPlane None; SetLocked (Some false)] in
  valid_plane pl /\ Forall plane_only h /\ last_of sets_plane None h (Some pl).
Proof.
  intros pl h. split. { split; cbn; [unfold norm; replace (dot _ _) with 1 by (vunfold; ring); apply sqrt_1|lra]. }
  split; [unfold h; repeat (apply Forall_cons; [exact I|]); apply Forall_nil|].
  unfold h. set (s1 := SetPlane (Some (mkPlane (mkV 0 1 0) v0 1))). set (s2 := SetPlane (Some pl)).
  change [s1; s2; SetPlane None; SetLocked (Some false)] with (((([] ++ [s1]) ++ [s2]) ++ [SetPlane None]) ++ [SetLocked (Some false)]).
  eapply last_keep; [|reflexivity]. eapply last_keep; [|reflexivity]. eapply last_set; [|reflexivity]. eapply last_set; [constructor|reflexivity].
Qed.
