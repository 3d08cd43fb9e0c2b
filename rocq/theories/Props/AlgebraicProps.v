(** Properties of the algebraic objects: C18-C24 (interiors, setters, planes). *)
From Coq Require Import Reals List Bool Lra Psatz Lia ZArith.
From Verif.Model Require Import Base Vec Algebraic Transform.
From Verif.Spec Require Import Geometry AlgSpec.
From Verif.Proofs Require Import VecFacts VolumeFacts AlgFacts HullFacts.
Import ListNotations.
Open Scope R_scope.

(* ------------------------------------------------------------------ *)
(** * C18 (objects; whole volumes are in VolumeProps.v) *)
(** Every rigid motion of a valid object succeeds, yields a valid object, and moves
    the interior exactly. *)
Theorem C18_rigid_motion_of_object : forall t a, rigid t -> valid_alg a ->
  exists a', apply_alg t a = Ok a' /\ valid_alg a' /\
    forall p, alg_interior a' (apply_pt t p) = alg_interior a p.
Proof. intros. apply apply_alg_rigid; auto. Qed.
Example C18_object_nonvacuous :
  rigid (TMulti [TTranslation (mkV 1 2 3) true false;
                 TMatrix (mkM (mkV 0 (-1) 0) (mkV 1 0 0) (mkV 0 0 1)) (Some (mkV 5 0 0)) true false;
                 TInversion None true false]) /\
  valid_alg (ACyl (mkCyl (mkV 0 (3/5) (4/5)) v0 2 7 default_tol)).
Proof.
  split.
  - constructor. repeat constructor. unfold orthogonal. vring.
  - repeat split; cbn; unfold default_tol; try lra. apply dot_unit. unfold dot; cbn. field.
Qed.

(* ------------------------------------------------------------------ *)
(** * C19 *)
(** Refuted for every reflection and every object: TypeError. *)
Theorem C19_reflection_of_object_refuted : forall pl lk bo a,
  apply_alg (TReflection pl lk bo) a = Err TypeError.
Proof. reflexivity. Qed.
(** ... also inside any sequence whose earlier members succeed. *)
Theorem C19_reflection_in_sequence_refuted : forall ts us pl lk bo a,
  forall a', apply_alg (TMulti (ts ++ TReflection pl lk bo :: us)) a <> Ok a'.
Proof.
  intros ts us pl lk bo. cbn [apply_alg]. induction ts as [|t ts IH]; intros a a'; cbn [app foldM].
  - discriminate.
  - destruct (apply_alg t a); cbn [bind]; [apply IH|discriminate].
Qed.

(* ------------------------------------------------------------------ *)
(** * C20 *)
(** Refuted: an invertible scaling maps an interior point of a sphere, and one of a
    plane, to a point outside the transformed object. *)
Theorem C20_general_matrix_refuted :
  exists m, det m <> 0 /\
    (exists s a' q, valid_sphere s /\ matrix_alg m None (ASphere s) = Ok a' /\
       alg_interior (ASphere s) q = true /\ alg_interior a' (matrix_pt m None q) = false) /\
    (exists pl a' q, valid_plane pl /\ matrix_alg m None (APlane pl) = Ok a' /\
       alg_interior (APlane pl) q = true /\ alg_interior a' (matrix_pt m None q) = false).
Proof.
  exists (mkM (mkV 2 0 0) (mkV 0 1 0) (mkV 0 0 1)). split; [unfold det, dot, cross; cbn; lra|]. split.
  - exists (mkSphere 1 v0 default_tol). eexists. exists (mkV (3/4) 0 0). unfold default_tol. repeat split.
    + cbn; lra.
    + cbn; lra.
    + cbn [alg_interior]. unfold sphere_interior. cbn. apply Rltb_iff. lra.
    + cbn [alg_interior]. unfold sphere_interior. cbn. unfold dot; cbn. apply Rltb_false. lra.
  - exists (mkPlane (mkV (3/5) (4/5) 0) v0 default_tol).
    set (n := mkV (6/5) (4/5) 0).
    assert (N : 1 < norm n < 2).
    { unfold n, norm, dot; cbn. split.
      - rewrite <- sqrt_1. apply sqrt_lt_1; lra.
      - rewrite <- (sqrt_square 2) by lra. apply sqrt_lt_1; lra. }
    exists (APlane (mkPlane (vscale (/ norm n) n) v0 default_tol)), (mkV 4 (-31/10) 0).
    unfold default_tol. repeat split.
    + cbn. apply dot_unit. unfold dot; cbn. field.
    + cbn; lra.
    + cbn [matrix_alg]. unfold plane_set_normal. cbn [p_normal plane_set_point p_point p_tol].
      replace (mv (mkM (mkV 2 0 0) (mkV 0 1 0) (mkV 0 0 1)) (mkV (3/5) (4/5) 0)) with n
        by (unfold n; apply vec_eq; vunfold; field).
      rewrite (proj2 (check_normal_Ok n (vscale (/ norm n) n))); [|pose proof eps_small; split; [lra|auto]].
      cbn [bind]. do 3 f_equal. unfold matrix_pt. vring.
    + cbn [alg_interior]. unfold plane_interior, sdist_from_plane, dot. cbn. apply Rltb_iff. lra.
    + cbn [alg_interior]. unfold plane_interior, sdist_from_plane, matrix_pt. cbn [p_normal p_point p_tol].
      apply Rltb_false.
      replace (dot (mv (mkM (mkV 2 0 0) (mkV 0 1 0) (mkV 0 0 1)) (mkV 4 (-31 / 10) 0)) (vscale (/ norm n) n)
               - dot v0 (vscale (/ norm n) n)) with (/ norm n * (712/100))
        by (generalize (/ norm n); intros; unfold n; vunfold; field).
      assert (/ 2 < / norm n) by (apply Rinv_lt_contravar; nra). nra.
Qed.
(** What does hold for a general invertible matrix: the three defining points and
    directions move linearly, so boundary *points* of a plane stay on it whenever the
    matrix keeps the angle of the normal to the plane (in particular orthogonal ones,
    C18); missing for general matrices: the normal should be multiplied by the
    inverse transpose and the radius is never scaled. *)
Theorem C20_general_matrix_partial : forall m o s, valid_sphere s ->
  exists a', matrix_alg m o (ASphere s) = Ok a' /\
    forall k, 0 <= k -> (forall v, norm (mv m v) = k * norm v) ->
    forall p, alg_interior a' (matrix_pt m o p) = true <->
              k * dist p (s_center s) < s_radius s + s_tol s.
Proof.
  intros m o s [Hr Ht]. eexists. split; [reflexivity|]. intros k Hk Hm p.
  cbn [alg_interior]. unfold sphere_interior. cbn [sphere_set_center s_center s_radius s_tol].
  rewrite Rltb_iff, matrix_pt_sub.
  change (dot (mv m (vsub p (s_center s))) (mv m (vsub p (s_center s))) < (s_radius s + s_tol s) * (s_radius s + s_tol s)
          <-> k * dist p (s_center s) < s_radius s + s_tol s).
  rewrite <- norm_sq, Hm. unfold dist. set (d := norm (vsub p (s_center s))).
  assert (0 <= d) by apply norm_pos. assert (0 <= k * d) by nra. split; intros; nra.
Qed.
Example C20_nonvacuous : valid_sphere (mkSphere 3 (mkV 1 0 0) 1) /\ forall v, norm (mv (mscale 2 mI) v) = 2 * norm v.
Proof.
  split; [split; cbn; lra|]. intros v. replace (mv (mscale 2 mI) v) with (vscale 2 v) by vring. rewrite norm_scale, Rabs_right by lra. reflexivity.
Qed.

(* ------------------------------------------------------------------ *)
(** * C21 *)
Lemma projection_laws : forall pl p, valid_plane pl ->
  let q := project_row pl p in
  on_plane pl q /\
  (exists k, vsub p q = vscale k (p_normal pl)) /\
  project_row pl q = q /\
  dist_from_plane pl p = dist p q /\
  (forall x, on_plane pl x -> dist p q <= dist p x).
Proof.
  intros pl p [Hn Ht] q. pose proof (unit_dot _ Hn) as Hd.
  assert (HP : on_plane pl q).
  { unfold on_plane, q, project_row, sdist_from_plane.
    replace (dot (vsub (vsub p (vscale (dot p (p_normal pl) - dot (p_point pl) (p_normal pl)) (p_normal pl))) (p_point pl)) (p_normal pl))
      with ((dot p (p_normal pl) - dot (p_point pl) (p_normal pl)) * (1 - dot (p_normal pl) (p_normal pl))) by vring.
    rewrite Hd. ring. }
  assert (HK : vsub p q = vscale (sdist_from_plane pl p) (p_normal pl)).
  { unfold q, project_row. generalize (sdist_from_plane pl p). intros. vring. }
  assert (HD : dist p q = dist_from_plane pl p).
  { unfold dist. rewrite HK, norm_scale, Hn. unfold dist_from_plane. ring. }
  split; [exact HP|]. split; [eauto|]. split.
  { unfold project_row at 1. unfold on_plane in HP.
    replace (sdist_from_plane pl q) with 0; [destruct q; vunfold; f_equal; ring|].
    rewrite <- HP. unfold sdist_from_plane. generalize q. intros. vring. }
  split; [auto|]. intros x Hx. rewrite HD. unfold dist_from_plane.
  replace (sdist_from_plane pl p) with (dot (vsub p x) (p_normal pl)).
  2:{ unfold sdist_from_plane. unfold on_plane in Hx.
      replace (dot (vsub p x) (p_normal pl)) with (dot p (p_normal pl) - dot (p_point pl) (p_normal pl) - dot (vsub x (p_point pl)) (p_normal pl)) by vring.
      rewrite Hx. ring. }
  eapply Rle_trans; [apply cauchy|]. rewrite Hn. unfold dist. lra.
Qed.
(** project_point on an Nx3 array: every row goes to the nearest point of the plane *)
Theorem C21_projection_laws : forall pl ps, valid_plane pl ->
  exists qs, project_point pl (A2 ps) = Ok (A2 qs) /\ project_point pl (A2 qs) = Ok (A2 qs) /\
  Forall2 (fun p q => on_plane pl q /\ (exists k, vsub p q = vscale k (p_normal pl)) /\
    dist_from_plane pl p = dist p q /\ forall x, on_plane pl x -> dist p q <= dist p x) ps qs.
Proof.
  intros pl ps V. exists (map (project_row pl) ps). split; [reflexivity|]. split.
  - cbn. rewrite map_map. do 2 f_equal. apply map_ext. intros p. apply (projection_laws pl p V).
  - induction ps as [|p ps IH]; cbn; constructor; [|exact IH]. destruct (projection_laws pl p V) as (H1 & H2 & _ & H3 & H4). auto.
Qed.
(** distances: absolute value of the signed distance, zero exactly on the plane *)
Theorem C21_distance_laws : forall pl p, valid_plane pl ->
  dist_from_plane pl p = Rabs (sdist_from_plane pl p) /\
  (sdist_from_plane pl p = 0 <-> on_plane pl p) /\
  (plane_interior pl p = true <-> dot (vsub p (p_point pl)) (p_normal pl) < p_tol pl).
Proof.
  intros pl p _.
  assert (E : sdist_from_plane pl p = dot (vsub p (p_point pl)) (p_normal pl)) by (unfold sdist_from_plane; vring).
  split; [reflexivity|]. split; [rewrite E; reflexivity|]. unfold plane_interior. rewrite Rltb_iff, E. reflexivity.
Qed.
Theorem C21_flip : forall pl, valid_plane pl ->
  exists pl', flip_orientation pl = Ok pl' /\ valid_plane pl' /\ p_tol pl' = p_tol pl /\
    forall p, sdist_from_plane pl' p = - sdist_from_plane pl p /\
      dist_from_plane pl' p = dist_from_plane pl p /\
      (p_tol pl < dist_from_plane pl p -> plane_interior pl' p = negb (plane_interior pl p)).
Proof.
  intros pl [Hn Ht]. unfold flip_orientation, plane_set_normal.
  rewrite check_unit by (rewrite norm_opp; auto). cbn [bind]. eexists. split; [reflexivity|]. split.
  { split; cbn; auto. rewrite norm_opp; auto. }
  split; [reflexivity|]. intros p.
  assert (E : sdist_from_plane {| p_normal := vopp (p_normal pl); p_point := p_point pl; p_tol := p_tol pl |} p = - sdist_from_plane pl p)
    by (unfold sdist_from_plane; cbn [p_normal p_point]; vring).
  split; [exact E|]. unfold dist_from_plane. rewrite E, Rabs_Ropp. split; [reflexivity|].
  intros H. unfold plane_interior. rewrite E. cbn [p_tol]. set (d := sdist_from_plane pl p) in *.
  destruct (Rcase_abs d) as [Hd|Hd].
  - rewrite Rabs_left in H by auto. rewrite (proj2 (Rltb_iff d (p_tol pl))) by lra.
    cbn. apply Rltb_false. lra.
  - rewrite Rabs_right in H by auto. rewrite (proj2 (Rltb_false d (p_tol pl))) by lra.
    cbn. apply Rltb_iff. lra.
Qed.
Example C21_nonvacuous : exists pl, new_plane (mkV 0 3 4) (mkV 1 1 1) default_tol = Ok pl /\ valid_plane pl /\
  p_tol pl < dist_from_plane pl (mkV 1 4 5).
Proof.
  set (n := mkV 0 3 4).
  assert (N : norm n = 5) by (unfold norm, dot, n; cbn; replace (0*0+3*3+4*4) with (5*5) by ring; apply sqrt_square; lra).
  unfold new_plane. rewrite (proj2 (check_normal_Ok n (vscale (/ norm n) n))) by (pose proof eps_small; split; [lra|auto]).
  cbn [bind]. unfold check_tol. rewrite (proj2 (Rltb_iff 0 default_tol)) by (unfold default_tol; lra). cbn [bind].
  eexists. split; [reflexivity|]. split.
  - split; cbn; [apply vscale_inv_unit; lra|unfold default_tol; lra].
  - unfold dist_from_plane, sdist_from_plane. cbn [p_normal p_point p_tol]. rewrite N. unfold n, default_tol. vunfold.
    rewrite Rabs_right; lra.
Qed.

(* ------------------------------------------------------------------ *)
(** * C22 *)
Theorem C22_always_valid : forall a, built a -> valid_alg a.
Proof.
  pose proof eps_pos as EP.
  induction 1.
  - unfold new_sphere in H. inv_bind H. inv_bind H. inversion H; subst.
    apply check_sphere_radius_Ok in Ha as [? ->]. apply check_tol_Ok in Ha0 as [? ->]. split; auto.
  - unfold new_plane in H. inv_bind H. inv_bind H. inversion H; subst.
    apply check_normal_Ok in Ha as [? ->]. apply check_tol_Ok in Ha0 as [? ->]. split; cbn; auto.
    apply vscale_inv_unit; lra.
  - unfold new_cylinder in H. inv_bind H. inv_bind H. inv_bind H. inv_bind H. inversion H; subst.
    apply check_axis_Ok in Ha as [? ->]. apply check_cyl_len_Ok in Ha0 as [? ->].
    apply check_cyl_len_Ok in Ha1 as [? ->]. apply check_tol_Ok in Ha2 as [? ->].
    repeat split; cbn; try lra. apply vscale_inv_unit; lra.
  - unfold set_tol in H0. inv_bind H0. inversion H0; subst. apply check_tol_Ok in Ha as [? ->].
    destruct a; cbn in *.
    + destruct IHbuilt; split; auto.
    + destruct IHbuilt; split; auto.
    + destruct IHbuilt as (?&?&?&?); repeat split; auto.
  - unfold sphere_set_radius in H0. inv_bind H0. inversion H0; subst. apply check_sphere_radius_Ok in Ha as [? ->].
    destruct IHbuilt; split; auto.
  - destruct IHbuilt; split; auto.
  - unfold plane_set_normal in H0. inv_bind H0. inversion H0; subst. apply check_normal_Ok in Ha as [? ->].
    destruct IHbuilt; split; cbn; auto. apply vscale_inv_unit; lra.
  - destruct IHbuilt; split; auto.
  - unfold flip_orientation, plane_set_normal in H0. inv_bind H0. inversion H0; subst. apply check_normal_Ok in Ha as [? ->].
    destruct IHbuilt; split; cbn; auto. apply vscale_inv_unit; lra.
  - unfold cyl_set_axis in H0. inv_bind H0. inversion H0; subst. apply check_axis_Ok in Ha as [? ->].
    destruct IHbuilt as (?&?&?&?); repeat split; cbn; auto. apply vscale_inv_unit; lra.
  - destruct IHbuilt as (?&?&?&?); repeat split; auto.
  - unfold cyl_set_radius in H0. inv_bind H0. inversion H0; subst. apply check_cyl_len_Ok in Ha as [? ->].
    destruct IHbuilt as (?&?&?&?); repeat split; cbn; auto; lra.
  - unfold cyl_set_length in H0. inv_bind H0. inversion H0; subst. apply check_cyl_len_Ok in Ha as [? ->].
    destruct IHbuilt as (?&?&?&?); repeat split; cbn; auto; lra.
  - eapply apply_alg_valid; eauto.
  - unfold from_alg_object in H0. revert a IHbuilt H H0. induction ts as [|t ts IH]; intros a V B H0; cbn [foldM] in H0.
    + inversion H0; subst; auto.
    + inv_bind H0. eapply IH; [| |exact H0]; [eapply apply_alg_valid; eauto|eapply b_transform; eauto].
Qed.
(** The setters accept exactly: tolerances and sphere radii > 0; cylinder radii and
    lengths >= eps; normals and axes of length > eps (eps = 2^-52).  On acceptance
    only that attribute changes, and directions are normalised. *)
Theorem C22_setters_exact :
  (forall a t, (exists a', set_tol a t = Ok a') <-> 0 < t) /\
  (forall s t a', set_tol (ASphere s) t = Ok a' -> a' = ASphere (mkSphere (s_radius s) (s_center s) t)) /\
  (forall p t a', set_tol (APlane p) t = Ok a' -> a' = APlane (mkPlane (p_normal p) (p_point p) t)) /\
  (forall c t a', set_tol (ACyl c) t = Ok a' -> a' = ACyl (mkCyl (c_axis c) (c_point c) (c_radius c) (c_length c) t)) /\
  (forall s r, (exists s', sphere_set_radius s r = Ok s') <-> 0 < r) /\
  (forall s r s', sphere_set_radius s r = Ok s' -> s' = mkSphere r (s_center s) (s_tol s)) /\
  (forall p n, (exists p', plane_set_normal p n = Ok p') <-> eps < norm n) /\
  (forall p n p', plane_set_normal p n = Ok p' -> p' = mkPlane (vscale (/ norm n) n) (p_point p) (p_tol p)) /\
  (forall c a, (exists c', cyl_set_axis c a = Ok c') <-> eps < norm a) /\
  (forall c a c', cyl_set_axis c a = Ok c' -> c' = mkCyl (vscale (/ norm a) a) (c_point c) (c_radius c) (c_length c) (c_tol c)) /\
  (forall c r, (exists c', cyl_set_radius c r = Ok c') <-> eps <= r) /\
  (forall c r c', cyl_set_radius c r = Ok c' -> c' = mkCyl (c_axis c) (c_point c) r (c_length c) (c_tol c)) /\
  (forall c r, (exists c', cyl_set_length c r = Ok c') <-> eps <= r) /\
  (forall c r c', cyl_set_length c r = Ok c' -> c' = mkCyl (c_axis c) (c_point c) (c_radius c) r (c_tol c)).
Proof.
  assert (G : forall A B (r : res A) (f : A -> B) P, (forall x, r = Ok x <-> P x) ->
              ((exists y, (x <- r ;; Ok (f x)) = Ok y) <-> exists x, P x)).
  { intros A B r f P H. split.
    - intros [y Hy]. inv_bind Hy. exists a. apply H; auto.
    - intros [x Hx]. exists (f x). rewrite (proj2 (H x) Hx). reflexivity. }
  repeat split; intros.
  all: try (unfold set_tol in H; inv_bind H; apply check_tol_Ok in Ha as [_ ->]; injection H as <-; reflexivity).
  all: try (unfold set_tol in H; apply G with (P := fun x => 0 < t /\ x = t) in H; [destruct H; tauto|intros; apply check_tol_Ok]; fail).
  all: try (unfold set_tol; eapply G; [intros; apply check_tol_Ok|eauto]; fail).
  all: try (destruct H as [x H]; unfold sphere_set_radius, plane_set_normal, cyl_set_axis, cyl_set_radius, cyl_set_length in H;
            inv_bind H; first [apply check_sphere_radius_Ok in Ha | apply check_normal_Ok in Ha | apply check_axis_Ok in Ha | apply check_cyl_len_Ok in Ha]; tauto).
  all: try (unfold sphere_set_radius, plane_set_normal, cyl_set_axis, cyl_set_radius, cyl_set_length in *; eapply G;
            [intros; first [apply check_sphere_radius_Ok | apply check_normal_Ok | apply check_axis_Ok | apply check_cyl_len_Ok]|eauto]; fail).
  all: unfold sphere_set_radius, plane_set_normal, cyl_set_axis, cyl_set_radius, cyl_set_length in H;
    inv_bind H; first [apply check_sphere_radius_Ok in Ha | apply check_normal_Ok in Ha | apply check_axis_Ok in Ha | apply check_cyl_len_Ok in Ha];
    destruct Ha as [? ->]; inversion H; reflexivity.
Qed.
Theorem C22_constructors_exact :
  (forall r c t, (exists s, new_sphere r c t = Ok s) <-> 0 < r /\ 0 < t) /\
  (forall n p t, (exists x, new_plane n p t = Ok x) <-> eps < norm n /\ 0 < t) /\
  (forall a p r l t, (exists x, new_cylinder a p r l t = Ok x) <-> eps < norm a /\ eps <= r /\ eps <= l /\ 0 < t).
Proof.
  repeat split.
  - destruct H as [s H]. unfold new_sphere in H. inv_bind H. inv_bind H. apply check_sphere_radius_Ok in Ha. tauto.
  - destruct H as [s H]. unfold new_sphere in H. inv_bind H. inv_bind H. apply check_tol_Ok in Ha0. tauto.
  - intros [H1 H2]. unfold new_sphere. rewrite (proj2 (check_sphere_radius_Ok r r)), (proj2 (check_tol_Ok t t)); auto. cbn. eauto.
  - destruct H as [s H]. unfold new_plane in H. inv_bind H. inv_bind H. apply check_normal_Ok in Ha. tauto.
  - destruct H as [s H]. unfold new_plane in H. inv_bind H. inv_bind H. apply check_tol_Ok in Ha0. tauto.
  - intros [H1 H2]. unfold new_plane. rewrite (proj2 (check_normal_Ok n (vscale (/ norm n) n))), (proj2 (check_tol_Ok t t)); auto. cbn. eauto.
  - destruct H as [s H]. unfold new_cylinder in H. inv_bind H. apply check_axis_Ok in Ha. tauto.
  - destruct H as [s H]. unfold new_cylinder in H. inv_bind H. inv_bind H. apply check_cyl_len_Ok in Ha0. tauto.
  - destruct H as [s H]. unfold new_cylinder in H. do 3 inv_bind H. apply check_cyl_len_Ok in Ha1. tauto.
  - destruct H as [s H]. unfold new_cylinder in H. do 4 inv_bind H. apply check_tol_Ok in Ha2. tauto.
  - intros (H1 & H2 & H3 & H4). unfold new_cylinder.
    rewrite (proj2 (check_axis_Ok a (vscale (/ norm a) a))), (proj2 (check_cyl_len_Ok r r)), (proj2 (check_cyl_len_Ok l l)), (proj2 (check_tol_Ok t t)); auto.
    cbn. eauto.
Qed.
Example C22_nonvacuous : exists a, built a /\ forall s, a <> ASphere s.
Proof.
  destruct C22_constructors_exact as (_ & HP & _).
  destruct (proj2 (HP (mkV 0 0 1) v0 1)) as [x Hx].
  { pose proof eps_small. replace (norm (mkV 0 0 1)) with 1; [lra|]. symmetry. apply dot_unit. vring. }
  exists (APlane x). split; [econstructor; eauto|discriminate].
Qed.

(* ------------------------------------------------------------------ *)
(** * C23 *)
Theorem C23_sphere_interior_is_ball : forall s p, valid_sphere s ->
  (sphere_interior s p = true <-> dist p (s_center s) < s_radius s + s_tol s).
Proof.
  intros s p [Hr Ht]. unfold sphere_interior. rewrite Rltb_iff.
  change (dot (vsub p (s_center s)) (vsub p (s_center s)) < (s_radius s + s_tol s) * (s_radius s + s_tol s)
          <-> dist p (s_center s) < s_radius s + s_tol s).
  rewrite <- norm_sq. unfold dist. pose proof (norm_pos (vsub p (s_center s))). split; intros; nra.
Qed.
(** In terms of the axis vector [a] the caller supplied (any length): the foot point
    of p on the axis line is the nearest point of that line, and interiority compares
    its distance to p and to the centre with the padded radius and half length. *)
Theorem C23_cylinder_interior : forall a x r l t c p,
  new_cylinder a x r l t = Ok c ->
  let foot := vadd x (vscale (dot (vsub p x) a / dot a a) a) in
  (forall k, dist p foot <= dist p (vadd x (vscale k a))) /\
  (cyl_interior c p = true <-> dist p foot < r + t /\ dist foot x < l / 2 + t).
Proof.
  intros a x r l t c p H foot. pose proof eps_pos as EP.
  unfold new_cylinder in H. do 4 inv_bind H. inversion H; subst c.
  apply check_axis_Ok in Ha as [HA ->]. apply check_cyl_len_Ok in Ha0 as [_ ->].
  apply check_cyl_len_Ok in Ha1 as [_ ->]. apply check_tol_Ok in Ha2 as [_ ->].
  set (d := vsub p x) in *. set (N := norm a) in *.
  assert (NA : N * N = dot a a) by apply norm_sq.
  assert (NZ : dot a a <> 0) by nra.
  assert (F1 : vsub p foot = vsub d (vscale (dot d a / dot a a) a)).
  { unfold foot. fold d. generalize (dot d a / dot a a). intros. unfold d. vring. }
  assert (S1 : dot (vsub p foot) (vsub p foot) = dot d d - dot d a * dot d a / dot a a).
  { rewrite F1.
    replace (dot (vsub d (vscale (dot d a / dot a a) a)) (vsub d (vscale (dot d a / dot a a) a)))
      with (dot d d - 2 * (dot d a / dot a a) * dot d a + (dot d a / dot a a) * (dot d a / dot a a) * dot a a)
      by (generalize (dot d a / dot a a); vring).
    field. auto. }
  split.
  - intros k. unfold dist, norm. apply sqrt_le_1_alt. rewrite S1.
    replace (vsub p (vadd x (vscale k a))) with (vsub d (vscale k a)) by (unfold d; vring).
    replace (dot (vsub d (vscale k a)) (vsub d (vscale k a)))
      with (dot d d - dot d a * dot d a / dot a a + (k * N - dot d a / N) * (k * N - dot d a / N)).
    + pose proof (Rle_0_sqr (k * N - dot d a / N)). unfold Rsqr in *. lra.
    + replace ((k * N - dot d a / N) * (k * N - dot d a / N)) with (k * k * (N*N) - 2 * k * dot d a + dot d a * dot d a / (N*N)) by (field; lra).
      rewrite NA. replace (dot (vsub d (vscale k a)) (vsub d (vscale k a))) with (dot d d - 2 * k * dot d a + k * k * dot a a) by vring.
      lra.
  - unfold cyl_interior. cbn [c_point c_axis c_radius c_length c_tol]. fold d.
    rewrite andb_true_iff, !Rltb_iff.
    assert (E1 : norm (cross d (vscale (/ N) a)) = dist p foot).
    { unfold dist, norm. f_equal. rewrite S1, lagrange.
      replace (dot (vscale (/ N) a) (vscale (/ N) a)) with (/ (N * N) * dot a a) by (transitivity (/ N * / N * dot a a); [field; lra|vring]).
      replace (dot d (vscale (/ N) a)) with (/ N * dot d a) by vring.
      rewrite NA. replace (/ N * dot d a * (/ N * dot d a)) with (dot d a * dot d a / (N * N)) by (field; lra).
      rewrite NA. field. auto. }
    assert (E2 : Rabs (dot d (vscale (/ N) a)) = dist foot x).
    { unfold dist. replace (vsub foot x) with (vscale (dot d a / dot a a) a) by (unfold foot; fold d; generalize (dot d a / dot a a); vring).
      rewrite norm_scale. fold N. rewrite <- NA.
      replace (dot d (vscale (/ N) a)) with (dot d a / (N * N) * N).
      - rewrite Rabs_mult, (Rabs_right N) by lra. reflexivity.
      - replace (dot d (vscale (/ N) a)) with (/ N * dot d a) by vring. field. lra. }
    rewrite E1, E2. reflexivity.
Qed.
Example C23_nonvacuous : exists c, new_cylinder (mkV 0 0 7) v0 2 10 default_tol = Ok c /\ valid_sphere (mkSphere 3 v0 1).
Proof.
  destruct C22_constructors_exact as (_ & _ & HC).
  destruct (proj2 (HC (mkV 0 0 7) v0 2 10 default_tol)) as [x Hx].
  - pose proof eps_small. replace (norm (mkV 0 0 7)) with 7. unfold default_tol; lra.
    unfold norm, dot; cbn. replace (0*0+0*0+7*7) with (7*7) by ring. symmetry; apply sqrt_square; lra.
  - exists x. split; auto. split; cbn; lra.
Qed.

(* ------------------------------------------------------------------ *)
(** * C24 *)
(** The facet with vertices a,b,c supports the point set: all points on one side. *)
Definition facet_normal (a b c : vec) : vec := cross (vsub b a) (vsub c a).
Definition supports (points : list vec) (a b c : vec) : Prop :=
  (forall p, In p points -> 0 <= dot (vsub p a) (facet_normal a b c)) \/
  (forall p, In p points -> dot (vsub p a) (facet_normal a b c) <= 0).
(** the centroid is at least the tolerance 1e-5 away from the facet's plane *)
Definition thick (points : list vec) (a b c : vec) : Prop :=
  default_tol * norm (facet_normal a b c) <= Rabs (dot (vsub (vmean points) a) (facet_normal a b c)).

Lemma vsum_dot n a : forall ps, dot (fold_right vadd v0 ps) n - INR (length ps) * dot a n
  = fold_right Rplus 0 (map (fun p => dot (vsub p a) n) ps).
Proof.
  induction ps as [|p ps IH]; cbn [fold_right map length].
  - cbn [INR]. vunfold. ring.
  - rewrite S_INR, <- IH. vring.
Qed.
Lemma vmean_dot n a ps : ps <> [] ->
  INR (length ps) * dot (vsub (vmean ps) a) n = fold_right Rplus 0 (map (fun p => dot (vsub p a) n) ps).
Proof.
  intros H. rewrite <- vsum_dot. unfold vmean. set (s := fold_right vadd v0 ps).
  assert (INR (length ps) <> 0) by (destruct ps; [congruence|]; apply not_0_INR; discriminate).
  replace (dot (vsub (vscale (/ INR (length ps)) s) a) n) with (/ INR (length ps) * dot s n - dot a n) by vring.
  field; auto.
Qed.

Lemma facet_to_plane_inv points i j k pl :
  facet_to_plane points (i, j, k) = Ok pl ->
  exists a b c, nth_error points i = Some a /\ nth_error points j = Some b /\ nth_error points k = Some c /\
    eps < norm (facet_normal a b c) /\
    pl = mkPlane (vscale (/ norm (facet_normal a b c)) (facet_normal a b c)) a default_tol.
Proof.
  unfold facet_to_plane. destruct (nth_error points i) as [a|], (nth_error points j) as [b|], (nth_error points k) as [c|];
    try discriminate. intros H. exists a, b, c. fold (facet_normal a b c) in H.
  unfold new_plane in H. inv_bind H. inv_bind H. apply check_normal_Ok in Ha as [H1 ->]. apply check_tol_Ok in Ha0 as [_ ->].
  inversion H; subst. repeat split; auto.
Qed.

(** If every facet supports the points and none is closer than 1e-5 to the centroid,
    the points, their convex hull and the centroid are on the closed interior side of
    every returned plane; one plane per facet, passing through that facet. *)
Theorem C24_hull_planes_face_inward_partial : forall points facets cin planes,
  convex_hull_to_planes points facets cin = Ok planes ->
  (forall i j k a b c, In (i, j, k) facets -> nth_error points i = Some a -> nth_error points j = Some b ->
     nth_error points k = Some c -> supports points a b c /\ thick points a b c) ->
  cin = true /\ length planes = length facets /\
  (forall n i j k a b c pl, nth_error facets n = Some (i, j, k) -> nth_error planes n = Some pl ->
     nth_error points i = Some a -> nth_error points j = Some b -> nth_error points k = Some c ->
     on_plane pl a /\ on_plane pl b /\ on_plane pl c) /\
  forall pl, In pl planes -> valid_plane pl /\
    forall p, in_hull points p -> sdist_from_plane pl p <= 0 /\ plane_interior pl p = true.
Proof.
  intros points facets cin planes H HS. unfold convex_hull_to_planes in H. apply bind_Ok in H as (pls0 & Ha & H).
  destruct cin; [|discriminate]. cbn [negb] in H. apply mapM_Forall2 in Ha, H.
  assert (TP : 0 < default_tol) by (unfold default_tol; lra). pose proof eps_pos as EP.
  (* the key step, one facet *)
  assert (K : forall f pl0 pl, In f facets -> facet_to_plane points f = Ok pl0 ->
     (if plane_interior pl0 (vmean points) then Ok pl0 else flip_orientation pl0) = Ok pl ->
     valid_plane pl /\
     (forall i j k a b c, f = (i,j,k) -> nth_error points i = Some a -> nth_error points j = Some b ->
        nth_error points k = Some c -> on_plane pl a /\ on_plane pl b /\ on_plane pl c) /\
     p_tol pl = default_tol /\
     forall p, In p points -> sdist_from_plane pl p <= 0).
  { intros [[i j] k] pl0 pl Hf H0 H1.
    apply facet_to_plane_inv in H0 as (a & b & c & Hi & Hj & Hk & HN & ->).
    destruct (HS i j k a b c Hf Hi Hj Hk) as [SU TH].
    set (n := facet_normal a b c) in *. set (N := norm n) in *.
    assert (NN : points <> []) by (intros ->; destruct i; discriminate).
    assert (VP : valid_plane (mkPlane (vscale (/ N) n) a default_tol)).
    { split; cbn; auto. apply vscale_inv_unit; fold N; lra. }
    assert (SD : forall p, sdist_from_plane (mkPlane (vscale (/ N) n) a default_tol) p = / N * dot (vsub p a) n).
    { intros p. unfold sdist_from_plane. cbn [p_normal p_point]. generalize (/ N). intros. vring. }
    assert (IN : 0 < / N) by (apply Rinv_0_lt_compat; lra).
    pose proof (vmean_dot n a points NN) as HM. set (mc := dot (vsub (vmean points) a) n) in *.
    assert (LP : 0 < INR (length points)) by (destruct points; [congruence|]; apply lt_0_INR; simpl; lia).
    assert (ONP : forall pl', (exists s, p_normal pl' = vscale s n) -> p_point pl' = a ->
       on_plane pl' a /\ on_plane pl' b /\ on_plane pl' c).
    { intros pl' [s Hs] Hp. unfold on_plane. rewrite Hs, Hp. unfold n, facet_normal. repeat split; vring. }
    destruct (plane_interior _ (vmean points)) eqn:EI.
    - inversion H1; subst pl. split; [exact VP|]. split.
      { intros i' j' k' a' b' c' E Hi' Hj' Hk'. inversion E; subst. rewrite Hi in Hi'; rewrite Hj in Hj'; rewrite Hk in Hk'.
        inversion Hi'; inversion Hj'; inversion Hk'; subst. apply ONP; cbn; eauto. }
      split; [reflexivity|]. unfold plane_interior in EI. apply Rltb_iff in EI. rewrite SD in EI. cbn [p_tol] in EI. fold mc in EI.
      destruct SU as [SU|SU].
      + exfalso. assert (0 <= mc).
        { assert (0 <= INR (length points) * mc).
          { rewrite HM. clear - SU. induction points as [|p ps IH]; cbn [map fold_right]; [lra|].
            assert (0 <= dot (vsub p a) n) by (apply SU; simpl; auto).
            assert (0 <= fold_right Rplus 0 (map (fun p0 => dot (vsub p0 a) n) ps)) by (apply IH; intros; apply SU; simpl; auto). lra. }
          nra. }
        unfold thick in TH. fold n N mc in TH. rewrite Rabs_right in TH by lra.
        assert (Q : default_tol * N * / N <= mc * / N) by (apply Rmult_le_compat_r; lra).
        replace (default_tol * N * / N) with default_tol in Q by (field; lra). lra.
      + intros p Hp. rewrite SD. specialize (SU p Hp). fold n in SU.
        assert (0 <= / N * - dot (vsub p a) n) by (apply Rmult_le_pos; lra). lra.
    - unfold flip_orientation, plane_set_normal in H1. cbn [p_normal p_point p_tol] in H1.
      destruct VP as [VN VT]. cbn in VN.
      rewrite check_unit in H1 by (rewrite norm_opp; exact VN). cbn [bind] in H1. inversion H1; subst pl.
      assert (SD' : forall p, sdist_from_plane (mkPlane (vopp (vscale (/ N) n)) a default_tol) p = - (/ N * dot (vsub p a) n)).
      { intros p. unfold sdist_from_plane. cbn [p_normal p_point]. generalize (/ N). intros. vring. }
      split; [split; cbn; auto; rewrite norm_opp; auto|]. split.
      { intros i' j' k' a' b' c' E Hi' Hj' Hk'. inversion E; subst. rewrite Hi in Hi'; rewrite Hj in Hj'; rewrite Hk in Hk'.
        inversion Hi'; inversion Hj'; inversion Hk'; subst. apply ONP; cbn; auto. exists (- / N). generalize (/ N); vring. }
      split; [reflexivity|]. unfold plane_interior in EI. apply Rltb_false in EI. rewrite SD in EI. cbn [p_tol] in EI. fold mc in EI.
      destruct SU as [SU|SU].
      + intros p Hp. rewrite SD'. specialize (SU p Hp). fold n in SU.
        assert (0 <= / N * dot (vsub p a) n) by (apply Rmult_le_pos; lra). lra.
      + exfalso. assert (mc <= 0).
        { assert (INR (length points) * mc <= 0).
          { rewrite HM. clear - SU. induction points as [|p ps IH]; cbn [map fold_right]; [lra|].
            assert (dot (vsub p a) n <= 0) by (apply SU; simpl; auto).
            assert (fold_right Rplus 0 (map (fun p0 => dot (vsub p0 a) n) ps) <= 0) by (apply IH; intros; apply SU; simpl; auto). lra. }
          nra. }
        assert (0 <= / N * - mc) by (apply Rmult_le_pos; lra). lra. }
  assert (Z : Forall2 (fun f pl => In f facets /\ exists pl0, facet_to_plane points f = Ok pl0 /\
     (if plane_interior pl0 (vmean points) then Ok pl0 else flip_orientation pl0) = Ok pl) facets planes).
  { clear K HS. assert (INC : incl facets facets) by apply incl_refl. revert INC. generalize facets at 2 3 as big. intros big.
    revert planes H. induction Ha as [|f pl0 fs pls0 Hf _ IH]; intros planes H INC; inversion H; subst; constructor.
    - split; [apply INC; simpl; auto|]. eauto.
    - apply IH; auto. intros z Hz; apply INC; simpl; auto. }
  split; [reflexivity|]. split; [symmetry; eapply Forall2_len; exact Z|]. split.
  - intros n i j k a' b c pl Hf Hp Hi Hj Hk.
    assert (ZZ : forall fs ps n, Forall2 (fun f pl => In f facets /\ exists pl0, facet_to_plane points f = Ok pl0 /\
     (if plane_interior pl0 (vmean points) then Ok pl0 else flip_orientation pl0) = Ok pl) fs ps ->
       nth_error fs n = Some (i,j,k) -> nth_error ps n = Some pl -> In (i,j,k) facets /\ exists pl0, facet_to_plane points (i,j,k) = Ok pl0 /\
     (if plane_interior pl0 (vmean points) then Ok pl0 else flip_orientation pl0) = Ok pl).
    { intros fs ps m F2. revert m. induction F2; intros [|m]; cbn; intros E1 E2; first [discriminate | eapply IHF2; eassumption | inversion E1; inversion E2; subst; assumption]. }
    destruct (ZZ _ _ _ Z Hf Hp) as (In1 & pl0 & E0 & E1). destruct (K _ _ _ In1 E0 E1) as (_ & KK & _). eauto.
  - intros pl Hpl. assert (exists f, In f facets /\ exists pl0, facet_to_plane points f = Ok pl0 /\
     (if plane_interior pl0 (vmean points) then Ok pl0 else flip_orientation pl0) = Ok pl) as (f & Hf & pl0 & E0 & E1).
    { destruct (Forall2_in_r _ _ _ _ Z Hpl) as (f & _ & ? & ?). eauto. }
    destruct (K _ _ _ Hf E0 E1) as (V & _ & T & S). split; [exact V|]. intros p Hp.
    assert (SL : sdist_from_plane pl p <= 0).
    { refine (in_hull_ind (fun q => sdist_from_plane pl q <= 0) _ points S p Hp).
      intros x y t Hx Hy Ht.
      replace (sdist_from_plane pl (lerp t x y)) with ((1 - t) * sdist_from_plane pl x + t * sdist_from_plane pl y)
        by (unfold lerp, sdist_from_plane; vring). nra. }
    split; [exact SL|]. unfold plane_interior. apply Rltb_iff. rewrite T. lra.
Qed.

(** A tetrahedron 2e-5 high: all four hull facets support the points, yet the base
    plane is returned with the apex outside. *)
Definition thin_tetra : list vec := [mkV 0 0 0; mkV 1 0 0; mkV 0 1 0; mkV 0 0 (2 * default_tol)].
Definition tetra_facets : list (nat * nat * nat) := [(0,1,2); (0,1,3); (0,2,3); (1,2,3)]%nat.
Lemma norm_ge_comp v : Rabs (vx v) <= norm v /\ Rabs (vy v) <= norm v /\ Rabs (vz v) <= norm v.
Proof.
  unfold norm. repeat split; rewrite <- sqrt_Rsqr_abs; apply sqrt_le_1_alt; unfold Rsqr, dot; nra.
Qed.
Lemma tol_val : default_tol = / 100000. Proof. reflexivity. Qed.
Ltac big_norm :=
  pose proof eps_small;
  match goal with |- eps < norm ?v =>
    let H := fresh in pose proof (norm_ge_comp v) as H; unfold facet_normal in *; revert H; vunfold; rewrite ?tol_val; intros (?&?&?)
  end;
  repeat match goal with H : Rabs ?x <= _ |- _ => pose proof (Rle_abs x); pose proof (Rle_abs (- x)); rewrite (Rabs_Ropp x) in *; revert H end;
  intros; lra.
Theorem C24_thin_hull_refuted :
  (forall i j k a b c, In (i, j, k) tetra_facets -> nth_error thin_tetra i = Some a -> nth_error thin_tetra j = Some b ->
     nth_error thin_tetra k = Some c -> supports thin_tetra a b c) /\
  exists planes pl p, convex_hull_to_planes thin_tetra tetra_facets true = Ok planes /\
    In pl planes /\ In p thin_tetra /\ plane_interior pl p = false.
Proof.
  assert (TP : default_tol = / 100000) by reflexivity. split.
  - intros i j k a b c H Hi Hj Hk. unfold supports, facet_normal.
    repeat (destruct H as [H|H]; [inversion H; subst; cbn in Hi, Hj, Hk; inversion Hi; inversion Hj; inversion Hk; subst|]);
    [left|right|left|right|destruct H]; intros p Hp; repeat (destruct Hp as [<-|Hp]); try destruct Hp; vunfold; rewrite ?TP; lra.
  - assert (FP : forall a b c, eps < norm (facet_normal a b c) ->
       new_plane (cross (vsub b a) (vsub c a)) a default_tol =
       Ok (mkPlane (vscale (/ norm (facet_normal a b c)) (facet_normal a b c)) a default_tol)).
    { intros a b c H. unfold new_plane. fold (facet_normal a b c). rewrite (proj2 (check_normal_Ok _ _) (conj H eq_refl)).
      rewrite (proj2 (check_tol_Ok default_tol default_tol)) by (split; auto; rewrite TP; lra). reflexivity. }
    assert (E2 : eps < / 100000) by (pose proof eps_small; lra).
    unfold convex_hull_to_planes. cbn [tetra_facets mapM facet_to_plane nth_error thin_tetra].
    rewrite FP by big_norm.
    rewrite FP by big_norm.
    rewrite FP by big_norm.
    rewrite FP by big_norm.
    cbn [bind negb mapM]. fold thin_tetra.
    set (n1 := facet_normal (mkV 0 0 0) (mkV 1 0 0) (mkV 0 1 0)).
    assert (N1 : norm n1 = 1) by (apply dot_unit; unfold n1, facet_normal; vring).
    assert (IN : plane_interior (mkPlane (vscale (/ norm n1) n1) (mkV 0 0 0) default_tol) (vmean thin_tetra) = true).
    { unfold plane_interior, sdist_from_plane. apply Rltb_iff. cbn [p_normal p_point p_tol]. rewrite N1.
      unfold n1, facet_normal, vmean, thin_tetra. cbn [length INR fold_right]. vunfold. rewrite TP. lra. }
    rewrite IN. cbn [bind].
    assert (G : forall pl q, valid_plane pl -> exists pl', (if plane_interior pl q then Ok pl else flip_orientation pl) = Ok pl').
    { intros pl q V. destruct (plane_interior pl q); [eauto|]. destruct (C21_flip pl V) as (pl' & E & _). eauto. }
    assert (VP : forall n a, eps < norm n -> valid_plane (mkPlane (vscale (/ norm n) n) a default_tol)).
    { intros n a H. pose proof eps_pos. split; cbn; [apply vscale_inv_unit; lra|rewrite TP; lra]. }
    repeat match goal with |- context [if plane_interior ?pl ?q then Ok ?pl else flip_orientation ?pl] =>
      let x := fresh "x" in let Hx := fresh "Hx" in
      destruct (G pl q) as [x Hx]; [apply VP|rewrite Hx; cbn [bind]] end.
    + big_norm.
    + big_norm.
    + big_norm.
    + eexists. exists (mkPlane (vscale (/ norm n1) n1) (mkV 0 0 0) default_tol), (mkV 0 0 (2 * default_tol)).
      split; [reflexivity|]. split; [simpl; auto|]. split; [simpl; auto|].
      unfold plane_interior, sdist_from_plane. apply Rltb_false. cbn [p_normal p_point p_tol]. rewrite N1.
      unfold n1, facet_normal. vunfold. rewrite TP. lra.
Qed.

(** The call succeeds when no facet is degenerate ... *)
Theorem C24_succeeds : forall points facets,
  (forall i j k, In (i, j, k) facets -> exists a b c, nth_error points i = Some a /\ nth_error points j = Some b /\
     nth_error points k = Some c /\ eps < norm (facet_normal a b c)) ->
  exists planes, convex_hull_to_planes points facets true = Ok planes.
Proof.
  intros points facets H. unfold convex_hull_to_planes.
  assert (TP : default_tol = / 100000) by reflexivity.
  assert (A : exists pls, mapM (facet_to_plane points) facets = Ok pls /\ Forall valid_plane pls).
  { clear -H TP. induction facets as [|((i & j) & k) fs IH]; [exists []; split; [reflexivity|constructor]|].
    destruct IH as (pls & E & V). { intros. apply H. right. assumption. }
    destruct (H i j k (or_introl eq_refl)) as (a & b & c & Ha & Hb & Hc & N).
    exists (mkPlane (vscale (/ norm (facet_normal a b c)) (facet_normal a b c)) a default_tol :: pls). split.
    - cbn [mapM]. unfold facet_to_plane at 1. rewrite Ha, Hb, Hc. unfold new_plane. fold (facet_normal a b c).
      rewrite (proj2 (check_normal_Ok _ _) (conj N eq_refl)). rewrite (proj2 (check_tol_Ok default_tol default_tol)) by (split; auto; rewrite TP; lra).
      cbn [bind]. rewrite E. reflexivity.
    - constructor; [|exact V]. pose proof eps_pos. split; cbn; [apply vscale_inv_unit; lra|rewrite TP; lra]. }
  destruct A as (pls & -> & V). cbn [bind negb]. generalize (vmean points) as q. intros q.
  induction V as [|pl pls V _ IH]; [exists []; reflexivity|]. destruct IH as [r E]. cbn [mapM].
  destruct (plane_interior pl q); [cbn [bind]; rewrite E; cbn; eauto|]. destruct (C21_flip pl V) as (pl' & F & _). rewrite F. cbn [bind]. rewrite E. cbn. eauto.
Qed.
(** ... as for this tetrahedron, which meets the hypotheses of C24_hull_planes_face_inward_partial. *)
Definition fair_tetra : list vec := [mkV 0 0 0; mkV 1 0 0; mkV 0 1 0; mkV 0 0 1].
Example C24_nonvacuous : exists planes, convex_hull_to_planes fair_tetra tetra_facets true = Ok planes /\
  forall i j k a b c, In (i, j, k) tetra_facets -> nth_error fair_tetra i = Some a -> nth_error fair_tetra j = Some b ->
     nth_error fair_tetra k = Some c -> supports fair_tetra a b c /\ thick fair_tetra a b c.
Proof.
  assert (TP : default_tol = / 100000) by reflexivity.
  assert (S : exists planes, convex_hull_to_planes fair_tetra tetra_facets true = Ok planes).
  { apply C24_succeeds. intros i j k H. repeat (destruct H as [H|H]; [inversion H; subst|]); [| | | |destruct H];
      (eexists; eexists; eexists; split; [reflexivity|]; split; [reflexivity|]; split; [reflexivity|]; big_norm). }
  destruct S as [planes S]. exists planes. split; [exact S|].
  intros i j k a b c H Hi Hj Hk.
  assert (NL : forall v, dot v v <= 4 -> norm v <= 2).
  { intros v L. unfold norm. replace 2 with (sqrt 4) by (replace 4 with (2 * 2) by ring; apply sqrt_square; lra). apply sqrt_le_1_alt. exact L. }
  split.
  - unfold supports, facet_normal.
    repeat (destruct H as [H|H]; [inversion H; subst; cbn in Hi, Hj, Hk; inversion Hi; inversion Hj; inversion Hk; subst|]);
    [left|right|left|right|destruct H]; intros p Hp; repeat (destruct Hp as [<-|Hp]); try destruct Hp; vunfold; lra.
  - unfold thick. apply Rle_trans with (default_tol * 2).
    + apply Rmult_le_compat_l; [rewrite TP; lra|]. apply NL. unfold facet_normal.
      repeat (destruct H as [H|H]; [inversion H; subst; cbn in Hi, Hj, Hk; inversion Hi; inversion Hj; inversion Hk; subst; vunfold; lra|]). destruct H.
    + rewrite TP. unfold vmean, fair_tetra, facet_normal. cbn [length INR fold_right].
      repeat (destruct H as [H|H]; [inversion H; subst; cbn in Hi, Hj, Hk; inversion Hi; inversion Hj; inversion Hk; subst; vunfold;
        match goal with |- _ <= Rabs ?x => pose proof (Rle_abs x); pose proof (Rle_abs (- x)); rewrite (Rabs_Ropp x) in * end; lra|]). destruct H.
Qed.
