(** Transformations and lattice planes: C25-C27, C29-C34, C51. *)
From Coq Require Import Reals List ZArith Bool Lra Lia Psatz Nsatz.
From Flocq Require Import Core.Raux Core.Generic_fmt Core.Round_NE.
From Verif.Model Require Import Base Vec Algebraic Transform Voxel Strain Generator Snap.
From Verif.Spec Require Import Geometry AlgSpec CrystalSpec.
From Verif.Proofs Require Import VecFacts VolumeFacts AlgFacts GenFacts.
From Verif.Props Require Import GeneratorProps.
Import ListNotations.
Open Scope R_scope.
Local Arguments IZR : simpl never.

(* ------------------------------------------------------------------ *)
(** * C27: MultiTransform *)

(** The elementary transformations of a (nested) sequence, in order. *)
Fixpoint primitives (t : transform) : list transform :=
  match t with TMulti ts => flat_map primitives ts | _ => [t] end.

Lemma fold_left_flat_map {A B C} (f : A -> B -> A) (g : C -> list B) l : forall a,
  fold_left f (flat_map g l) a = fold_left (fun x c => fold_left f (g c) x) l a.
Proof. induction l as [|x l IH]; intros a; simpl; auto. rewrite fold_left_app. apply IH. Qed.
Lemma foldM_app {A St} (f : St -> A -> res St) l l' s : foldM f (l ++ l') s = (s' <- foldM f l s ;; foldM f l' s').
Proof. revert s. induction l as [|x l IH]; intros s; simpl; auto. destruct (f s x); simpl; auto. Qed.

(** Applying a transformation, however nested, is applying its elementary
    transformations one after the other -- to points, bases and algebraic objects. *)
Theorem C27_sequential_composition : forall t,
  (forall p, apply_pt t p = fold_left (fun q u => apply_pt u q) (primitives t) p) /\
  (forall b, apply_bases t b = fold_left (fun q u => apply_bases u q) (primitives t) b) /\
  (forall a, apply_alg t a = foldM (fun q u => apply_alg u q) (primitives t) a) /\
  locked t = existsb locked (primitives t) /\ basis_only t = existsb basis_only (primitives t).
Proof.
  induction t as [s lk bo|m o lk bo|o lk bo|pl lk bo|ts IH] using transform_ind'; cbn [primitives fold_left foldM existsb].
  1-4: (split; [reflexivity|]; split; [reflexivity|]; split;
        [intros a; first [destruct (apply_alg _ a); reflexivity | reflexivity]|rewrite !orb_false_r; auto]).
  cbn [apply_pt apply_bases apply_alg locked basis_only]. repeat split.
  - intros p. rewrite fold_left_flat_map. revert p. induction IH as [|t ts (H & _) _ IHt]; intros p; cbn; auto. rewrite H. apply IHt.
  - intros p. rewrite fold_left_flat_map. revert p. induction IH as [|t ts (_ & H & _) _ IHt]; intros p; cbn; auto. rewrite H. apply IHt.
  - induction IH as [|t ts (_ & _ & H & _) _ IHt]; intros a; cbn; auto. rewrite foldM_app, H.
    destruct (foldM _ (primitives t) a); cbn; auto.
  - induction IH as [|t ts (_ & _ & _ & H & _) _ IHt]; cbn; auto. rewrite existsb_app, H, IHt. reflexivity.
  - induction IH as [|t ts (_ & _ & _ & _ & H) _ IHt]; cbn; auto. rewrite existsb_app, H, IHt. reflexivity.
Qed.
(** Hence sequences that contain the same elementary transformations in the same
    order are interchangeable: nesting and concatenation are associative, the empty
    sequence is the identity. *)
Theorem C27_nesting_irrelevant : forall t u,
  primitives t = primitives u ->
  (forall p, apply_pt t p = apply_pt u p) /\ (forall b, apply_bases t b = apply_bases u b) /\
  (forall a, apply_alg t a = apply_alg u a).
Proof.
  intros t u E. destruct (C27_sequential_composition t) as (A1 & A2 & A3 & _), (C27_sequential_composition u) as (B1 & B2 & B3 & _).
  rewrite E in *. repeat split; intros; rewrite ?A1, ?A2, ?A3, ?B1, ?B2, ?B3; reflexivity.
Qed.
Theorem C27_concatenation : forall ts us p b a,
  apply_pt (TMulti (ts ++ us)) p = apply_pt (TMulti us) (apply_pt (TMulti ts) p) /\
  apply_bases (TMulti (ts ++ us)) b = apply_bases (TMulti us) (apply_bases (TMulti ts) b) /\
  apply_alg (TMulti (ts ++ us)) a = (a' <- apply_alg (TMulti ts) a ;; apply_alg (TMulti us) a') /\
  apply_pt (TMulti []) p = p /\ apply_bases (TMulti []) b = b /\ apply_alg (TMulti []) a = Ok a.
Proof.
  intros. cbn. rewrite !fold_left_app. repeat split; auto. apply foldM_app.
Qed.
Example C27_nonvacuous :
  primitives (TMulti [TMulti [TTranslation (mkV 1 0 0) true false; TInversion None true false]; TMulti []; TTranslation (mkV 0 1 0) true false]) =
  primitives (TMulti [TTranslation (mkV 1 0 0) true false; TMulti [TInversion None true false; TTranslation (mkV 0 1 0) true false]]) /\
  apply_pt (TMulti [TMulti [TTranslation (mkV 1 0 0) true false; TInversion None true false]; TTranslation (mkV 0 1 0) true false]) v0 = mkV (-1) 1 0.
Proof. split; [reflexivity|]. cbn. apply vec_eq; vunfold; lra. Qed.

(* ------------------------------------------------------------------ *)
(** * C29: Reflection *)

Lemma reflection_pt pl p : dot (p_normal pl) (p_normal pl) = 1 -> forall lk bo,
  apply_pt (TReflection pl lk bo) p = vsub p (vscale (2 * sdist_from_plane pl p) (p_normal pl)).
Proof.
  intros H lk bo. cbn [apply_pt]. unfold matrix_pt, reflection_matrix. rewrite H. unfold Rdiv. rewrite Rinv_1, Rmult_1_r.
  unfold sdist_from_plane. generalize (p_normal pl) (p_point pl). vring.
Qed.
Theorem C29_reflection_is_mirror : forall n x tol pl lk bo,
  new_plane n x tol = Ok pl ->
  let refl := apply_pt (TReflection pl lk bo) in
  (forall p, on_plane pl p -> refl p = p) /\
  (forall p, sdist_from_plane pl (refl p) = - sdist_from_plane pl p) /\
  (forall p, exists s, vsub (refl p) p = vscale s n) /\
  isometry refl /\
  (forall p, refl (refl p) = p) /\
  (forall pl' p, flip_orientation pl = Ok pl' -> apply_pt (TReflection pl' lk bo) p = refl p).
Proof.
  intros n x tol pl lk bo H refl. unfold new_plane in H. inv_bind H. inv_bind H. inversion H; subst pl. clear H.
  apply check_normal_Ok in Ha as [Hn ->]. pose proof eps_pos as HE.
  assert (NP : 0 < norm n) by lra.
  set (m := vscale (/ norm n) n). assert (U : norm m = 1) by (apply vscale_inv_unit; auto).
  pose proof (unit_dot m U) as D. set (pl := mkPlane m x a0).
  assert (R : forall p, refl p = vsub p (vscale (2 * sdist_from_plane pl p) m)) by (intros p; apply (reflection_pt pl); exact D).
  assert (SD : forall p, sdist_from_plane pl (refl p) = - sdist_from_plane pl p).
  { intros p. rewrite R. unfold sdist_from_plane at 1. cbn [pl p_normal p_point].
    replace (dot (vsub p (vscale (2 * sdist_from_plane pl p) m)) m - dot x m) with ((dot p m - dot x m) - 2 * sdist_from_plane pl p * dot m m).
    - rewrite D. unfold sdist_from_plane. cbn. lra.
    - generalize (sdist_from_plane pl p) m. vring. }
  split; [|split; [|split; [|split; [|split]]]].
  - intros p Hp. rewrite R. unfold on_plane in Hp. cbn [pl p_normal p_point] in Hp.
    replace (sdist_from_plane pl p) with 0; [vring|]. unfold sdist_from_plane. cbn [pl p_normal p_point]. rewrite <- Hp. generalize m. vring.
  - exact SD.
  - intros p. exists (- (2 * sdist_from_plane pl p) * / norm n). rewrite R. unfold m. generalize (sdist_from_plane pl p) (/ norm n). vring.
  - intros p q. unfold dist, norm. f_equal. rewrite !R. unfold sdist_from_plane. cbn [pl p_normal p_point].
    transitivity (dot (vsub p q) (vsub p q) + (dot m m - 1) * (4 * dot (vsub p q) m * dot (vsub p q) m)).
    + generalize m. vring.
    + rewrite D. ring.
  - intros p. rewrite (R (refl p)), SD, R. generalize (sdist_from_plane pl p) m. vring.
  - intros pl' p HF. unfold flip_orientation, plane_set_normal in HF. inv_bind HF. inversion HF; subst pl'.
    cbn [pl p_normal p_point p_tol] in *.
    assert (U' : norm (vopp m) = 1) by (rewrite norm_opp; exact U).
    rewrite (check_unit _ U') in Ha. inversion Ha; subst a. rewrite R.
    rewrite (reflection_pt (mkPlane (vopp m) x a0)) by (cbn; rewrite (unit_dot _ U'); reflexivity).
    unfold sdist_from_plane, pl. cbn [p_normal p_point]. generalize m. vring.
Qed.
Example C29_nonvacuous : exists pl, new_plane (mkV 0 0 5) (mkV 0 0 1) default_tol = Ok pl /\
  apply_pt (TReflection pl true false) (mkV 3 4 3) = mkV 3 4 (-1).
Proof.
  assert (N : norm (mkV 0 0 5) = 5).
  { unfold norm. replace (dot (mkV 0 0 5) (mkV 0 0 5)) with (5 * 5) by vring. apply sqrt_square. lra. }
  assert (E : new_plane (mkV 0 0 5) (mkV 0 0 1) default_tol = Ok (mkPlane (mkV 0 0 1) (mkV 0 0 1) default_tol)).
  { unfold new_plane. rewrite (proj2 (check_normal_Ok (mkV 0 0 5) (mkV 0 0 1))).
    - unfold check_tol. rewrite (proj2 (Rltb_iff _ _)); [reflexivity|]. unfold default_tol. lra.
    - rewrite N. pose proof eps_small. split; [lra|]. apply vec_eq; vunfold; lra. }
  eexists. split; [exact E|]. rewrite (reflection_pt (mkPlane (mkV 0 0 1) (mkV 0 0 1) default_tol)) by (cbn; vring).
  unfold sdist_from_plane. cbn. apply vec_eq; vunfold; lra.
Qed.

(* ------------------------------------------------------------------ *)
(** * C34: rigid motions on points *)
Theorem C34_isometries : forall t, rigid t -> isometry (apply_pt t).
Proof.
  induction t as [s lk bo|m o lk bo|o lk bo|pl lk bo|ts IH] using transform_ind'; intros H p q; inversion H; subst; cbn [apply_pt].
  - unfold dist. f_equal. vring.
  - unfold dist. rewrite matrix_pt_sub. apply orth_norm; auto.
  - unfold dist. rewrite matrix_pt_sub. apply orth_norm, orth_neg.
  - clear H. revert p q. induction H1 as [|t ts Ht _ IHt]; intros p q; cbn; auto. inversion IH as [|? ? Hx Hxs]; subst.
    rewrite (IHt Hxs). apply Hx. auto.
Qed.
Theorem C34_inverses : forall p lk bo lk' bo',
  (forall s, apply_pt (TTranslation (vopp s) lk' bo') (apply_pt (TTranslation s lk bo) p) = p) /\
  (forall m o, orthogonal m -> apply_pt (TMatrix (mt m) o lk' bo') (apply_pt (TMatrix m o lk bo) p) = p
                            /\ apply_pt (TMatrix m o lk' bo') (apply_pt (TMatrix (mt m) o lk bo) p) = p) /\
  (forall o, apply_pt (TInversion o lk' bo') (apply_pt (TInversion o lk bo) p) = p) /\
  (forall pl, valid_plane pl -> apply_pt (TReflection pl lk' bo') (apply_pt (TReflection pl lk bo) p) = p).
Proof.
  intros p lk bo lk' bo'. split; [|split; [|split]].
  - intros s. cbn. vring.
  - assert (G : forall m o, mm (mt m) m = mI -> matrix_pt (mt m) o (matrix_pt m o p) = p).
    { intros m o E. unfold matrix_pt. destruct o as [o|].
      - rewrite vsub_vadd, <- mv_mm, E, mv_id. apply vadd_vsub.
      - rewrite <- mv_mm, E, mv_id. reflexivity. }
    intros m o H. cbn. split; [apply G, orth_mt; auto|]. rewrite <- (mt_mt m) at 1. apply G. rewrite mt_mt. exact H.
  - intros o. cbn. unfold matrix_pt. destruct o; vring.
  - intros pl [U _]. pose proof (unit_dot _ U) as D. rewrite !(reflection_pt pl) by auto.
    assert (SD : sdist_from_plane pl (vsub p (vscale (2 * sdist_from_plane pl p) (p_normal pl))) = - sdist_from_plane pl p).
    { unfold sdist_from_plane at 1.
      replace (dot (vsub p (vscale (2 * sdist_from_plane pl p) (p_normal pl))) (p_normal pl) - dot (p_point pl) (p_normal pl))
        with (sdist_from_plane pl p - 2 * sdist_from_plane pl p * dot (p_normal pl) (p_normal pl)).
      - rewrite D. lra.
      - unfold sdist_from_plane at 1. generalize (sdist_from_plane pl p) (p_normal pl). vring. }
    rewrite SD. generalize (sdist_from_plane pl p) (p_normal pl). vring.
Qed.
Example C34_nonvacuous : rigid (TMulti [TTranslation (mkV 1 2 3) true false; TMatrix (mkM (mkV 0 (-1) 0) (mkV 1 0 0) (mkV 0 0 1)) (Some (mkV 1 1 1)) true false]).
Proof. repeat constructor. unfold orthogonal. vring. Qed.

(* ------------------------------------------------------------------ *)
(** * C33: accepted rotation matrices *)
Lemma quad_bound m u : Rabs (dot u (mv m u)) <= msumabs m * dot u u.
Proof.
  destruct m as [[a b c] [d e f] [g h i]], u as [x y z]. unfold msumabs. cbn. unfold dot. cbn.
  assert (X : 0 <= x * x) by nra. assert (Y : 0 <= y * y) by nra. assert (Z : 0 <= z * z) by nra.
  assert (B : forall k s t, s * s + t * t <= 2 * (x*x+y*y+z*z) -> - (Rabs k * (x*x+y*y+z*z)) <= k * (s * t) <= Rabs k * (x*x+y*y+z*z)).
  { intros k s t Hst. pose proof (Rle_0_sqr (s - t)) as S1. pose proof (Rle_0_sqr (s + t)) as S2. unfold Rsqr in *.
    set (q := x*x+y*y+z*z) in *. set (p := s * t). assert (L1 : - q <= p) by (unfold p; lra). assert (L2 : p <= q) by (unfold p; lra).
    clearbody p q. unfold Rabs. destruct (Rcase_abs k); split; nra. }
  pose proof (B a x x ltac:(lra)). pose proof (B b x y ltac:(lra)). pose proof (B c x z ltac:(lra)).
  pose proof (B d y x ltac:(lra)). pose proof (B e y y ltac:(lra)). pose proof (B f y z ltac:(lra)).
  pose proof (B g z x ltac:(lra)). pose proof (B h z y ltac:(lra)). pose proof (B i z z ltac:(lra)).
  unfold dot. cbn. apply Rabs_le. split; lra.
Qed.
Lemma near_isometry : forall m, Rabs (det m - 1) <= / 10 ^ 6 -> msumabs (msub (mm m (mt m)) mI) <= / 10 ^ 6 -> forall v,
  (1 - / 10 ^ 6) * dot v v <= dot (mv m v) (mv m v) <= (1 + / 10 ^ 6) * dot v v.
Proof.
  intros m H1 H2.
  set (d := / 10 ^ 6) in *. assert (Hd : 0 < d < 1/2) by (unfold d; lra).
  assert (HD : det m <> 0). { intros E. rewrite E in H1. revert H1. unfold Rabs. destruct (Rcase_abs _); lra. }
  assert (T : forall u, (1 - d) * dot u u <= dot (mv (mt m) u) (mv (mt m) u) <= (1 + d) * dot u u).
  { intros u. pose proof (quad_bound (msub (mm m (mt m)) mI) u) as Q.
    replace (dot (mv (mt m) u) (mv (mt m) u)) with (dot u u + dot u (mv (msub (mm m (mt m)) mI) u)).
    2:{ transitivity (dot u (mv (mm m (mt m)) u)); [generalize (mm m (mt m)); vring|]. rewrite mv_mm.
        rewrite (dot_mv (mt m) u), mt_mt. reflexivity. }
    pose proof (dot_pos u). assert (msumabs (msub (mm m (mt m)) mI) * dot u u <= d * dot u u) by nra.
    revert Q. unfold Rabs. destruct (Rcase_abs _); lra. }
  intros v. pose proof (dot_pos v) as Pv. pose proof (dot_pos (mv m v)) as Pu. split.
  - set (w := mv (minv (mt m)) v).
    assert (Dt : det (mt m) <> 0) by (rewrite det_mt; auto).
    assert (Ew : mv (mt m) w = v) by (apply mv_minv_r; auto).
    destruct (T w) as [Tw _]. rewrite Ew in Tw.
    assert (Ed : dot w (mv m v) = dot v v).
    { rewrite dot_comm, dot_mv, Ew. reflexivity. }
    pose proof (cauchy_sq w (mv m v)) as C. rewrite Ed in C.
    destruct (Rle_lt_or_eq_dec 0 (dot v v) Pv) as [Hv|Hv]; [|rewrite <- Hv; lra].
    assert (Pw := dot_pos w).
    assert ((1 - d) * (dot v v * dot v v) <= dot v v * dot (mv m v) (mv m v)).
    { apply Rle_trans with ((1 - d) * (dot w w * dot (mv m v) (mv m v))); [apply Rmult_le_compat_l; lra|].
      replace ((1 - d) * (dot w w * dot (mv m v) (mv m v))) with ((1 - d) * dot w w * dot (mv m v) (mv m v)) by ring.
      apply Rmult_le_compat_r; auto. }
    apply Rmult_le_reg_l with (dot v v); auto. lra.
  - set (u := mv m v) in *. destruct (T u) as [_ Tu].
    assert (Ed : dot v (mv (mt m) u) = dot u u).
    { rewrite dot_comm, dot_mv, mt_mt. reflexivity. }
    pose proof (cauchy_sq v (mv (mt m) u)) as C. rewrite Ed in C.
    destruct (Rle_lt_or_eq_dec 0 (dot u u) Pu) as [Hu|Hu]; [|rewrite <- Hu; nra].
    apply Rmult_le_reg_l with (dot u u); auto.
    apply Rle_trans with (dot v v * dot (mv (mt m) u) (mv (mt m) u)); [exact C|].
    apply Rle_trans with (dot v v * ((1 + d) * dot u u)); [apply Rmult_le_compat_l; auto|]. lra.
Qed.
Theorem C33_near_isometry : forall m, rotation_ok m = true -> forall v,
  (1 - / 10 ^ 6) * dot v v <= dot (mv m v) (mv m v) <= (1 + / 10 ^ 6) * dot v v.
Proof.
  intros m H. unfold rotation_ok in H. apply andb_true_iff in H as [H1 H2]. apply Rltb_iff in H1, H2.
  apply near_isometry; lra.
Qed.
(** So distances are kept to the same tolerance, about any centre. *)
Theorem C33_distances : forall m o lk bo t p q, new_rotation m o lk bo = Ok t ->
  (1 - / 10 ^ 6) * (dist p q) ^ 2 <= (dist (apply_pt t p) (apply_pt t q)) ^ 2 <= (1 + / 10 ^ 6) * (dist p q) ^ 2.
Proof.
  intros m o lk bo t p q H. unfold new_rotation in H. destruct (rotation_ok m) eqn:E; [|discriminate]. inversion H; subst.
  cbn [apply_pt]. unfold dist. rewrite matrix_pt_sub.
  replace (norm (vsub p q) ^ 2) with (dot (vsub p q) (vsub p q)) by (rewrite <- norm_sq; ring).
  replace (norm (mv m (vsub p q)) ^ 2) with (dot (mv m (vsub p q)) (mv m (vsub p q))) by (rewrite <- norm_sq; ring).
  apply C33_near_isometry; auto.
Qed.
Lemma msumabs_0 : msumabs (msub mI mI) = 0.
Proof. unfold msumabs. vunfold. rewrite !Rminus_diag_eq by reflexivity. rewrite !Rabs_R0. ring. Qed.
Theorem C33_exact_rotations_accepted : forall m o lk bo, rotation m -> new_rotation m o lk bo = Ok (TMatrix m o lk bo).
Proof.
  intros m o lk bo [H D]. unfold new_rotation, rotation_ok. rewrite H, D, msumabs_0. rewrite Rminus_diag_eq by reflexivity. rewrite Rabs_R0.
  rewrite (proj2 (Rltb_iff _ _)) by lra. reflexivity.
Qed.
Example C33_nonvacuous : rotation (mkM (mkV (3/5) (-4/5) 0) (mkV (4/5) (3/5) 0) (mkV 0 0 1)).
Proof. split; [unfold orthogonal|]; [apply mat_eq; apply vec_eq|]; vunfold; lra. Qed.

(* ------------------------------------------------------------------ *)
(** * C30: rot_vtv *)
Lemma rodrigues_rotation k th : dot k k = 1 -> rotation (rodrigues k th).
Proof.
  intros H. pose proof (sin2_cos2 th) as SC. unfold Rsqr in SC. unfold rodrigues.
  destruct k as [x y z]. unfold dot in H. cbn in H.
  generalize dependent (sin th). generalize (cos th). intros c s SC. split.
  - unfold orthogonal, skew. apply mat_eq; apply vec_eq; vunfold; nsatz.
  - unfold skew. vunfold. nsatz.
Qed.
(** Rotation by theta about the unit axis k, for v perpendicular to k. *)
Lemma rodrigues_perp k th v : dot k v = 0 -> dot k k = 1 ->
  mv (rodrigues k th) v = vadd (vscale (cos th) v) (vscale (sin th) (cross k v)).
Proof.
  intros H D. unfold rodrigues.
  transitivity (vadd (vadd v (vscale (sin th) (cross k v))) (vscale (1 - cos th) (vsub (vscale (dot k v) k) (vscale (dot k k) v)))).
  - generalize (sin th) (cos th). unfold skew. vring.
  - rewrite H, D. generalize (sin th) (cos th). vring.
Qed.
Lemma unit_scale v : norm v <> 0 -> dot (vscale (/ norm v) v) (vscale (/ norm v) v) = 1.
Proof. intros H. apply unit_dot. apply vscale_inv_unit. pose proof (norm_pos v). lra. Qed.

Lemma acos_m1 : acos (-1) = PI.
Proof. replace (-1) with (- (1)) by lra. rewrite acos_opp, acos_1. lra. Qed.
Definition unit_vec (v : vec) : vec := vscale (/ norm v) v.
Lemma cos_angle_range v w : norm v <> 0 -> norm w <> 0 -> -1 <= dot v w / (norm v * norm w) <= 1.
Proof.
  intros Hv Hw. pose proof (norm_pos v). pose proof (norm_pos w).
  assert (P : 0 < norm v * norm w) by (apply Rmult_lt_0_compat; lra).
  pose proof (cauchy v w) as C. apply Rabs_le_inv in C. split.
  - apply Rmult_le_reg_r with (norm v * norm w); auto. unfold Rdiv. rewrite Rmult_assoc, Rinv_l by lra. lra.
  - apply Rmult_le_reg_r with (norm v * norm w); auto. unfold Rdiv. rewrite Rmult_assoc, Rinv_l by lra. lra.
Qed.

(** Whatever matrix is returned is a proper rotation. *)
Theorem C30_always_rotation : forall v vt M, rot_vtv v vt = Some M -> rotation M.
Proof.
  intros v vt M H. unfold rot_vtv in H.
  destruct (Reqb (norm v * norm vt) 0); [discriminate|].
  destruct (Rltb _ eps); [inversion H; subst; apply rotation_mI|].
  destruct (Reqb (norm _) 0) eqn:E in H; [discriminate|]. apply Reqb_false in E. inversion H; subst.
  apply rodrigues_rotation, unit_scale, E.
Qed.

(** For directions that are neither parallel nor antiparallel to within machine
    epsilon, the first direction is carried exactly onto the second. *)
Theorem C30_aligns_partial : forall v vt,
  norm v <> 0 -> norm vt <> 0 ->
  eps <= acos (dot v vt / (norm v * norm vt)) <= PI - eps ->
  exists M, rot_vtv v vt = Some M /\ rotation M /\ mv M (unit_vec v) = unit_vec vt.
Proof.
  intros v vt Hv Ht [HA HB]. pose proof eps_pos as EP. pose proof (norm_pos v). pose proof (norm_pos vt).
  set (c := dot v vt / (norm v * norm vt)) in *.
  pose proof (cos_angle_range v vt Hv Ht) as CR. fold c in CR.
  assert (PP : norm v * norm vt <> 0) by (apply Rmult_integral_contrapositive; auto).
  assert (Ec : dot v vt = c * (norm v * norm vt)) by (unfold c; field; auto).
  assert (Ccos : cos (acos c) = c) by (apply cos_acos; lra).
  assert (Csin : sin (acos c) = sqrt (1 - c²)) by (apply sin_acos; lra).
  assert (SP : 0 < sin (acos c)). { apply sin_gt_0; lra. }
  assert (L : norm (cross v vt) = norm v * norm vt * sin (acos c)).
  { unfold norm at 1. rewrite lagrange, Ec, <- !norm_sq.
    replace (norm v * norm v * (norm vt * norm vt) - c * (norm v * norm vt) * (c * (norm v * norm vt)))
      with ((norm v * norm vt * sin (acos c)) * (norm v * norm vt * sin (acos c))).
    - apply sqrt_square. apply Rmult_le_pos; [apply Rmult_le_pos|]; lra.
    - rewrite Csin. replace (norm v * norm vt * sqrt (1 - c²) * (norm v * norm vt * sqrt (1 - c²))) with (norm v * norm vt * (norm v * norm vt) * (sqrt (1 - c²) * sqrt (1 - c²))) by ring.
      rewrite sqrt_sqrt by (unfold Rsqr; nra). unfold Rsqr. ring. }
  assert (NC : norm (cross v vt) <> 0). { rewrite L. apply Rmult_integral_contrapositive. split; auto. lra. }
  exists (rodrigues (vscale (/ norm (cross v vt)) (cross v vt)) (acos c)).
  split; [|split].
  - unfold rot_vtv. rewrite (proj2 (Reqb_false _ _) PP). fold c.
    rewrite (proj2 (Rltb_false _ _)) by lra. rewrite (proj2 (Rltb_false _ _)) by lra.
    rewrite (proj2 (Reqb_false _ _) NC). reflexivity.
  - apply rodrigues_rotation, unit_scale, NC.
  - rewrite rodrigues_perp; [|unfold unit_vec; generalize (/ norm (cross v vt)) (/ norm v); vring|apply unit_scale, NC].
    rewrite Ccos.
    replace (cross (vscale (/ norm (cross v vt)) (cross v vt)) (unit_vec v))
      with (vscale (/ norm (cross v vt) * / norm v) (vsub (vscale (dot v v) vt) (vscale (dot v vt) v))).
    2:{ unfold unit_vec. generalize (/ norm (cross v vt)) (/ norm v). vring. }
    rewrite L, Ec, <- norm_sq. unfold unit_vec.
    assert (S0 : sin (acos c) <> 0) by lra. revert S0. generalize (sin (acos c)). intros s S0.
    revert Hv Ht. generalize (norm v) (norm vt). intros a b Ha Hb. vfield; auto.
Qed.
(** Parallel directions give the identity, which carries one exactly onto the other. *)
Theorem C30_parallel : forall v k, norm v <> 0 -> 0 < k ->
  rot_vtv v (vscale k v) = Some mI /\ mv mI (unit_vec v) = unit_vec (vscale k v).
Proof.
  intros v k Hv Hk. pose proof (norm_pos v). pose proof eps_pos.
  assert (N : norm (vscale k v) = k * norm v) by (rewrite norm_scale, Rabs_pos_eq; lra).
  split.
  - unfold rot_vtv. rewrite N.
    rewrite (proj2 (Reqb_false _ _)) by (apply Rgt_not_eq, Rlt_gt; repeat apply Rmult_lt_0_compat; lra).
    replace (dot v (vscale k v) / (norm v * (k * norm v))) with 1.
    + rewrite acos_1. rewrite (proj2 (Rltb_iff _ _)) by lra. reflexivity.
    + replace (dot v (vscale k v)) with (k * dot v v) by vring. rewrite <- norm_sq. field. lra.
  - rewrite mv_id. unfold unit_vec. rewrite N. revert Hv. generalize (norm v). intros a Ha. vfield; auto; lra.
Qed.
(** The axis picked for opposite directions is parallel to v only on a negative half-axis. *)
Lemma argmin_axis_usable v : norm v <> 0 ->
  ~ (exists a, 0 < a /\ In v [mkV (- a) 0 0; mkV 0 (- a) 0; mkV 0 0 (- a)]) ->
  cross v (argmin_axis v) <> v0.
Proof.
  intros Hv HN E. destruct v as [x y z]. unfold argmin_axis in E. cbn [vx vy vz] in E.
  assert (NZ : ~ (x = 0 /\ y = 0 /\ z = 0)).
  { intros (-> & -> & ->). apply Hv. exact norm_v0. }
  destruct (Rleb x y && Rleb x z) eqn:B.
  - apply andb_prop in B. destruct B as [B1 B2]. apply Rleb_iff in B1, B2.
    assert (y = 0) by (apply (f_equal vz) in E; revert E; vunfold; lra).
    assert (z = 0) by (apply (f_equal vy) in E; revert E; vunfold; lra). subst.
    apply HN. exists (- x). destruct (Req_dec x 0); [tauto|]. split; [lra|left]. f_equal; lra.
  - destruct (Rleb y z) eqn:B'.
    + apply Rleb_iff in B'.
      assert (x = 0) by (apply (f_equal vz) in E; revert E; vunfold; lra).
      assert (z = 0) by (apply (f_equal vx) in E; revert E; vunfold; lra). subst.
      apply HN. exists (- y). destruct (Req_dec y 0); [tauto|]. split; [lra|right; left]. f_equal; lra.
    + apply Rleb_false in B'.
      assert (x = 0) by (apply (f_equal vy) in E; revert E; vunfold; lra).
      assert (y = 0) by (apply (f_equal vx) in E; revert E; vunfold; lra). subst.
      apply HN. exists (- z). split; [lra|right; right; left]. f_equal; lra.
Qed.
(** Exactly opposite directions are aligned, unless v lies on the negative half of a
    coordinate axis. *)
Theorem C30_antiparallel_partial : forall v k, norm v <> 0 -> 0 < k ->
  ~ (exists a, 0 < a /\ In v [mkV (- a) 0 0; mkV 0 (- a) 0; mkV 0 0 (- a)]) ->
  exists M, rot_vtv v (vscale (- k) v) = Some M /\ rotation M /\ mv M (unit_vec v) = unit_vec (vscale (- k) v).
Proof.
  intros v k Hv Hk HC. pose proof (norm_pos v). pose proof eps_pos. pose proof PI_4 as P4. pose proof PI2_1 as P2. pose proof eps_small.
  assert (N : norm (vscale (- k) v) = k * norm v) by (rewrite norm_scale, Rabs_Ropp, Rabs_pos_eq; lra).
  assert (NC : norm (cross v (argmin_axis v)) <> 0) by (intros E; apply (argmin_axis_usable v Hv HC), norm_zero; auto).
  exists (rodrigues (vscale (/ norm (cross v (argmin_axis v))) (cross v (argmin_axis v))) PI).
  split; [|split].
  - unfold rot_vtv. rewrite N.
    rewrite (proj2 (Reqb_false _ _)) by (apply Rgt_not_eq, Rlt_gt; repeat apply Rmult_lt_0_compat; lra).
    replace (dot v (vscale (- k) v) / (norm v * (k * norm v))) with (-1).
    + rewrite acos_m1.
      rewrite (proj2 (Rltb_false _ _)) by lra. rewrite (proj2 (Rltb_iff _ _)) by lra.
      rewrite (proj2 (Reqb_false _ _) NC). reflexivity.
    + replace (dot v (vscale (- k) v)) with (- k * dot v v) by vring. rewrite <- norm_sq. field. lra.
  - apply rodrigues_rotation, unit_scale, NC.
  - rewrite rodrigues_perp; [|unfold unit_vec; generalize (/ norm (cross v (argmin_axis v))) (/ norm v) (argmin_axis v); vring|apply unit_scale, NC].
    rewrite cos_PI, sin_PI. unfold unit_vec at 3. rewrite N. unfold unit_vec. generalize (vscale (/ norm (cross v (argmin_axis v))) (cross v (argmin_axis v))).
    revert Hv. generalize (norm v). intros a Ha c. vfield; auto; lra.
Qed.
(** As stated the property fails: two opposite non-zero directions along -x give NaN. *)
Theorem C30_rot_vtv_refuted :
  norm (mkV (-1) 0 0) <> 0 /\ norm (mkV 1 0 0) <> 0 /\ rot_vtv (mkV (-1) 0 0) (mkV 1 0 0) = None.
Proof.
  assert (N1 : norm (mkV (-1) 0 0) = 1). { unfold norm. replace (dot (mkV (-1) 0 0) (mkV (-1) 0 0)) with 1 by vring. apply sqrt_1. }
  assert (N2 : norm (mkV 1 0 0) = 1). { unfold norm. replace (dot (mkV 1 0 0) (mkV 1 0 0)) with 1 by vring. apply sqrt_1. }
  pose proof eps_pos. pose proof PI2_1 as P2. pose proof eps_small. unfold rot_vtv. rewrite N1, N2.
  split; [lra|split; [lra|]].
  rewrite (proj2 (Reqb_false _ _)) by lra.
  replace (dot (mkV (-1) 0 0) (mkV 1 0 0) / (1 * 1)) with (-1) by (vunfold; field).
  rewrite acos_m1.
  rewrite (proj2 (Rltb_false _ _)) by lra. rewrite (proj2 (Rltb_iff _ _)) by lra.
  replace (argmin_axis (mkV (-1) 0 0)) with (mkV 1 0 0).
  2:{ unfold argmin_axis. cbn. rewrite !(proj2 (Rleb_iff _ _)) by lra. reflexivity. }
  replace (cross (mkV (-1) 0 0) (mkV 1 0 0)) with v0 by vring. rewrite norm_v0, (proj2 (Reqb_iff _ _)); auto.
Qed.
Example C30_nonvacuous : norm (mkV 1 0 0) <> 0 /\ norm (mkV 0 1 0) <> 0 /\
  eps <= acos (dot (mkV 1 0 0) (mkV 0 1 0) / (norm (mkV 1 0 0) * norm (mkV 0 1 0))) <= PI - eps /\
  ~ (exists a, 0 < a /\ In (mkV (-1) (-2) 3) [mkV (- a) 0 0; mkV 0 (- a) 0; mkV 0 0 (- a)]).
Proof.
  assert (N1 : norm (mkV 0 1 0) = 1). { unfold norm. replace (dot (mkV 0 1 0) (mkV 0 1 0)) with 1 by vring. apply sqrt_1. }
  assert (N2 : norm (mkV 1 0 0) = 1). { unfold norm. replace (dot (mkV 1 0 0) (mkV 1 0 0)) with 1 by vring. apply sqrt_1. }
  pose proof eps_pos. pose proof PI2_1 as P2. pose proof eps_small. rewrite N1, N2.
  replace (dot (mkV 1 0 0) (mkV 0 1 0) / (1 * 1)) with 0 by (vunfold; field). rewrite acos_0.
  repeat split; try lra.
  intros (a & Ha & [E|[E|[E|[]]]]); injection E; intros; lra.
Qed.

(* ------------------------------------------------------------------ *)
(** * C31: rot_zxz *)
(** The composition property C31 asks for: rotations about z, x', z'' by alpha, beta,
    gamma, either in the body frame (intrinsic) or in the fixed frame (extrinsic). *)
Definition zxz_spec (alpha beta gamma : R) (intrinsic : bool) : mat :=
  if intrinsic then mm (rot_z alpha) (mm (rot_x beta) (rot_z gamma))
  else mm (rot_z gamma) (mm (rot_x beta) (rot_z alpha)).
Theorem C31_rotation_and_intrinsic_partial : forall al be ga conv,
  rotation (rot_zxz al be ga conv) /\ rot_zxz al be ga true = zxz_spec al be ga true.
Proof.
  intros al be ga conv.
  assert (RZ : forall a, rotation (rot_z a)).
  { intros a. pose proof (sin2_cos2 a) as E. unfold Rsqr in E. split; [unfold orthogonal; apply mat_eq; apply vec_eq|]; unfold rot_z; vunfold; lra. }
  assert (RX : forall a, rotation (rot_x a)).
  { intros a. pose proof (sin2_cos2 a) as E. unfold Rsqr in E. split; [unfold orthogonal; apply mat_eq; apply vec_eq|]; unfold rot_x; vunfold; lra. }
  assert (RM : forall a b, rotation a -> rotation b -> rotation (mm a b)).
  { intros a b [Ha Da] [Hb Db]. split; [apply orth_mm; auto|]. rewrite det_mm, Da, Db. ring. }
  split; [|unfold rot_zxz, zxz_spec, euler_ZXZ; rewrite mm_assoc; reflexivity].
  unfold rot_zxz, euler_ZXZ, euler_zxz. destruct conv; repeat apply RM; auto.
Qed.
(** The extrinsic branch composes Rz(beta) Rx(alpha) Rz(gamma) instead. *)
Theorem C31_extrinsic_partial : forall al be ga,
  rot_zxz al be ga false = mm (rot_z be) (mm (rot_x al) (rot_z ga)).
Proof. intros. unfold rot_zxz, euler_zxz. rewrite mm_assoc. reflexivity. Qed.
Theorem C31_extrinsic_refuted : exists al be ga, rot_zxz al be ga false <> zxz_spec al be ga false.
Proof.
  exists 0, (PI / 2), 0. intros E. apply (f_equal (fun m => vx (r0 m))) in E. revert E.
  unfold rot_zxz, zxz_spec, euler_zxz, rot_z, rot_x. vunfold. rewrite cos_0, sin_0, cos_PI2, sin_PI2. lra.
Qed.

(* ------------------------------------------------------------------ *)
(** * C32: s2s_alignment *)
(** The property asks for a transformation aligning the two surfaces; no call ever
    returns one. *)
Theorem C32_s2s_alignment_refuted : forall M_plane T_plane M_point T_point t,
  snd (s2s_alignment M_plane T_plane M_point T_point) <> Ok t.
Proof.
  intros M T mp tp t H. unfold s2s_alignment in H.
  destruct (rot_vtv _ _); [|discriminate]. destruct (new_rotation _ _ _ _); [|discriminate].
  destruct (apply_alg _ _) as [[| |]|]; try discriminate. cbn [snd] in H.
  unfold project_point in H. destruct mp as [v|l]; destruct tp as [v'|l']; cbn -[nd_sub] in H; try discriminate.
  inv_bind H. inv_bind H. assert (exists l2, a0 = A2 l2) as [l2 ->].
  { unfold nd_sub in Ha. destruct (map _ l') as [|? [|]]; destruct (map _ l) as [|? [|]]; try discriminate Ha;
      try (destruct (Nat.eqb _ _); [|discriminate Ha]); inversion Ha; eauto. }
  cbn in Ha0. discriminate.
Qed.
(** And the caller's M_plane is rotated in place although the call fails. *)
Theorem C32_argument_mutated_refuted : exists M_plane T_plane M_point T_point,
  valid_plane M_plane /\ valid_plane T_plane /\
  fst (s2s_alignment M_plane T_plane M_point T_point) <> M_plane.
Proof.
  set (M := mkPlane (mkV 1 0 0) v0 default_tol). set (T := mkPlane (mkV 0 1 0) v0 default_tol).
  exists M, T, (A1 v0), (A1 v0).
  assert (N1 : norm (mkV 1 0 0) = 1). { unfold norm. replace (dot (mkV 1 0 0) (mkV 1 0 0)) with 1 by vring. apply sqrt_1. }
  assert (N2 : norm (mkV 0 1 0) = 1). { unfold norm. replace (dot (mkV 0 1 0) (mkV 0 1 0)) with 1 by vring. apply sqrt_1. }
  assert (N3 : norm (vscale (-1) (mkV 0 1 0)) = 1). { rewrite norm_scale, N2. unfold Rabs. destruct (Rcase_abs (-1)); lra. }
  assert (TP : 0 < default_tol) by (unfold default_tol; lra).
  split; [split; cbn; auto|]. split; [split; cbn; auto|].
  pose proof eps_pos. pose proof PI2_1 as P2. pose proof eps_small.
  destruct (C30_aligns_partial (mkV 1 0 0) (vscale (-1) (mkV 0 1 0))) as (Rm & ER & RR & AL).
  { rewrite N1. lra. } { rewrite N3. lra. }
  { rewrite N1, N3. replace (dot (mkV 1 0 0) (vscale (-1) (mkV 0 1 0)) / (1 * 1)) with 0 by (vunfold; field). rewrite acos_0. lra. }
  unfold s2s_alignment. cbn [M T p_normal p_point]. rewrite ER. rewrite C33_exact_rotations_accepted by exact RR.
  cbn [apply_alg matrix_alg M p_normal p_point plane_set_point].
  unfold unit_vec in AL. rewrite N1, N3 in AL. rewrite Rinv_1 in AL.
  replace (vscale 1 (mkV 1 0 0)) with (mkV 1 0 0) in AL by vring.
  unfold plane_set_normal. cbn [p_normal]. rewrite AL. 
  rewrite check_unit.
  2:{ transitivity (norm (vscale (-1) (mkV 0 1 0))); [f_equal; vring|exact N3]. }
  cbn. intros E. apply (f_equal (fun p => vx (p_normal p))) in E. revert E. cbn. lra.
Qed.

(* ------------------------------------------------------------------ *)
(** * C51: round_away and fix *)
Theorem C51_round_away : forall x,
  Rabs x <= Rabs (IZR (round_away x)) < Rabs x + 1 /\
  0 <= x * IZR (round_away x) /\
  (forall k, Rabs x <= Rabs (IZR k) -> Rabs (IZR (round_away x)) <= Rabs (IZR k)) /\
  (forall k, x = IZR k -> round_away x = k).
Proof.
  intros x.
  assert (MIN : forall y k, 0 <= y -> y <= Rabs (IZR k) -> IZR (Zceil y) <= Rabs (IZR k)).
  { intros y k Hy H. rewrite <- abs_IZR in *. apply IZR_le. apply Zceil_glb. exact H. }
  assert (NN : forall y, 0 <= y -> 0 <= IZR (Zceil y)). { intros y Hy. pose proof (Zceil_ub y). lra. }
  unfold round_away, np_sign. destruct (Rlt_dec 0 x) as [P|P].
  - rewrite (proj2 (Rltb_iff _ _)) by auto. rewrite Z.mul_1_l, (Rabs_pos_eq x) by lra.
    pose proof (NN x ltac:(lra)) as N. rewrite (Rabs_pos_eq (IZR (Zceil x))) by auto. pose proof (Zceil_ub x). pose proof (Zceil_lb x).
    split; [lra|]. split; [apply Rmult_le_pos; lra|]. split; [intros; apply MIN; lra|]. intros k ->. apply Zceil_IZR.
  - rewrite (proj2 (Rltb_false _ _)) by lra. destruct (Rlt_dec x 0) as [Q|Q].
    + rewrite (proj2 (Rltb_iff _ _)) by auto. rewrite (Rabs_left x) by auto.
      pose proof (NN (- x) ltac:(lra)) as N. rewrite mult_IZR. replace (IZR (-1) * IZR (Zceil (- x))) with (- IZR (Zceil (- x))) by ring.
      rewrite Rabs_Ropp, (Rabs_pos_eq (IZR (Zceil (- x)))) by auto. pose proof (Zceil_ub (- x)). pose proof (Zceil_lb (- x)).
      split; [lra|]. split; [|split; [intros; apply MIN; lra|]].
      * replace (x * - IZR (Zceil (- x))) with ((- x) * IZR (Zceil (- x))) by ring. apply Rmult_le_pos; lra.
      * intros k ->. rewrite <- opp_IZR, Zceil_IZR. lia.
    + rewrite (proj2 (Rltb_false _ _)) by lra. rewrite Z.mul_0_l. replace x with 0 by lra. rewrite !Rabs_R0.
      split; [lra|]. split; [lra|]. split; [intros; apply Rabs_pos|]. intros k Hk. apply eq_IZR in Hk. lia.
Qed.
Lemma trunc_facts x : Rabs (IZR (Ztrunc x)) <= Rabs x < Rabs (IZR (Ztrunc x)) + 1 /\ 0 <= x * IZR (Ztrunc x).
Proof.
  destruct (Rle_dec 0 x) as [P|P].
  - rewrite Ztrunc_floor by auto. pose proof (Zfloor_lb x). pose proof (Zfloor_ub x).
    assert (0 <= IZR (Zfloor x)). { apply IZR_le. apply Zfloor_lub. exact P. }
    rewrite !Rabs_pos_eq by auto. split; [lra|]. apply Rmult_le_pos; auto.
  - rewrite Ztrunc_ceil by lra. pose proof (Zceil_lb x). pose proof (Zceil_ub x).
    assert (IZR (Zceil x) <= 0). { apply IZR_le. apply Zceil_glb. lra. }
    rewrite !Rabs_left1 by lra. split; [lra|]. replace (x * IZR (Zceil x)) with ((- x) * (- IZR (Zceil x))) by ring. apply Rmult_le_pos; lra.
Qed.
(** np.fix and round_away bracket x and are at most one apart. *)
Theorem C51_bracket : forall x,
  Rabs (IZR (np_fix x)) <= Rabs x <= Rabs (IZR (round_away x)) /\
  (0 <= x -> IZR (np_fix x) <= x <= IZR (round_away x)) /\
  (x <= 0 -> IZR (round_away x) <= x <= IZR (np_fix x)) /\
  (Z.abs (round_away x - np_fix x) <= 1)%Z.
Proof.
  intros x. destruct (C51_round_away x) as ((A1 & A2) & A3 & _). destruct (trunc_facts x) as ((B1 & B2) & B3).
  unfold np_fix. split; [lra|].
  set (a := IZR (round_away x)) in *. set (b := IZR (Ztrunc x)) in *.
  assert (P : 0 < x -> 0 <= b /\ b <= x <= a).
  { intros Hx. assert (0 <= a) by nra. assert (0 <= b) by nra. rewrite (Rabs_pos_eq x), (Rabs_pos_eq a) in A1 by lra. rewrite (Rabs_pos_eq x), (Rabs_pos_eq b) in B1 by lra. lra. }
  assert (Q : x < 0 -> b <= 0 /\ a <= x <= b).
  { intros Hx. assert (a <= 0) by nra. assert (b <= 0) by nra. rewrite (Rabs_left1 x), (Rabs_left1 a) in A1 by lra. rewrite (Rabs_left1 x), (Rabs_left1 b) in B1 by lra. lra. }
  assert (Z0 : x = 0 -> a = 0 /\ b = 0).
  { intros E. assert (R0 : round_away 0 = 0%Z). { apply (proj2 (proj2 (proj2 (C51_round_away 0)))). reflexivity. }
    unfold a, b. rewrite E, R0. rewrite (Ztrunc_IZR 0). auto. }
  split; [|split].
  - intros [H| <-]; [apply P; auto|]. destruct Z0; auto. lra.
  - intros [H|H]; [apply Q; auto|]. destruct Z0; auto. lra.
  - cut (Z.abs (round_away x - Ztrunc x) < 2)%Z; [lia|]. apply lt_IZR. rewrite abs_IZR, minus_IZR. fold a b.
    assert (L : Rabs a < Rabs b + 2) by lra.
    destruct (Rtotal_order x 0) as [H|[H|H]].
    + destruct (Q H) as (? & ? & ?). rewrite (Rabs_left1 a), (Rabs_left1 b) in L by lra. rewrite Rabs_left1; lra.
    + destruct (Z0 H) as [-> ->]. rewrite Rminus_0_r, Rabs_R0. lra.
    + destruct (P H) as (? & ? & ?). rewrite (Rabs_pos_eq a), (Rabs_pos_eq b) in L by lra. rewrite Rabs_pos_eq; lra.
Qed.
Example C51_nonvacuous : round_away (5/2) = 3%Z /\ round_away (- (5/2)) = (-3)%Z /\ np_fix (5/2) = 2%Z.
Proof.
  assert (C : Zceil (5/2) = 3%Z) by (apply Zceil_imp; simpl; lra).
  unfold round_away, np_sign, np_fix. rewrite (Rabs_left (-(5/2))), (Rabs_pos_eq (5/2)) by lra. rewrite Ropp_involutive, C.
  rewrite (proj2 (Rltb_iff 0 (5/2))) by lra. rewrite (proj2 (Rltb_false 0 (-(5/2)))) by lra. rewrite (proj2 (Rltb_iff (-(5/2)) 0)) by lra.
  repeat split. rewrite Ztrunc_floor by lra. apply Zfloor_imp. simpl. lra.
Qed.

(* ------------------------------------------------------------------ *)
(** * C26: snap_plane_near_point *)

(** A plane of the family (hkl) of the crystal with the given origin: the points whose
    fractional coordinates u satisfy h.u = k for an integer k. *)
Definition lattice_plane (B : mat) (o : vec) (h : vec) (pl : plane) (k : Z) : Prop :=
  forall u, on_plane pl (vadd o (mv B u)) <-> dot h u = IZR k.

(** Miller indices as a vector. *)
Definition miller_vec (m : Z * Z * Z) : vec := let '(h, k, l) := m in mkV (IZR h) (IZR k) (IZR l).

(** The integer the code selects. *)
Definition snap_round (m : snap_mode) (x : R) : Z :=
  match m with Nearest => np_round x | Ceil => round_away x | Floor => np_fix x | OtherMode => 0%Z end.
Lemma zround_0 m : snap_round m 0 = 0%Z.
Proof.
  destruct m; cbn; auto.
  - unfold np_round. replace 0 with (IZR 0) by reflexivity. apply Zrnd_IZR. typeclasses eauto.
  - apply (proj2 (proj2 (proj2 (C51_round_away 0)))). reflexivity.
  - apply (Ztrunc_IZR 0).
Qed.
Lemma snap_coord_int m f h : IZR h * snap_coord m f h = IZR (snap_round m (f * IZR h)).
Proof.
  destruct (Z.eq_dec h 0) as [->|Hh].
  - rewrite Rmult_0_l, Rmult_0_r, zround_0. reflexivity.
  - unfold snap_coord. destruct m; [| | |cbn; ring].
    all: rewrite (proj2 (Z.eqb_neq h 0) Hh).
    all: assert (HR : IZR h <> 0) by (apply not_0_IZR; auto).
    all: rewrite (Rmult_comm _ (/ IZR h)), <- Rmult_assoc, Rinv_r, Rmult_1_l by auto.
    all: unfold Rdiv; rewrite Rinv_inv; reflexivity.
Qed.
(** At most one Miller index differs from zero. *)
Definition single_index (m : Z * Z * Z) : Prop :=
  let '(h, k, l) := m in (k = 0 /\ l = 0)%Z \/ (h = 0 /\ l = 0)%Z \/ (h = 0 /\ k = 0)%Z.

(** The fractional coordinates are rounded one by one. *)
Definition snap_index (m : snap_mode) (miller : Z * Z * Z) (f : vec) : Z :=
  let '(h, k, l) := miller in
  (snap_round m (vx f * IZR h) + snap_round m (vy f * IZR k) + snap_round m (vz f * IZR l))%Z.
Lemma snap_index_single m miller f : single_index miller -> snap_index m miller f = snap_round m (dot (miller_vec miller) f).
Proof.
  destruct miller as [[h k] l]. cbn. intros [[-> ->]|[[-> ->]|[-> ->]]]; rewrite !Rmult_0_r, !zround_0, ?Z.add_0_r; try rewrite Z.add_0_l; f_equal; unfold dot; cbn; ring.
Qed.
Lemma snap_plane_family : forall point g miller m pl,
  g_strain g = None -> snap_plane point g miller m = Ok pl ->
  det (basis_of g) <> 0 /\
  forall f, mv (basis_of g) f = point -> lattice_plane (basis_of g) v0 (miller_vec miller) pl (snap_index m miller f).
Proof.
  intros point g [[h k] l] m pl HS H. unfold snap_plane in H. rewrite HS in H.
  set (B := sbases (g_voxel g)) in *. inv_bind H. inv_bind H. inv_bind H.
  unfold solve in Ha. unfold inv in Ha1. destruct (Reqb (det B) 0) eqn:ED; [discriminate|]. apply Reqb_false in ED.
  cbn in Ha. inversion Ha; subst a. inversion Ha1; subst a1. clear Ha Ha1. split; [exact ED|].
  intros f Hf. assert (Ef : mv (minv B) point = f) by (rewrite <- Hf; apply mv_minv_l; auto). rewrite Ef in *. clear Ef.
  set (new := mkV (snap_coord m (vx f) h) (snap_coord m (vy f) k) (snap_coord m (vz f) l)) in *.
  assert (EN : a0 = new).
  { destruct m; inversion Ha0; reflexivity. }
  subst a0. clear Ha0.
  unfold new_plane in H. inv_bind H. inv_bind H. inversion H; subst pl. clear H Ha0. apply check_normal_Ok in Ha as [HN ->].
  pose proof eps_pos as EP. set (hkl := mkV (IZR h) (IZR k) (IZR l)) in *.
  set (n := mv (mt (minv B)) hkl) in *.
  intros u. unfold on_plane. cbn [p_point p_normal]. rewrite vadd_v0_l.
  replace (dot (vsub (mv B u) (mv B new)) (vscale (/ norm n) n)) with (/ norm n * (dot hkl u - dot hkl new)).
  2:{ replace (dot (vsub (mv B u) (mv B new)) (vscale (/ norm n) n)) with (/ norm n * dot (mv B (vsub u new)) n) by (generalize (/ norm n) n; vring).
      f_equal. rewrite (dot_comm (mv B (vsub u new))). unfold n. rewrite dot_mv, mt_mt, mv_minv_l by auto. vring. }
  replace (dot hkl new) with (IZR (snap_index m (h, k, l) f)).
  2:{ unfold snap_index. rewrite !plus_IZR, <- !snap_coord_int. unfold dot. cbn. ring. }
  cbn [miller_vec]. fold hkl. assert (/ norm n <> 0) by (apply Rinv_neq_0_compat; lra). split.
  - intros E. apply Rmult_integral in E. destruct E; [contradiction|lra].
  - intros ->. ring.
Qed.
Lemma snap_plane_total : forall point g miller m,
  g_strain g = None -> det (basis_of g) <> 0 -> eps < norm (mv (mt (minv (basis_of g))) (miller_vec miller)) ->
  exists pl, snap_plane point g miller m = Ok pl.
Proof.
  intros point g [[h k] l] m HS HD HN. unfold snap_plane. rewrite HS. unfold solve, inv. rewrite (proj2 (Reqb_false _ _) HD). cbn [rmap bind].
  assert (NP : forall q, exists pl, new_plane (mv (mt (minv (basis_of g))) (mkV (IZR h) (IZR k) (IZR l))) q default_tol = Ok pl).
  { intros q. cbn [miller_vec] in HN. set (n := mv _ _) in *. unfold new_plane, check_normal.
    rewrite (proj2 (Rltb_iff eps (norm n)) HN).
    unfold check_tol. rewrite (proj2 (Rltb_iff 0 default_tol)) by (unfold default_tol; lra). cbn. eauto. }
  destruct m; apply NP.
Qed.
(** For an unstrained crystal at the coordinate origin, every mode returns a plane of
    the requested family; with a single non-zero index 'nearest' is a closest plane of
    the family, 'floor' the next one towards and 'ceil' the next one away from the
    origin. Missing against C26: generators whose origin is not zero (refuted below). *)
Theorem C26_snap_plane_partial : forall point g miller m pl,
  g_strain g = None -> origin_of g = v0 -> snap_plane point g miller m = Ok pl ->
  exists k, lattice_plane (sbases (g_voxel g)) (origin_of g) (miller_vec miller) pl k /\
   forall f, point = vadd (origin_of g) (mv (sbases (g_voxel g)) f) -> single_index miller ->
    let x := dot (miller_vec miller) f in
    match m with
    | Nearest => forall pl' j q, lattice_plane (sbases (g_voxel g)) (origin_of g) (miller_vec miller) pl' j -> on_plane pl' q ->
                   exists q', on_plane pl q' /\ dist point q' <= dist point q
    | Floor => Rabs (IZR k) <= Rabs x < Rabs (IZR k) + 1 /\ 0 <= x * IZR k
    | Ceil => Rabs x <= Rabs (IZR k) < Rabs x + 1 /\ 0 <= x * IZR k
    | OtherMode => k = 0%Z
    end.
Proof.
  intros point g miller m pl HS HO H. rewrite HO. destruct (snap_plane_family _ _ _ _ _ HS H) as (HD & FAM).
  set (f0 := mv (minv (basis_of g)) point). specialize (FAM f0 (mv_minv_r _ _ HD)).
  remember (snap_index m miller f0) as k eqn:SI. rename FAM into LP.
  exists k. split; [exact LP|]. intros f Hf S1 x. rewrite vadd_v0_l in Hf.
  assert (E0 : f0 = f) by (unfold f0; rewrite Hf; apply mv_minv_l; auto). rewrite E0, (snap_index_single _ _ _ S1) in SI. fold x in SI.
  destruct m; cbn in SI.
  - intros pl' j q LP' Hq. set (B := sbases (g_voxel g)) in *. set (hkl := miller_vec miller) in *.
    set (u := mv (minv B) q). assert (Eu : mv B u = q) by (apply mv_minv_r; auto).
    assert (Hj : dot hkl u = IZR j). { apply LP'. rewrite vadd_v0_l, Eu. exact Hq. }
    assert (ON : forall w, dot hkl w = IZR k -> on_plane pl (mv B w)).
    { intros w Hw. rewrite <- (vadd_v0_l (mv B w)). apply LP. exact Hw. }
    destruct (Req_dec x (IZR j)) as [E|E].
    + exists q. split; [|lra]. rewrite <- Eu. apply ON. rewrite Hj. rewrite SI. unfold np_round. rewrite E.
      f_equal. symmetry. apply Zrnd_IZR. typeclasses eauto.
    + set (s := (IZR k - x) / (IZR j - x)). exists (mv B (vadd f (vscale s (vsub u f)))). split.
      * apply ON. replace (dot hkl (vadd f (vscale s (vsub u f)))) with (x + s * (IZR j - x)) by (rewrite <- Hj; unfold x; generalize s hkl; vring).
        unfold s. field. lra.
      * assert (HK : Rabs (IZR k - x) <= Rabs (IZR j - x)).
        { rewrite SI. unfold np_round. rewrite (Rabs_minus_sym _ x), (Rabs_minus_sym _ x). 
          destruct (Rlt_dec (Rabs (x - IZR j)) (/ 2)) as [L|L]; [rewrite (Znearest_imp _ _ _ L); lra|].
          apply Rnot_lt_le in L. pose proof (Znearest_half (fun t => negb (Z.even t)) x). lra. }
        assert (Hs : Rabs s <= 1).
        { unfold s, Rdiv. rewrite Rabs_mult, Rabs_inv. apply Rmult_le_reg_r with (Rabs (IZR j - x)); [apply Rabs_pos_lt; lra|].
          rewrite Rmult_assoc, Rinv_l by (apply Rabs_no_R0; lra). lra. }
        unfold dist. rewrite Hf. replace (vsub (mv B f) (mv B (vadd f (vscale s (vsub u f))))) with (vscale s (vsub (mv B f) (mv B u))) by (generalize s; vring).
        rewrite Eu, norm_scale. pose proof (norm_pos (vsub (mv B f) q)). rewrite <- (Rmult_1_l (norm (vsub (mv B f) q))) at 2.
        apply Rmult_le_compat_r; auto.
  - destruct (C51_round_away x) as (A & B & _). rewrite SI. auto.
  - rewrite SI. apply trunc_facts.
  - exact SI.
Qed.

(** A generator with a shifted origin: the returned plane is not a lattice plane. *)
Definition off_crystal : crystal := mkCrystal ex_struct (mkVoxel (st_matrix ex_struct) (SAll 1) (mkV (1/2) 0 0)) None None.
Lemma half_minv : mt (minv (mscale 1 (st_matrix ex_struct))) = mscale (1/2) mI.
Proof. cbn. apply mat_eq; apply vec_eq; vunfold; lra || field. Qed.
Lemma norm_ge_x v : Rabs (vx v) <= norm v.
Proof.
  unfold norm. rewrite <- sqrt_Rsqr_abs. apply sqrt_le_1_alt. unfold dot, Rsqr. nra.
Qed.
Lemma snap_ex_ok : forall g point m k l, g_strain g = None -> basis_of g = mscale 1 (st_matrix ex_struct) ->
  exists pl, snap_plane point g (1, k, l)%Z m = Ok pl.
Proof.
  intros g point m k l HS HB. apply snap_plane_total; auto; rewrite HB.
  - cbn. vunfold. lra.
  - rewrite half_minv. pose proof eps_small. pose proof (norm_ge_x (mv (mscale (1/2) mI) (miller_vec (1, k, l)%Z))) as N.
    replace (vx (mv (mscale (1 / 2) mI) (miller_vec (1%Z, k, l)))) with (1/2) in N by (cbn; vunfold; lra).
    rewrite Rabs_pos_eq in N by lra. lra.
Qed.
Theorem C26_origin_refuted :
  exists pl, snap_plane v0 off_crystal (1, 0, 0)%Z Nearest = Ok pl /\
    forall k, ~ lattice_plane (basis_of off_crystal) (origin_of off_crystal) (miller_vec (1, 0, 0)%Z) pl k.
Proof.
  destruct (snap_ex_ok off_crystal v0 Nearest 0 0 eq_refl eq_refl) as [pl H]. exists pl. split; [exact H|].
  intros k LP. destruct (snap_plane_family _ _ _ _ _ (eq_refl : g_strain off_crystal = None) H) as (_ & F). specialize (F v0).
  assert (E0 : mv (basis_of off_crystal) v0 = v0) by vring. specialize (F E0).
  specialize (LP (mkV (IZR k) 0 0)). specialize (F (mkV (IZR k + 1/4) 0 0)).
  replace (vadd v0 (mv (basis_of off_crystal) (mkV (IZR k + 1/4) 0 0))) with (vadd (origin_of off_crystal) (mv (basis_of off_crystal) (mkV (IZR k) 0 0))) in F.
  2:{ cbn. apply vec_eq; vunfold; lra. }
  assert (ON : on_plane pl (vadd (origin_of off_crystal) (mv (basis_of off_crystal) (mkV (IZR k) 0 0)))).
  { apply LP. cbn. vunfold. ring. }
  apply F in ON. set (j := snap_index Nearest (1, 0, 0)%Z v0) in *. clearbody j. cbn [miller_vec] in ON. unfold dot in ON. cbn in ON.
  assert (E : 4 * IZR k + 1 = 4 * IZR j) by lra. rewrite <- !mult_IZR, <- plus_IZR in E. apply eq_IZR in E. lia.
Qed.
(** With several indices 'nearest' rounds each coordinate on its own and misses the
    closest plane of the family. *)
Theorem C26_multi_index_refuted :
  exists f pl k, snap_plane (mv (basis_of ex_crystal) f) ex_crystal (1, 1, 0)%Z Nearest = Ok pl /\
    lattice_plane (basis_of ex_crystal) (origin_of ex_crystal) (miller_vec (1, 1, 0)%Z) pl k /\
    exists j, Rabs (dot (miller_vec (1, 1, 0)%Z) f - IZR j) < Rabs (dot (miller_vec (1, 1, 0)%Z) f - IZR k).
Proof.
  set (f := mkV (2/5) (2/5) 0). exists f.
  destruct (snap_ex_ok ex_crystal (mv (basis_of ex_crystal) f) Nearest 1 0 eq_refl eq_refl) as [pl H].
  exists pl, (snap_index Nearest (1, 1, 0)%Z f). split; [exact H|]. split.
  - exact (proj2 (snap_plane_family _ _ _ _ _ (eq_refl : g_strain ex_crystal = None) H) f eq_refl).
  - exists 1%Z. assert (E : snap_index Nearest (1, 1, 0)%Z f = 0%Z).
    { unfold snap_index. cbn [f vx vy vz snap_round]. unfold np_round.
      rewrite (Znearest_imp _ (2 / 5 * 1) 0) by (apply Rabs_def1; simpl; lra).
      rewrite (Znearest_imp _ (0 * 0) 0) by (apply Rabs_def1; simpl; lra). reflexivity. }
    rewrite E. replace (dot (miller_vec (1, 1, 0)%Z) f) with (4/5) by (unfold f; cbn; vunfold; lra).
    rewrite (Rabs_left (4/5 - 1)), (Rabs_pos_eq (4/5 - 0)) by lra. lra.
Qed.
Example C26_nonvacuous : exists pl, snap_plane (mkV 3 0 0) ex_crystal (1, 0, 0)%Z Ceil = Ok pl /\
  on_plane pl (mkV 4 1 7) /\ g_strain ex_crystal = None /\ origin_of ex_crystal = v0.
Proof.
  destruct (snap_ex_ok ex_crystal (mkV 3 0 0) Ceil 0 0 eq_refl eq_refl) as [pl H]. exists pl. split; [exact H|]. split; [|auto].
  destruct (snap_plane_family _ _ _ _ _ (eq_refl : g_strain ex_crystal = None) H) as (_ & F). specialize (F (mkV (3/2) 0 0)).
  assert (E0 : mv (basis_of ex_crystal) (mkV (3/2) 0 0) = mkV 3 0 0) by (cbn; apply vec_eq; vunfold; lra). specialize (F E0 (mkV 2 (1/2) (7/2))).
  replace (vadd v0 (mv (basis_of ex_crystal) (mkV 2 (1/2) (7/2)))) with (mkV 4 1 7) in F by (cbn; apply vec_eq; vunfold; lra).
  apply F. rewrite snap_index_single by (cbn; auto). cbn [snap_round].
  replace (dot (miller_vec (1, 0, 0)%Z) (mkV (3 / 2) 0 0)) with (3/2) by (cbn; vunfold; lra).
  unfold round_away, np_sign. rewrite (proj2 (Rltb_iff _ _)), Rabs_pos_eq by lra.
  replace (Zceil (3/2)) with 2%Z by (symmetry; apply Zceil_imp; simpl; lra). cbn. vunfold. ring.
Qed.

(* ------------------------------------------------------------------ *)
(** * C25: get_bounding_box of planes *)

(** What linprog is asked (algebraic.py 406-411): maximise the radius of a ball inside
    the shifted half-spaces.  scipy's default bounds make all four variables
    non-negative, and status 2 means that no feasible point exists. *)
Definition lp_feasible (rows : list (vec * R * R)) (x : vec) (r : R) : Prop :=
  0 <= vx x /\ 0 <= vy x /\ 0 <= vz x /\ 0 <= r /\
  Forall (fun row => let '(n, d, nn) := row in dot n x + nn * r <= - d) rows.
Definition exact_linprog (lp : list (vec * R * R) -> lp_result) (planes : list plane) : Prop :=
  let rows := map (bb_row (bb_shift planes)) planes in
  lp rows = LPfail 2 <-> ~ exists x r, lp_feasible rows x r.

(** The bounded region cut out by four planes has interior points around (-4,-4,-4),
    but every plane passes through a point with non-negative coordinates, so that no
    shift is applied and the linear program is infeasible. *)
Definition neg_planes : list plane :=
  [mkPlane (mkV (6/7) (-2/7) (-3/7)) (mkV 0 1 0) default_tol;
   mkPlane (mkV (-3/7) (6/7) (-2/7)) (mkV 1 0 0) default_tol;
   mkPlane (mkV (-2/7) (-3/7) (6/7)) (mkV 1 0 0) default_tol;
   mkPlane (mkV (-6/7) (-3/7) (2/7)) (mkV 0 0 20) default_tol].
Lemma unit_of n : dot n n = 1 -> norm n = 1.
Proof. intros H. unfold norm. rewrite H. apply sqrt_1. Qed.
Lemma neg_planes_infeasible : ~ exists x r, lp_feasible (map (bb_row (bb_shift neg_planes)) neg_planes) x r.
Proof.
  intros ([x y z] & r & X & Y & Z & Rr & F).
      assert (S0 : bb_shift neg_planes = v0).
      { unfold bb_shift, neg_planes. cbn. unfold vmin. cbn. 
        assert (M0 : forall t, 0 <= t -> Rmin 0 t = 0) by (intros; apply Rmin_left; auto).
        rewrite !M0 by lra. apply vec_eq; vunfold; rewrite ?M0; lra. }
      rewrite S0 in F. inversion_clear F as [|? ? H1 H']. inversion_clear H' as [|? ? H2 H'']. inversion_clear H'' as [|? ? H3 _].
      cbn in *. rewrite !unit_of in * by (vunfold; lra). unfold dot in *. cbn in *. lra.
Qed.
Theorem C25_negative_octant_refuted : forall lp hs, exact_linprog lp neg_planes ->
  Forall valid_plane neg_planes /\
  Forall (fun pl => sdist_from_plane pl (mkV (-4) (-4) (-4)) < 0) neg_planes /\
  (exists b, forall p, Forall (fun pl => sdist_from_plane pl p <= 0) neg_planes -> norm p <= b) /\
  bounding_box_planes lp hs neg_planes = ([], 2%Z).
Proof.
  intros lp hs HL. assert (TP : 0 < default_tol) by (unfold default_tol; lra).
  split; [|split; [|split]].
  - repeat constructor; cbn; auto; apply unit_of; vunfold; lra.
  - repeat constructor; unfold sdist_from_plane; cbn; vunfold; lra.
  - exists 1000. intros [x y z] H. inversion_clear H as [|? ? H1 H']. inversion_clear H' as [|? ? H2 H'']. inversion_clear H'' as [|? ? H3 H3'].
    inversion_clear H3' as [|? ? H4 _]. unfold sdist_from_plane, dot in *. cbn in *.
    assert (BX : -100 <= x <= 100) by (split; lra). assert (BY : -100 <= y <= 100) by (split; lra). assert (BZ : -100 <= z <= 100) by (split; lra).
    unfold norm. replace 1000 with (sqrt (1000 * 1000)) by (apply sqrt_square; lra). apply sqrt_le_1_alt. unfold dot. cbn. nra.
  - unfold bounding_box_planes.
    assert (E : lp (map (bb_row (bb_shift neg_planes)) neg_planes) = LPfail 2) by (apply HL, neg_planes_infeasible).
    rewrite E. reflexivity.
Qed.
(** The part of space the code looks at in one coordinate: from 3/2 times the smallest
    coordinate of the plane points (or 0 if none is negative) upwards. *)
Definition reached (f : vec -> R) (planes : list plane) (p : vec) : Prop :=
  0 <= f p \/ exists pl, In pl planes /\ 3 / 2 * f (p_point pl) <= f p.
Lemma fold_vmin f (Hf : forall a b, f (vmin a b) = Rmin (f a) (f b)) : forall planes s,
  let m := fold_left (fun s pl => vmin s (p_point pl)) planes s in
  f m <= f s /\ forall pl, In pl planes -> f m <= f (p_point pl).
Proof.
  induction planes as [|x l IH]; intros s; cbn [fold_left]; [split; [lra|intros _ []]|].
  destruct (IH (vmin s (p_point x))) as [A B]. rewrite Hf in A.
  pose proof (Rmin_l (f s) (f (p_point x))). pose proof (Rmin_r (f s) (f (p_point x))).
  split; [lra|]. intros pl [->|Hin]; [lra|auto].
Qed.
Lemma reached_shift f (Hf : forall a b, f (vmin a b) = Rmin (f a) (f b)) (Ha : forall a b, f (vadd a b) = f a + f b)
    (Hs : forall k a, f (vscale k a) = k * f a) planes p :
  reached f planes p -> 0 <= f (vadd p (bb_shift planes)).
Proof.
  intros H. unfold bb_shift. rewrite Ha, Hs.
  destruct (fold_vmin f Hf planes v0) as [A B]. assert (Z : f v0 = 0).
  { replace v0 with (vscale 0 v0) by vring. rewrite Hs. lra. }
  destruct H as [H|(pl & Hin & H)]; [lra|]. specialize (B pl Hin). lra.
Qed.

(** When a point of the region lies in the part of space the code looks at, an exact
    solver does not report an empty region. *)
Theorem C25_bounding_box_partial : forall lp hs planes p,
  exact_linprog lp planes ->
  Forall (fun pl => sdist_from_plane pl p <= 0) planes ->
  reached vx planes p -> reached vy planes p -> reached vz planes p ->
  (forall rows x, lp rows = LPok x -> hs rows x <> None) ->
  snd (bounding_box_planes lp hs planes) <> 2%Z.
Proof.
  intros lp hs planes p HL HF Hx Hy Hz HH.
  apply reached_shift in Hx; [|reflexivity..]. apply reached_shift in Hy; [|reflexivity..]. apply reached_shift in Hz; [|reflexivity..].
  set (q := vadd p (bb_shift planes)) in *. unfold bounding_box_planes.
  destruct (lp _) as [x|st] eqn:E.
  - destruct (hs _ x) eqn:E2; [cbn; lia|]. exfalso. eapply HH; eauto.
  - cbn. intros ->. apply HL in E. apply E. exists q, 0. repeat split; auto; [lra|].
    apply Forall_map. eapply Forall_impl; [|exact HF]. intros pl H. cbn. unfold sdist_from_plane in H.
    replace (dot (p_normal pl) q) with (dot p (p_normal pl) + dot (p_normal pl) (bb_shift planes)) by (unfold q; generalize (bb_shift planes); vring).
    replace (- - dot (p_normal pl) (vadd (p_point pl) (bb_shift planes))) with (dot (p_point pl) (p_normal pl) + dot (p_normal pl) (bb_shift planes)) by (generalize (bb_shift planes); vring).
    lra.
Qed.
Example C25_nonvacuous :
  exact_linprog (fun _ => LPfail 2) neg_planes /\
  let planes := mkPlane (mkV 1 0 0) (mkV (-2) 0 0) default_tol :: nil in
  exact_linprog (fun _ => LPok v0) planes /\
  Forall (fun pl => sdist_from_plane pl (mkV (-5/2) 0 0) <= 0) planes /\
  reached vx planes (mkV (-5/2) 0 0).
Proof.
  split; [split; auto; intros _; apply neg_planes_infeasible|]. intros planes.
  assert (S0 : bb_shift planes = mkV 3 0 0).
  { unfold bb_shift, planes. cbn. unfold vmin. cbn. rewrite (Rmin_right 0 (-2)), (Rmin_left 0 0) by lra. apply vec_eq; vunfold; lra. }
  split; [|split].
  - unfold exact_linprog. rewrite S0. split; [discriminate|]. intros H. exfalso. apply H. exists v0, 0.
    repeat split; cbn; try lra. repeat constructor. unfold dot. cbn. lra.
  - repeat constructor. unfold sdist_from_plane, dot. cbn. lra.
  - right. exists (mkPlane (mkV 1 0 0) (mkV (-2) 0 0) default_tol). split; [left; reflexivity|cbn; lra].
Qed.
