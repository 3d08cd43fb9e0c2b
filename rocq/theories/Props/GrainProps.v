(** SimpleGrainBoundary: C72, C88, C89. *)
From Coq Require Import Reals List ZArith Bool Lra Lia.
From Verif.Model Require Import Base Vec Algebraic Transform Voxel Generator Volume Prefab.
From Verif.Spec Require Import Geometry CrystalSpec AlgSpec PrefabSpec.
From Verif.Proofs Require Import VecFacts AlgFacts VolumeFacts VolTransFacts PrefabFacts.
From Verif.Props Require Import TransformProps GeneratorProps PrefabProps.
Import ListNotations.
Open Scope R_scope.

(** what a successful build consists of *)
Lemma gb_inv w b V : gb_build w b = Ok V -> exists l a g1 g2 l1 l2,
  gb_volume b = VLeaf l /\ gb_plane b = Some a /\
  (exists rot, gb_rotation (gb_generator b) (gb_z1 b) = Ok rot /\ crystal_transform (gb_generator b) rot = Ok g1) /\
  (exists rot, gb_rotation (gb_generator b) (match gb_z2 b with Some z => z | None => gb_z1 b end) = Ok rot /\ crystal_transform (gb_generator b) rot = Ok g2) /\
  leaf_from_volume w l (Some (GCrystal g1)) [] = Ok l1 /\ leaf_from_volume w l (Some (GCrystal g2)) [] = Ok l2 /\
  V = VMulti 0 [VLeaf (with_alg l1 (l_alg l1 ++ [a])); VLeaf (with_prio l2 (l_prio l2 + 1))] None.
Proof.
  intros H. unfold gb_build in H. inv_bind H. inv_bind H. inv_bind H. inv_bind H. inv_bind H.
  destruct (gb_volume b) as [l|p vs c].
  - cbn [vol_from_volume] in Ha3. destruct (leaf_from_volume w l (Some (GCrystal a1)) []) as [l1|] eqn:E1; [|discriminate]. injection Ha3 as <-.
    destruct (gb_plane b) as [al|]; [|discriminate]. cbn [vol_from_volume] in H. destruct (leaf_from_volume w l (Some (GCrystal a2)) []) as [l2|] eqn:E2; [|discriminate].
    cbn [rmap bind] in H. injection H as <-. exists l, al, a1, a2, l1, l2. eauto 20.
  - cbn [vol_from_volume] in Ha3. inv_bind Ha3. injection Ha3 as <-. discriminate.
Qed.

(** The two grains, each with the priority of the host (+1 for the second): the first
    provides the host's points on the interior side of the plane, the second the rest. *)
Theorem C72_grain_boundary_partition_partial : forall w b l pl V,
  gb_volume b = VLeaf l -> pristine l -> gb_plane b = Some (APlane pl) -> gb_build w b = Ok V ->
  exists v1 v2, V = VMulti 0 [v1; v2] None /\ vol_prio v1 = l_prio l /\ vol_prio v2 = (l_prio l + 1)%Z /\
    (forall p, vol_inside w V p = vol_inside w (VLeaf l) p) /\
    (forall p, serves w [v1; v2] 0 p <-> vol_inside w (VLeaf l) p = true /\ below pl p) /\
    (forall p, serves w [v1; v2] 1 p <-> vol_inside w (VLeaf l) p = true /\ ~ below pl p).
Proof.
  intros w b l pl V HV PR HP H. destruct (gb_inv _ _ _ H) as (l' & a & g1 & g2 & l1 & l2 & E1 & E2 & _ & _ & E3 & E4 & ->).
  rewrite HV in E1. injection E1 as <-. rewrite HP in E2. injection E2 as <-.
  destruct (leaf_copy _ _ _ _ E3) as (A1 & P1 & G1 & T1 & _ & TR1). destruct (leaf_copy _ _ _ _ E4) as (A2 & P2 & G2 & T2 & _ & TR2).
  set (v1 := with_alg l1 (l_alg l1 ++ [APlane pl])). set (v2 := with_prio l2 (l_prio l2 + 1)).
  assert (I1 : forall p, leaf_inside w v1 p = leaf_inside w l p && plane_interior pl p).
  { intros p. rewrite <- (pristine_copy w l l1 p) by auto. rewrite !leaf_inside_eq. cbn [v1 with_alg l_alg l_tri l_tol]. rewrite forallb_app. cbn [forallb alg_interior]. rewrite andb_true_r, andb_assoc. reflexivity. }
  assert (I2 : forall p, leaf_inside w v2 p = leaf_inside w l p) by (intros; apply pristine_copy; auto).
  assert (BD : forall p, plane_interior pl p = false <-> ~ below pl p) by (intros p; rewrite <- below_plane; destruct (plane_interior pl p); split; congruence).
  exists (VLeaf v1), (VLeaf v2). split; [reflexivity|]. split; [cbn; auto|]. split; [cbn; lia|].
  split; [|split]; intros p.
  - cbn [vol_inside existsb]. rewrite I1, I2. destruct (leaf_inside w l p), (plane_interior pl p); reflexivity.
  - split.
    + intros (v & HN & IN & _). cbn in HN. injection HN as <-. cbn [vol_inside] in *. rewrite I1 in IN. apply andb_prop in IN. rewrite below_plane in IN. exact IN.
    + intros [HI B]. exists (VLeaf v1). split; [reflexivity|]. cbn [vol_inside] in *. split; [rewrite I1, HI; apply below_plane in B; rewrite B; reflexivity|].
      intros [|[|j]] u J Hu PRI; cbn in Hu; [lia| |destruct j; discriminate]. injection Hu as <-. cbn in PRI. rewrite P1, P2 in PRI. lia.
  - split.
    + intros (v & HN & IN & RS). cbn in HN. injection HN as <-. cbn [vol_inside] in *. rewrite I2 in IN. split; auto.
      specialize (RS 0%nat (VLeaf v1) ltac:(lia) eq_refl). cbn in RS. rewrite P1, P2 in RS. specialize (RS ltac:(lia)). change (leaf_inside w v1 p = false) in RS. rewrite I1, IN in RS. apply BD. exact RS.
    + intros [HI B]. exists (VLeaf v2). split; [reflexivity|]. cbn [vol_inside] in *. split; [rewrite I2; auto|].
      intros [|[|j]] u J Hu PRI; cbn in Hu; [|lia|destruct j; discriminate]. injection Hu as <-. cbn [vol_inside]. rewrite I1, HI. apply BD. exact B.
Qed.

(** C89: the zone axes of both grains end up along z, unless they start within machine
    precision of -z (or of +z without being exactly parallel). *)
Definition direction_ok (v : vec) : Prop :=
  norm v <> 0 /\ (eps <= acos (dot v ez / (norm v * norm ez)) <= PI - eps \/ exists k, 0 < k /\ v = vscale k ez).
Lemma gb_rot_aligns g z rot g' : uniform_scale (g_voxel g) -> direction_ok (mv (basis_of g) z) -> gb_rotation g z = Ok rot -> crystal_transform g rot = Ok g' ->
  mv (basis_of g') z = vscale (norm (mv (basis_of g) z)) ez /\ g_structure g' = g_structure g.
Proof.
  intros US [N0 DIR] R T. unfold gb_rotation in R. change (mkV 0 0 1) with ez in R. destruct (rot_vtv (mv (basis_of g) z) ez) as [M|] eqn:EM; [|discriminate].
  unfold new_rotation in R. destruct (rotation_ok M); [|discriminate]. injection R as <-.
  assert (AL : mv M (unit_vec (mv (basis_of g) z)) = unit_vec ez).
  { assert (NZ : norm ez <> 0) by (rewrite norm_ez; lra).
    destruct DIR as [DIR|(k & K & E)].
    - destruct (C30_aligns_partial _ _ N0 NZ DIR) as (M' & E' & _ & A). rewrite EM in E'. injection E' as <-. exact A.
    - destruct (C30_parallel (mv (basis_of g) z) (/ k) N0 (Rinv_0_lt_compat _ K)) as [E1 E2].
      replace (vscale (/ k) (mv (basis_of g) z)) with ez in E1, E2 by (rewrite E; unfold ez; apply vec_eq; vunfold; field; lra).
      rewrite EM in E1. injection E1 as ->. exact E2. }
  destruct (C37_transform_moves_crystal_partial _ _ _ T US) as (MS & _ & _ & MV). split; auto.
  assert (LIN : mv (basis_of g') z = mv M (mv (basis_of g) z)).
  { destruct (MV (0, 0, 0)%Z z) as [A _]. destruct (MV (0, 0, 0)%Z v0) as [B _]. specialize (A eq_refl). specialize (B eq_refl).
    unfold lattice_site in A, B. cbn [apply_pt matrix_pt zvec] in A, B.
    transitivity (vsub (vadd (mv (basis_of g') (vadd (zvec 0 0 0) z)) (origin_of g')) (vadd (mv (basis_of g') (vadd (zvec 0 0 0) v0)) (origin_of g'))); [unfold zvec; vring|].
    rewrite A, B. unfold zvec. generalize (basis_of g) (origin_of g). vring. }
  rewrite LIN. set (v := mv (basis_of g) z) in *. replace v with (vscale (norm v) (unit_vec v)) at 1 by (unfold unit_vec; revert N0; generalize (norm v); intros; vfield; auto).
  transitivity (vscale (norm v) (mv M (unit_vec v))); [generalize (unit_vec v) (norm v); vring|]. rewrite AL. unfold unit_vec. rewrite norm_ez, Rinv_1. f_equal. vring.
Qed.
Lemma gb_rot_turns g z rot g' : uniform_scale (g_voxel g) -> direction_ok (mv (basis_of g) z) -> gb_rotation g z = Ok rot -> crystal_transform g rot = Ok g' ->
  exists Q, rotation Q /\ unit_vec (mv Q (mv (basis_of g) z)) = ez /\ basis_of g' = mm Q (basis_of g).
Proof.
  intros US D R T. pose proof (gb_rot_aligns _ _ _ _ US D R T) as [AL _]. destruct D as [N0 DIR].
  unfold gb_rotation in R. change (mkV 0 0 1) with ez in R. destruct (rot_vtv (mv (basis_of g) z) ez) as [M|] eqn:EM; [|discriminate].
  assert (RM : rotation M).
  { assert (NZ : norm ez <> 0) by (rewrite norm_ez; lra). destruct DIR as [DIR|(k & K & E)].
    - destruct (C30_aligns_partial _ _ N0 NZ DIR) as (M' & E' & RO & _). rewrite EM in E'. injection E' as <-. exact RO.
    - destruct (C30_parallel (mv (basis_of g) z) (/ k) N0 (Rinv_0_lt_compat _ K)) as [E1 _].
      replace (vscale (/ k) (mv (basis_of g) z)) with ez in E1 by (rewrite E; unfold ez; apply vec_eq; vunfold; field; lra).
      rewrite EM in E1. injection E1 as ->. split; [unfold orthogonal; vring|apply det_mI]. }
  unfold new_rotation in R. destruct (rotation_ok M); [|discriminate]. injection R as <-.
  destruct (C37_transform_moves_crystal_partial _ _ _ T US) as (MS & _ & _ & MV).
  assert (LIN : forall v, mv (basis_of g') v = mv M (mv (basis_of g) v)).
  { intros v. destruct (MV (0, 0, 0)%Z v) as [A _]. destruct (MV (0, 0, 0)%Z v0) as [B _]. specialize (A eq_refl). specialize (B eq_refl).
    unfold lattice_site in A, B. cbn [apply_pt matrix_pt zvec] in A, B.
    transitivity (vsub (vadd (mv (basis_of g') (vadd (zvec 0 0 0) v)) (origin_of g')) (vadd (mv (basis_of g') (vadd (zvec 0 0 0) v0)) (origin_of g'))); [unfold zvec; vring|].
    rewrite A, B. unfold zvec. generalize (basis_of g) (origin_of g). vring. }
  exists M. split; [exact RM|]. split.
  - rewrite <- LIN, AL. unfold unit_vec. rewrite norm_scale, norm_ez, Rabs_pos_eq by apply norm_pos. unfold ez. apply vec_eq; cbn; field; auto.
  - assert (COL : forall A B, (forall v, mv A v = mv B v) -> A = B).
    { intros A B E. pose proof (E (mkV 1 0 0)) as X. pose proof (E (mkV 0 1 0)) as Y. pose proof (E (mkV 0 0 1)) as Z. destruct A as [[] [] []], B as [[] [] []]. vunfold. unfold mv, dot in X, Y, Z. cbn in X, Y, Z. injection X as X1 X2 X3. injection Y as Y1 Y2 Y3. injection Z as Z1 Z2 Z3. repeat f_equal; lra. }
    apply COL. intros v. rewrite LIN, mv_mm. reflexivity.
Qed.
Lemma whole_turn k : cos (2 * IZR k * PI) = 1 /\ sin (2 * IZR k * PI) = 0.
Proof.
  assert (N : forall n, cos (2 * INR n * PI) = 1 /\ sin (2 * INR n * PI) = 0).
  { intros n. split.
    - replace (2 * INR n * PI) with (0 + 2 * INR n * PI) by ring. rewrite cos_period. apply cos_0.
    - replace (2 * INR n * PI) with (0 + 2 * INR n * PI) by ring. rewrite sin_period. apply sin_0. }
  destruct (Z_le_gt_dec 0 k) as [P|P].
  - rewrite <- (Z2Nat.id k), <- INR_IZR_INZ by lia. apply N.
  - replace (2 * IZR k * PI) with (- (2 * IZR (- k) * PI)) by (rewrite opp_IZR; ring). rewrite cos_neg, sin_neg. rewrite <- (Z2Nat.id (- k)), <- INR_IZR_INZ by lia. destruct (N (Z.to_nat (- k))) as [-> ->]. split; ring.
Qed.
Theorem C89_zone_axes_partial : forall w b V,
  gb_build w b = Ok V -> uniform_scale (g_voxel (gb_generator b)) ->
  let z2 := match gb_z2 b with Some z => z | None => gb_z1 b end in
  direction_ok (mv (basis_of (gb_generator b)) (gb_z1 b)) -> direction_ok (mv (basis_of (gb_generator b)) z2) ->
  exists l1 l2 g1 g2, V = VMulti 0 [VLeaf l1; VLeaf l2] None /\ l_gen l1 = Some (GCrystal g1) /\ l_gen l2 = Some (GCrystal g2) /\
    mv (basis_of g1) (gb_z1 b) = vscale (norm (mv (basis_of (gb_generator b)) (gb_z1 b))) ez /\
    mv (basis_of g2) z2 = vscale (norm (mv (basis_of (gb_generator b)) z2)) ez /\
    g_structure g1 = g_structure (gb_generator b) /\ g_structure g2 = g_structure (gb_generator b).
Proof.
  intros w b V H US z2 D1 D2. destruct (gb_inv _ _ _ H) as (l' & a & g1 & g2 & l1 & l2 & _ & _ & (r1 & R1 & T1) & (r2 & R2 & T2) & E3 & E4 & ->).
  destruct (leaf_copy _ _ _ _ E3) as (_ & _ & G1 & _). destruct (leaf_copy _ _ _ _ E4) as (_ & _ & G2 & _).
  destruct (gb_rot_aligns _ _ _ _ US D1 R1 T1). destruct (gb_rot_aligns _ _ _ _ US D2 R2 T2).
  eexists _, _, g1, g2. split; [reflexivity|]. auto 10.
Qed.
(** The zone axis [0 0 -1] of a cubic crystal cannot be used at all. *)
Theorem C89_antiparallel_refuted : forall w r1 z2 r2 pl pt vol,
  gb_build w (mkGB (mkV 0 0 (-1)) z2 r1 r2 pl pt vol cube_crystal) = Err AssertionError.
Proof.
  intros. unfold gb_build. cbn [gb_generator gb_z1]. unfold gb_rotation at 1. rewrite sb_cube. replace (mv mI (mkV 0 0 (-1))) with (mkV 0 0 (-1)) by vring.
  assert (E : rot_vtv (mkV 0 0 (-1)) (mkV 0 0 1) = None); [|rewrite E; reflexivity].
  assert (N1 : norm (mkV 0 0 (-1)) = 1). { unfold norm. replace (dot (mkV 0 0 (-1)) (mkV 0 0 (-1))) with 1 by vring. apply sqrt_1. }
  change (mkV 0 0 1) with ez. pose proof eps_pos. pose proof PI2_1 as P2. pose proof eps_small. unfold rot_vtv. rewrite N1, norm_ez.
  rewrite (proj2 (Reqb_false _ _)) by lra. replace (dot (mkV 0 0 (-1)) ez / (1 * 1)) with (-1) by (unfold ez; vunfold; field). rewrite acos_m1.
  rewrite (proj2 (Rltb_false _ _)) by lra. rewrite (proj2 (Rltb_iff _ _)) by lra.
  replace (argmin_axis (mkV 0 0 (-1))) with (mkV 0 0 1).
  2:{ unfold argmin_axis. cbn. rewrite (proj2 (Rleb_iff 0 0)), (proj2 (Rleb_false 0 (-1))) by lra. reflexivity. }
  replace (cross (mkV 0 0 (-1)) (mkV 0 0 1)) with v0 by vring. rewrite norm_v0, (proj2 (Reqb_iff _ _)); auto.
Qed.

(** A buildable boundary: a ball split by the plane x = 0, zone axes [001] and [100]. *)
Definition x_plane : plane := mkPlane (mkV 1 0 0) v0 default_tol.
Definition ball_boundary (r1 : R) (r2 : option R) (pt : option vec) : grain_boundary :=
  mkGB (mkV 0 0 1) (Some (mkV 1 0 0)) r1 r2 (Some (APlane x_plane)) pt (VLeaf ball5) cube_crystal.
Lemma dir1 : direction_ok (mv (basis_of cube_crystal) (mkV 0 0 1)).
Proof.
  rewrite sb_cube. replace (mv mI (mkV 0 0 1)) with ez by (unfold ez; vring). split; [rewrite norm_ez; lra|]. right. exists 1. split; [lra|unfold ez; vring].
Qed.
Lemma norm_ex : norm (mkV 1 0 0) = 1.
Proof. unfold norm. replace (dot (mkV 1 0 0) (mkV 1 0 0)) with 1 by vring. apply sqrt_1. Qed.
Lemma dir2 : direction_ok (mv (basis_of cube_crystal) (mkV 1 0 0)).
Proof.
  rewrite sb_cube. replace (mv mI (mkV 1 0 0)) with (mkV 1 0 0) by vring. split; [rewrite norm_ex; lra|]. left.
  rewrite norm_ex, norm_ez. replace (dot (mkV 1 0 0) ez / (1 * 1)) with 0 by (unfold ez; vunfold; field). rewrite acos_0. pose proof PI2_1. pose proof eps_small. lra.
Qed.
Lemma rotation_passes M : rotation M -> rotation_ok M = true.
Proof.
  intros [O D]. unfold orthogonal in O. unfold rotation_ok. rewrite O, D. replace (1 - 1) with 0 by ring. rewrite Rabs_R0.
  replace (msumabs (msub mI mI)) with 0 by (unfold msumabs; cbn; rewrite ?Rminus_diag_eq by reflexivity; rewrite Rabs_R0; ring).
  rewrite !(proj2 (Rltb_iff _ _)); auto; apply Rinv_0_lt_compat, pow_lt; lra.
Qed.
Lemma gb_rot_total g z : direction_ok (mv (basis_of g) z) -> det (vo_bases (g_voxel g)) <> 0 -> exists rot g', gb_rotation g z = Ok rot /\ crystal_transform g rot = Ok g'.
Proof.
  intros [N0 DIR] HD. unfold gb_rotation. change (mkV 0 0 1) with ez.
  assert (E : exists M, rot_vtv (mv (basis_of g) z) ez = Some M /\ rotation M).
  { assert (NZ : norm ez <> 0) by (rewrite norm_ez; lra). destruct DIR as [DIR|(k & K & E)].
    - destruct (C30_aligns_partial _ _ N0 NZ DIR) as (M' & E' & R & _). eauto.
    - destruct (C30_parallel (mv (basis_of g) z) (/ k) N0 (Rinv_0_lt_compat _ K)) as [E1 _].
      replace (vscale (/ k) (mv (basis_of g) z)) with ez in E1 by (rewrite E; unfold ez; apply vec_eq; vunfold; field; lra). exists mI. split; auto. apply rotation_mI. }
  destruct E as (M & -> & RM). unfold new_rotation. rewrite rotation_passes by auto.
  assert (D' : det (mm M (vo_bases (g_voxel g))) <> 0) by (rewrite det_mm; destruct RM as [_ ->]; lra).
  eexists _, _. split; [reflexivity|]. unfold crystal_transform, set_bases. cbn [apply_bases]. rewrite check_bases_det by auto. reflexivity.
Qed.
Lemma ball_boundary_builds w r1 r2 pt : exists V, gb_build w (ball_boundary r1 r2 pt) = Ok V.
Proof.
  assert (HD : det (vo_bases (g_voxel cube_crystal)) <> 0) by (cbn; rewrite det_mI; lra).
  destruct (gb_rot_total cube_crystal _ dir1 HD) as (q1 & g1 & E1 & T1). destruct (gb_rot_total cube_crystal _ dir2 HD) as (q2 & g2 & E2 & T2).
  unfold gb_build, ball_boundary. cbn [gb_generator gb_z1 gb_z2 gb_volume gb_plane]. rewrite E1. cbn [bind]. rewrite E2. cbn [bind]. rewrite T1. cbn [bind]. rewrite T2. cbn [bind vol_from_volume].
  destruct (leaf_copy_total w ball5 (GCrystal g1)) as [l1 L1]; [left; reflexivity|]. destruct (leaf_copy_total w ball5 (GCrystal g2)) as [l2 L2]; [left; reflexivity|].
  rewrite L1. cbn [rmap bind]. rewrite L2. cbn [rmap bind]. eauto.
Qed.
Example C72_nonvacuous : forall w, exists V, gb_build w (ball_boundary 0 None None) = Ok V /\ pristine ball5 /\
  vol_inside w (VLeaf ball5) (mkV (-1) 0 0) = true /\ below x_plane (mkV (-1) 0 0) /\ vol_inside w (VLeaf ball5) (mkV 1 0 0) = true /\ ~ below x_plane (mkV 1 0 0).
Proof.
  intros w. destruct (ball_boundary_builds w 0 None None) as [V E]. exists V. split; auto. split; [left; split; reflexivity|].
  assert (SP : forall x, x * x <= 1 -> vol_inside w (VLeaf ball5) (mkV x 0 0) = true).
  { intros x X. cbn [vol_inside]. rewrite leaf_inside_eq. cbn [ball5 l_tri andb l_alg forallb alg_interior]. rewrite andb_true_r. unfold sphere_interior. apply Rltb_iff. cbn. unfold default_tol. nra. }
  split; [apply SP; lra|]. unfold below, x_plane, default_tol. cbn [p_point p_normal p_tol]. split; [vunfold; lra|]. split; [apply SP; lra|]. vunfold. lra.
Qed.
Example C89_nonvacuous : forall w, exists V, gb_build w (ball_boundary 0 None None) = Ok V /\ uniform_scale (g_voxel cube_crystal) /\
  direction_ok (mv (basis_of cube_crystal) (mkV 0 0 1)) /\ direction_ok (mv (basis_of cube_crystal) (mkV 1 0 0)).
Proof. intros w. destruct (ball_boundary_builds w 0 None None) as [V E]. exists V. split; auto. split; [exact I|]. split; [apply dir1|apply dir2]. Qed.

(** C88: the phases about the zone axes and the point have no effect: two boundaries
    that differ only in them are the same object. *)
Theorem C88_phases_ignored_refuted :
  (forall w b r1 r2 pt, gb_build w (mkGB (gb_z1 b) (gb_z2 b) r1 r2 (gb_plane b) pt (gb_volume b) (gb_generator b)) = gb_build w b) /\
  (forall w, exists V, gb_build w (ball_boundary 0 None None) = Ok V /\ gb_build w (ball_boundary (PI / 2) (Some 1) (Some (mkV 1 2 3))) = Ok V).
Proof.
  split; [intros w [] ? ? ?; reflexivity|]. intros w. destruct (ball_boundary_builds w 0 None None) as [V E]. exists V. split; auto.
Qed.
(** The true part: phases that are whole turns.  Each grain is the crystal, turned so that
    its zone axis is along z and then by its phase about z. *)
Definition about_z (r : R) : mat := mkM (mkV (cos r) (- sin r) 0) (mkV (sin r) (cos r) 0) (mkV 0 0 1).
Theorem C88_whole_turns_partial : forall w b V k1 k2,
  gb_build w b = Ok V -> uniform_scale (g_voxel (gb_generator b)) -> gb_r1 b = 2 * IZR k1 * PI ->
  let z2 := match gb_z2 b with Some z => z | None => gb_z1 b end in
  let r2 := match gb_r2 b with Some r => r | None => gb_r1 b end in r2 = 2 * IZR k2 * PI ->
  direction_ok (mv (basis_of (gb_generator b)) (gb_z1 b)) -> direction_ok (mv (basis_of (gb_generator b)) z2) ->
  exists l1 l2 g1 g2 Q1 Q2, V = VMulti 0 [VLeaf l1; VLeaf l2] None /\ l_gen l1 = Some (GCrystal g1) /\ l_gen l2 = Some (GCrystal g2) /\
    rotation Q1 /\ rotation Q2 /\ unit_vec (mv Q1 (mv (basis_of (gb_generator b)) (gb_z1 b))) = ez /\ unit_vec (mv Q2 (mv (basis_of (gb_generator b)) z2)) = ez /\
    basis_of g1 = mm (about_z (gb_r1 b)) (mm Q1 (basis_of (gb_generator b))) /\ basis_of g2 = mm (about_z r2) (mm Q2 (basis_of (gb_generator b))).
Proof.
  intros w b V k1 k2 H US P1 z2 r2 P2 D1 D2. destruct (gb_inv _ _ _ H) as (l' & a & g1 & g2 & l1 & l2 & _ & _ & (t1 & R1 & T1) & (t2 & R2 & T2) & E3 & E4 & ->).
  destruct (leaf_copy _ _ _ _ E3) as (_ & _ & G1 & _). destruct (leaf_copy _ _ _ _ E4) as (_ & _ & G2 & _).
  destruct (gb_rot_turns _ _ _ _ US D1 R1 T1) as (Q1 & A1 & B1 & C1). destruct (gb_rot_turns _ _ _ _ US D2 R2 T2) as (Q2 & A2 & B2 & C2).
  assert (W : forall k, about_z (2 * IZR k * PI) = mI).
  { intros k. unfold about_z. destruct (whole_turn k) as [-> ->]. unfold mI. rewrite Ropp_0. reflexivity. }
  eexists _, _, g1, g2, Q1, Q2. rewrite P1, P2, !W, !mm_id_l. split; [reflexivity|]. auto 12.
Qed.
Example C88_nonvacuous : forall w, exists V, gb_build w (ball_boundary (2 * IZR 3 * PI) None None) = Ok V /\ uniform_scale (g_voxel cube_crystal).
Proof. intros w. destruct (ball_boundary_builds w (2 * IZR 3 * PI) None None) as [V E]. exists V. split; [exact E|exact I]. Qed.
(** Miller indices (or no plane) and MultiVolume hosts, both documented, never build. *)
Theorem C88_plane_required_refuted : forall w b V,
  gb_build w b = Ok V -> (exists a, gb_plane b = Some a) /\ exists l, gb_volume b = VLeaf l.
Proof. intros w b V H. destruct (gb_inv _ _ _ H) as (l & a & ? & ? & ? & ? & E1 & E2 & _). eauto. Qed.
