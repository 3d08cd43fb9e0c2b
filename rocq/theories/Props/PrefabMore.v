(** The full statements of C72 and C85 are false: counterexamples. *)
From Coq Require Import Reals List ZArith Bool Lra Lia Psatz.
From Verif.Model Require Import Base Vec Algebraic Transform Voxel Generator Volume Snap Prefab.
From Verif.Spec Require Import Geometry CrystalSpec AlgSpec PrefabSpec.
From Verif.Proofs Require Import VecFacts AlgFacts VolumeFacts VolTransFacts PrefabFacts.
From Verif.Props Require Import TransformProps GeneratorProps PrefabProps GrainProps.
Import ListNotations.
Open Scope R_scope.

(** A host with points and its own tolerance: neither grain has all of its points. *)
Definition cube_boundary : grain_boundary :=
  mkGB (mkV 0 0 1) (Some (mkV 1 0 0)) 0 None (Some (APlane x_plane)) None (VLeaf loose_cube) cube_crystal.
Theorem C72_tolerance_refuted : exists V p,
  gb_build cube_world cube_boundary = Ok V /\
  vol_inside cube_world (VLeaf loose_cube) p = true /\ below x_plane p /\ vol_inside cube_world V p = false.
Proof.
  assert (HD : det (vo_bases (g_voxel cube_crystal)) <> 0) by (cbn; rewrite det_mI; lra).
  destruct (gb_rot_total cube_crystal _ dir1 HD) as (q1 & g1 & E1 & T1). destruct (gb_rot_total cube_crystal _ dir2 HD) as (q2 & g2 & E2 & T2).
  assert (CP : copyable cube_world loose_cube) by (right; exists unit_cube; split; [reflexivity|split; [cbn; lia|reflexivity]]).
  destruct (leaf_copy_total cube_world loose_cube (GCrystal g1) CP) as [l1 L1]. destruct (leaf_copy_total cube_world loose_cube (GCrystal g2) CP) as [l2 L2].
  assert (E : gb_build cube_world cube_boundary = Ok (VMulti 0 [VLeaf (with_alg l1 (l_alg l1 ++ [APlane x_plane])); VLeaf (with_prio l2 (l_prio l2 + 1))] None)).
  { unfold gb_build, cube_boundary. cbn [gb_generator gb_z1 gb_z2 gb_volume gb_plane]. rewrite E1. cbn [bind]. rewrite E2. cbn [bind]. rewrite T1. cbn [bind]. rewrite T2. cbn [bind vol_from_volume].
    rewrite L1. cbn [rmap bind]. rewrite L2. reflexivity. }
  exists (VMulti 0 [VLeaf (with_alg l1 (l_alg l1 ++ [APlane x_plane])); VLeaf (with_prio l2 (l_prio l2 + 1))] None), (mkV (-1/4) (1/2) (1/2)).
  split; [exact E|]. split; [|split].
  - cbn. unfold cube_find. cbn. rewrite !(proj2 (Rleb_iff _ _)) by lra. reflexivity.
  - unfold below, x_plane, default_tol. cbn [p_point p_normal p_tol]. vunfold. lra.
  - assert (OUT : forall lk, l_tri lk = Some unit_cube -> l_tol lk = default_vtol -> leaf_inside cube_world lk (mkV (-1/4) (1/2) (1/2)) = false).
    { intros lk A1 A2. rewrite leaf_inside_eq, A1, A2. cbn [w_find cube_world]. unfold cube_find. cbn [vx]. rewrite (proj2 (Rleb_false _ _)); [reflexivity|]. unfold default_vtol. lra. }
    destruct (leaf_copy _ _ _ _ L1) as (_ & _ & _ & C1 & _ & R1). destruct (leaf_copy _ _ _ _ L2) as (_ & _ & _ & C2 & _ & R2).
    cbn [vol_inside existsb]. rewrite !OUT; auto.
Qed.

(** A crystal whose voxel is scaled per row: below the twin plane (111) it is not a
    mirror image in any plane. *)
Definition row_crystal : crystal := mkCrystal (mkStruct mI [v0] [79%Z]) (mkVoxel mI (SRows (mkV 2 1 1)) v0) None None.
Lemma sb_row : basis_of row_crystal = mkM (mkV 2 0 0) (mkV 0 1 0) (mkV 0 0 1).
Proof. unfold basis_of. cbn. apply mat_eq; apply vec_eq; vunfold; ring. Qed.
Lemma minv_row : minv (mkM (mkV 2 0 0) (mkV 0 1 0) (mkV 0 0 1)) = mkM (mkV (1/2) 0 0) (mkV 0 1 0) (mkV 0 0 1).
Proof. apply mat_eq; apply vec_eq; vunfold; field. Qed.
Lemma mirror_len pl p q : norm (p_normal pl) = 1 -> dot (vsub (mirror pl p) (mirror pl q)) (vsub (mirror pl p) (mirror pl q)) = dot (vsub p q) (vsub p q).
Proof.
  intros N. apply unit_dot in N. unfold mirror. set (n := p_normal pl) in *. set (o := p_point pl). clearbody n o.
  transitivity (dot (vsub p q) (vsub p q) + 4 * (dot n n - 1) * (dot (vsub p q) n * dot (vsub p q) n)); [vring|]. rewrite N. ring.
Qed.
Theorem C85_rows_refuted : forall w, exists draws aux l0 l1 g1,
  pristine ball5 /\ g_strain row_crystal = None /\
  fcc_build w row_crystal (VLeaf ball5) 1 0 (1, 1, 1)%Z 0 draws [1] = Ok (aux, VMulti 0 [VLeaf l0; VLeaf l1] None) /\
  l_gen l0 = Some (GCrystal row_crystal) /\ l_gen l1 = Some (GCrystal g1) /\
  forall pl, norm (p_normal pl) = 1 ->
    ~ forall c f, lattice_site (basis_of g1) (origin_of g1) c f = mirror pl (lattice_site (basis_of row_crystal) (origin_of row_crystal) c f).
Proof.
  intros w. set (h := (1, 1, 1)%Z). set (nv := mv (vo_bases (g_voxel row_crystal)) (vec_of h)).
  assert (EX : exists s f, extremes (vscale (/ norm nv) nv) (get_bounding_box w ball5) (l_alg ball5) = Ok (s, f)).
  { assert (B : exists q qs, get_bounding_box w ball5 = BArr (q :: qs)) by (cbn; eauto). destruct B as (q & qs & B). rewrite B. unfold extremes. cbn [bind ball5 l_alg fold_left s_radius]. eauto. }
  destruct EX as (s & f & EX).
  assert (DB : det (basis_of row_crystal) <> 0) by (rewrite sb_row; vunfold; lra).
  destruct (plane_stack_total row_crystal h s f eq_refl DB) as (n0 & pt0 & d0 & m & U0 & D0 & PS).
  { cbn. rewrite det_mI. lra. }
  { rewrite sb_row, minv_row. pose proof eps_small.
    replace (mv (mt (mkM (mkV (1 / 2) 0 0) (mkV 0 1 0) (mkV 0 0 1))) (vec_of h)) with (mkV (1/2) 1 1) by (cbn; apply vec_eq; vunfold; field).
    pose proof (norm_ge_x (mkV (1/2) 1 1)) as X. cbn [vx] in X. rewrite Rabs_pos_eq in X by lra. lra. }
  destruct (fcc_builds_stack w row_crystal ball5 1 0 h 0 [1] s f (map (level n0 pt0 d0) (seq 0 (S m)))) with (prefix := @nil nat) as (r & aux & V & E); try lia; auto.
  { left. reflexivity. }
  { cbn; lia. }
  { cbn. rewrite det_mI. lra. }
  { rewrite map_length, seq_length. lia. }
  cbn [app] in E. assert (PR : pristine ball5) by (left; split; reflexivity).
  destruct (fcc_build_normal w row_crystal ball5 1 0 h 0 r [1] aux V eq_refl ltac:(lia) ltac:(lia) PR E) as (_ & n & pt & d & cn & vols & defects & gens & auxs & EV & G & (c & C & NE) & G0 & A0 & ST).
  pose proof (gr_defects _ _ _ _ _ _ _ _ _ _ _ G) as LD. pose proof (gr_volumes _ _ _ _ _ _ _ _ _ _ _ G) as LV.
  destruct defects as [|pl [|? ?]]; cbn [length] in LD; try lia. destruct vols as [|v1 [|v2 [|? ?]]]; cbn [length] in LV; try lia.
  destruct (ST 0%nat pl eq_refl) as (gp & ap & gk & ak & t & X1 & X2 & X3 & X4 & S1 & CT).
  rewrite G0 in X1. injection X1 as <-. rewrite A0 in X2. injection X2 as <-.
  destruct (gr_gen _ _ _ _ _ _ _ _ _ _ _ G 0%nat _ _ eq_refl G0) as (l0 & -> & L0). destruct (gr_gen _ _ _ _ _ _ _ _ _ _ _ G 1%nat _ _ eq_refl X3) as (l1 & -> & L1).
  exists r, aux, l0, l1, gk. split; [exact PR|]. split; [reflexivity|]. subst V. split; [exact E|]. split; [exact L0|]. split; [exact L1|].
  unfold fcc_step in S1. cbn [fa_draws] in S1. rewrite (proj2 (Rltb_false 1 0)) in S1 by lra. injection S1 as <- <-.
  destruct (gr_stack _ _ _ _ _ _ _ _ _ _ _ G 0%nat pl eq_refl) as (sh & _ & ->). pose proof (unit_dot _ (gr_unit _ _ _ _ _ _ _ _ _ _ _ G)) as NN.
  rewrite sb_row, minv_row in NE.
  assert (NE' : n = mkV (c / 2) c c) by (rewrite NE; cbn; apply vec_eq; vunfold; field). clear NE. rewrite NE' in NN.
  assert (CC : c * c = 4 / 9) by (unfold dot in NN; cbn [vx vy vz] in NN; lra).
  assert (BK : basis_of gk = mkM (mkV (14 / 9) (-8 / 9) (-8 / 9)) (mkV (-4 / 9) (1 / 9) (-8 / 9)) (mkV (-4 / 9) (-8 / 9) (1 / 9))).
  { unfold crystal_transform in CT. inv_bind CT. injection CT as <-. unfold set_bases in Ha. inv_bind Ha. injection Ha as <-. unfold basis_of. cbn [g_voxel basis_only].
    assert (AE : a0 = apply_bases (TReflection (mkPlane n (vadd pt (vscale (IZR sh * d) n)) default_tol) true false) mI).
    { unfold check_bases in Ha0. cbn [vo_bases g_voxel row_crystal] in Ha0. revert Ha0. repeat destruct (collinear _ _); intros X; inversion X; auto. }
    subst a0. cbn [apply_bases p_normal]. unfold reflection_matrix. rewrite NE', NN. clear - CC.
    cbn. apply mat_eq; apply vec_eq; vunfold; lra. }
  intros pl N1 M. pose proof (M (0, 0, 0)%Z (mkV 1 0 0)) as M1. pose proof (M (0, 0, 0)%Z v0) as M0. clear M.
  pose proof (mirror_len pl (lattice_site (basis_of row_crystal) (origin_of row_crystal) (0, 0, 0)%Z (mkV 1 0 0)) (lattice_site (basis_of row_crystal) (origin_of row_crystal) (0, 0, 0)%Z v0) N1) as Q.
  rewrite <- M1, <- M0 in Q. clear M1 M0. rewrite BK, sb_row in Q. unfold lattice_site, zvec, v0 in Q. cbn in Q.
  set (o := origin_of gk) in Q. unfold dot, vsub, vadd, mv in Q. cbn in Q. unfold dot in Q. cbn in Q. clear - Q. lra.
Qed.
