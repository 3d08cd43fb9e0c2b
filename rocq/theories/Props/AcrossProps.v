(** Defect planes of a ball centred at the coordinate origin: the true part of C87. *)
From Coq Require Import Reals List ZArith Bool Lra Lia.
From Flocq Require Import Core.Raux Core.Generic_fmt.
From Verif.Model Require Import Base Vec Algebraic Transform Voxel Generator Volume Misc Snap Prefab.
From Verif.Spec Require Import Geometry CrystalSpec AlgSpec PrefabSpec.
From Verif.Proofs Require Import VecFacts AlgFacts VolumeFacts VolTransFacts PrefabFacts.
From Verif.Props Require Import MiscProps TransformProps GeneratorProps PrefabProps.
Import ListNotations.
Open Scope R_scope.
Local Arguments IZR : simpl never.

(** number of indices different from zero *)
Definition nonzero (h : Z * Z * Z) : Z :=
  let '(a, b, c) := h in ((if a =? 0 then 0 else 1) + (if b =? 0 then 0 else 1) + (if c =? 0 then 0 else 1))%Z.
(** A cubic crystal with lattice constant a: the cell is a rotated (or reflected) cube of
    edge a, in the direction of the unscaled cell, and the structure's spacing of the
    planes h agrees with it. *)
Definition cubic_crystal (g : crystal) (h : Z * Z * Z) (a : R) : Prop :=
  0 < a /\ mm (basis_of g) (mt (basis_of g)) = mscale (a * a) mI /\ mm (mt (basis_of g)) (basis_of g) = mscale (a * a) mI /\
  (exists k, 0 < k /\ basis_of g = mscale k (vo_bases (g_voxel g))) /\
  interplanar (g_structure g) h (a / norm (vec_of h)).

Lemma sums_away h (c : R) : 0 <= c ->
  let f := vscale c (vec_of h) in
  c * dot (vec_of h) (vec_of h) <= IZR (snap_index Ceil h f) < c * dot (vec_of h) (vec_of h) + IZR (nonzero h) \/
  (vec_of h = v0 /\ snap_index Ceil h f = 0%Z).
Proof.
  intros C f. destruct h as [[x y] z].
  assert (ONE : forall n, c * (IZR n * IZR n) <= IZR (round_away (c * IZR n * IZR n)) /\
     (n <> 0%Z -> IZR (round_away (c * IZR n * IZR n)) < c * (IZR n * IZR n) + 1) /\ (n = 0%Z -> round_away (c * IZR n * IZR n) = 0%Z)).
  { intros n. replace (c * IZR n * IZR n) with (c * (IZR n * IZR n)) by ring. set (t := c * (IZR n * IZR n)).
    assert (T : 0 <= t) by (apply Rmult_le_pos; [auto|apply Rle_0_sqr]).
    destruct (C51_round_away t) as ((A & B) & S & _ & Z0). rewrite (Rabs_pos_eq t) in * by auto.
    assert (P : 0 <= IZR (round_away t)).
    { destruct T as [T|T]; [|rewrite (Z0 0%Z) by auto; lra]. apply Rmult_le_reg_l with t; lra. }
    rewrite Rabs_pos_eq in A, B by auto. split; [exact A|]. split; [intros _; exact B|]. intros ->. apply Z0. unfold t. ring. }
  destruct (Z.eq_dec x 0) as [X|X], (Z.eq_dec y 0) as [Y|Y], (Z.eq_dec z 0) as [W|W].
  1: { right. subst. split; [reflexivity|]. unfold snap_index, f. cbn [snap_round vx vy vz vec_of vscale].
       rewrite (proj2 (proj2 (ONE 0%Z)) eq_refl). reflexivity. }
  all: left; unfold snap_index, f; cbn [snap_round vx vy vz vec_of vscale]; unfold dot; cbn [vx vy vz]; unfold nonzero;
    destruct (ONE x) as (A1 & A2 & A3), (ONE y) as (B1 & B2 & B3), (ONE z) as (C1 & C2 & C3);
    rewrite !plus_IZR;
    repeat match goal with
    | H : ?n = 0%Z |- _ => rewrite (proj2 (Z.eqb_eq n 0) H) in *
    | H : ?n <> 0%Z |- _ => rewrite (proj2 (Z.eqb_neq n 0) H) in *
    end;
    repeat match goal with
    | H : ?n <> 0%Z, H2 : ?n <> 0%Z -> _ |- _ => specialize (H2 H)
    | H : ?n = 0%Z, H2 : ?n = 0%Z -> _ |- _ => specialize (H2 H); rewrite H2 in *; subst n
    end; cbn [Z.add Pos.add]; rewrite ?Rmult_0_l, ?Rmult_0_r in *; try lra.
Qed.
Lemma sums_towards h (c : R) : 0 <= c ->
  let f := vscale (- c) (vec_of h) in
  - c * dot (vec_of h) (vec_of h) <= IZR (snap_index Floor h f) <= 0.
Proof.
  intros C f. destruct h as [[x y] z].
  assert (ONE : forall n, - c * (IZR n * IZR n) <= IZR (np_fix (- c * IZR n * IZR n)) <= 0).
  { intros n. replace (- c * IZR n * IZR n) with (- (c * (IZR n * IZR n))) by ring. set (t := c * (IZR n * IZR n)).
    assert (T : 0 <= t) by (apply Rmult_le_pos; [auto|apply Rle_0_sqr]). replace (- c * (IZR n * IZR n)) with (- t) by (unfold t; ring).
    unfold np_fix. rewrite Ztrunc_ceil by lra. pose proof (Zceil_ub (- t)). split; [lra|]. apply IZR_le. apply Zceil_glb. lra. }
  unfold snap_index, f. cbn [snap_round vx vy vz vec_of vscale]. unfold dot. cbn [vx vy vz].
  pose proof (ONE x). pose proof (ONE y). pose proof (ONE z). rewrite !plus_IZR. lra.
Qed.

(** Every defect plane of a ball about the coordinate origin, for a cubic crystal and a
    separation of at least as many planes as there are non-zero indices (three always is
    enough, and is the default), meets the ball; the grains are delimited by these planes. *)
Theorem C87_centred_ball_partial : forall w g l s h a N min_sep ratio draws us aux V,
  (0 <= N)%Z -> (nonzero h <= min_sep)%Z -> l_points l = PNone -> l_tri l = None ->
  l_alg l = [ASphere s] -> s_center s = v0 -> 0 <= s_radius s -> 0 < s_tol s ->
  g_strain g = None -> cubic_crystal g h a ->
  fcc_build w g (VLeaf l) N min_sep h ratio draws us = Ok (aux, V) ->
  exists vols defects, V = VMulti 0 vols None /\ Z.of_nat (length defects) = N /\
    (forall k pl, nth_error defects k = Some pl -> exists v, nth_error vols (S k) = Some v /\
       forall p, vol_inside w v p = true <-> vol_inside w (VLeaf l) p = true /\ below pl p) /\
    forall pl, In pl defects -> exists p, on_plane pl p /\ vol_inside w (VLeaf l) p = true.
Proof.
  intros w g l s h a N ms ratio draws us aux V HN HM LP LT LA SC SR ST HS (A & B1 & B2 & (k & K & BK) & IP) H.
  assert (PR : pristine l) by (left; auto).
  assert (MS : (0 <= ms)%Z). { destruct h as [[x y] z]. unfold nonzero in HM. destruct (x =? 0)%Z, (y =? 0)%Z, (z =? 0)%Z; lia. }
  unfold fcc_build in H. inv_bind H. inv_bind H. rename a0 into se. rename a1 into planes.
  set (nv := vscale (/ norm (mv (vo_bases (g_voxel g)) (vec_of h))) (mv (vo_bases (g_voxel g)) (vec_of h))) in *.
  assert (SE : se = (vscale (-1 * s_radius s) nv, vscale (s_radius s) nv)).
  { unfold extremes in Ha. inv_bind Ha. rewrite LA in Ha. cbn [fold_left] in Ha. injection Ha as <-. reflexivity. }
  subst se. cbn [fst snd] in *. clear Ha.
  unfold plane_stack in Ha0. inv_bind Ha0. inv_bind Ha0. inv_bind Ha0. inv_bind Ha0. injection Ha0 as <-.
  rename a0 into sp, a1 into ep, a2 into d, a3 into rest. rename Ha into Esp, Ha1 into Eep, Ha2 into Ed, Ha3 into Er.
  destruct (snap_plane_form _ _ _ _ _ Esp) as (U & T & NZ). destruct (snap_plane_form _ _ _ _ _ Eep) as (U2 & _ & _).
  set (Bm := basis_of g) in *. set (hv := vec_of h) in *.
  assert (NH : 0 < norm hv). { destruct (norm_pos hv) as [P|P]; auto. exfalso. apply NZ. symmetry in P. apply norm_zero in P. exact P. }
  assert (DV : d = a / norm hv).
  { pose proof (proj1 (d_hkl_interplanar _ _ _) Ed) as I2. destruct h as [[x y] z]. destruct IP as (DS & G & G1 & G2), I2 as (_ & G' & G1' & ->).
    replace G' with G; [symmetry; exact G2|]. rewrite <- (mv_minv_l _ G DS), <- (mv_minv_l _ G' DS), G1, G1'. reflexivity. }
  assert (DP : 0 < d) by (rewrite DV; apply Rdiv_lt_0_compat; auto).
  (* the direction of the planes *)
  assert (MB : forall u v, dot (mv Bm u) (mv Bm v) = a * a * dot u v).
  { intros u v. rewrite dot_mv. replace (mv (mt Bm) (mv Bm v)) with (mv (mm (mt Bm) Bm) v) by vring. rewrite B2. vring. }
  assert (NB : norm (mv Bm hv) = a * norm hv).
  { unfold norm. rewrite MB. rewrite sqrt_mult by (try nra; apply dot_pos). rewrite sqrt_square by lra. reflexivity. }
  assert (NV : nv = vscale (/ (a * norm hv)) (mv Bm hv)).
  { assert (X : mv Bm hv = vscale k (mv (vo_bases (g_voxel g)) hv)) by (rewrite BK; vring).
    rewrite <- NB, X, norm_scale, (Rabs_pos_eq k) by lra. unfold nv.
    assert (Y : norm (mv (vo_bases (g_voxel g)) hv) <> 0).
    { intros E. rewrite X, norm_scale, E, Rmult_0_r in NB. apply Rlt_irrefl with 0. rewrite NB at 2. apply Rmult_lt_0_compat; auto. }
    set (q := norm _) in *. set (v := mv _ _) in *. clearbody q v. apply vec_eq; cbn; field; split; lra. }
  assert (UN : norm nv = 1). { rewrite NV, norm_scale, NB, Rabs_pos_eq; [field; lra|]. left. apply Rinv_0_lt_compat. apply Rmult_lt_0_compat; auto. }
  assert (DET : det Bm <> 0).
  { destruct (snap_normal _ _ _ _ _ HS Esp) as [X _]. exact X. }
  assert (PN : forall pt m pl, snap_plane pt g h m = Ok pl -> p_normal pl = nv).
  { intros pt m pl E. destruct (snap_normal _ _ _ _ _ HS E) as (_ & c & C & NE). destruct (snap_plane_form _ _ _ _ _ E) as (UE & _).
    fold Bm in NE. fold hv in NE.
    assert (MI : mv (mt (minv Bm)) hv = vscale (/ (a * a)) (mv Bm hv)).
    { assert (X : forall v, mv (mt Bm) (mv (mt (minv Bm)) v) = v).
      { intros v. rewrite <- mv_mm, <- mt_mm, minv_l by auto. vring. }
      assert (Y : mv Bm (mv (mt Bm) (mv (mt (minv Bm)) hv)) = mv Bm hv) by (rewrite X; reflexivity).
      replace (mv Bm (mv (mt Bm) (mv (mt (minv Bm)) hv))) with (mv (mm Bm (mt Bm)) (mv (mt (minv Bm)) hv)) in Y by vring. rewrite B1 in Y.
      rewrite <- Y. set (q := mv (mt (minv Bm)) hv). clearbody q. apply vec_eq; vunfold; cbn; field; lra. }
    rewrite MI in NE. assert (NE' : p_normal pl = vscale (c * / (a * a)) (mv Bm hv)) by (rewrite NE; apply vec_eq; cbn; ring).
    assert (CC : 0 < c * / (a * a)). { apply Rmult_lt_0_compat; auto. apply Rinv_0_lt_compat. nra. }
    rewrite NE', norm_scale, NB, Rabs_pos_eq in UE by lra. rewrite NE', NV. f_equal.
    apply Rmult_eq_reg_r with (a * norm hv); [|apply Rgt_not_eq, Rmult_lt_0_compat; auto]. rewrite UE. field. lra. }
  assert (HT : forall u, dot (mv Bm u) nv = d * dot hv u).
  { intros u. rewrite NV, DV. replace (dot (mv Bm u) (vscale (/ (a * norm hv)) (mv Bm hv))) with (/ (a * norm hv) * dot (mv Bm u) (mv Bm hv)) by (generalize (/ (a * norm hv)); vring).
    rewrite MB, (dot_comm u hv). field. lra. }
  (* heights of the first and the last plane *)
  assert (HH : forall c m pl, snap_plane (vscale c nv) g h m = Ok pl ->
     dot (p_point pl) nv = d * IZR (snap_index m h (vscale (c / (a * norm hv)) hv))).
  { intros c m pl E. destruct (snap_plane_family _ _ _ _ _ HS E) as (_ & F). fold Bm in F.
    specialize (F (vscale (c / (a * norm hv)) hv)).
    assert (E1 : mv Bm (vscale (c / (a * norm hv)) hv) = vscale c nv).
    { rewrite NV. replace (mv Bm (vscale (c / (a * norm hv)) hv)) with (vscale (c / (a * norm hv)) (mv Bm hv)) by (generalize (c / (a * norm hv)); vring).
      unfold Rdiv. generalize (/ (a * norm hv)). vring. }
    specialize (F E1 (mv (minv Bm) (p_point pl))). rewrite vadd_v0_l, (mv_minv_r _ _ DET) in F.
    assert (ON : on_plane pl (p_point pl)) by (unfold on_plane; replace (vsub (p_point pl) (p_point pl)) with v0 by vring; vring).
    apply F in ON. rewrite <- (mv_minv_r Bm (p_point pl) DET), HT.
    f_equal. replace hv with (miller_vec h) by (destruct h as [[? ?] ?]; reflexivity). exact ON. }
  pose proof (HH _ _ _ Esp) as HL. pose proof (HH _ _ _ Eep) as HU. clear HH.
  set (c := s_radius s / (a * norm hv)) in *.
  assert (C0 : 0 <= c). { unfold c. apply Rmult_le_pos; auto. left. apply Rinv_0_lt_compat, Rmult_lt_0_compat; auto. }
  replace (-1 * s_radius s / (a * norm hv)) with (- c) in HL by (unfold c; field; lra).
  assert (CR : c * dot hv hv * d = s_radius s). { rewrite DV, <- norm_sq. unfold c. field. lra. }
  pose proof (sums_towards h c C0) as LO. cbn zeta in LO. fold hv in LO. set (KL := snap_index Floor h (vscale (- c) hv)) in *.
  destruct (sums_away h c C0) as [HI|[X _]]; [|fold hv in X; contradiction]. cbn zeta in HI. fold hv in HI. set (KU := snap_index Ceil h (vscale c hv)) in *.
  assert (KK : (0 <= KU - KL)%Z). { apply le_IZR. rewrite minus_IZR. pose proof (Rmult_le_pos c (dot hv hv) C0 (dot_pos hv)). lra. }
  assert (CNT : np_round (dist_from_plane ep (p_point sp) / d) = (KU - KL)%Z).
  { unfold dist_from_plane, sdist_from_plane. rewrite (PN _ _ _ Eep).
    replace (dot (p_point sp) nv - dot (p_point ep) nv) with (- (d * IZR (KU - KL))) by (rewrite HL, HU, minus_IZR; ring).
    rewrite Rabs_Ropp, Rabs_pos_eq by (apply Rmult_le_pos; [lra|apply (IZR_le 0); lia]).
    replace (d * IZR (KU - KL) / d) with (IZR (KU - KL)) by (field; lra). unfold np_round. apply Zrnd_IZR. typeclasses eauto. }
  rewrite CNT in Er.
  destruct (stack_planes_levels (p_normal sp) d U (Z.to_nat (KU - KL)) (p_point sp) sp eq_refl eq_refl T) as (rest' & E1 & E2).
  rewrite E1 in Er. injection Er as <-. rewrite E2 in H.
  destruct (build_grains w l _ g N ms _ (p_point sp) d _ draws _ _ V HN MS PR U DP H) as (vols & defects & gens & auxs & -> & G & _).
  exists vols, defects. split; [reflexivity|]. split; [apply (gr_defects _ _ _ _ _ _ _ _ _ _ _ G)|]. split.
  - intros j pl Hj. destruct (gr_next _ _ _ _ _ _ _ _ _ _ _ G _ _ Hj) as (v & Hv & I). exists v. split; [exact Hv|].
    intros p. rewrite I, andb_true_iff, below_plane. reflexivity.
  - intros pl Hpl. apply In_nth_error in Hpl. destruct Hpl as [j Hj]. destruct (gr_stack _ _ _ _ _ _ _ _ _ _ _ G _ _ Hj) as (i & I & ->).
    rewrite (PN _ _ _ Esp). set (t := d * (IZR KL + IZR i)). exists (vscale t nv).
    assert (NN : dot nv nv = 1) by (rewrite <- norm_sq, UN; ring).
    split.
    + unfold on_plane. cbn [p_point p_normal].
      replace (dot (vsub (vscale t nv) (vadd (p_point sp) (vscale (IZR i * d) nv))) nv) with (t * dot nv nv - dot (p_point sp) nv - IZR i * d * dot nv nv) by (generalize t; vring).
      rewrite NN, HL. unfold t. ring.
    + assert (TB : - s_radius s <= t <= s_radius s).
      { unfold t. assert (I1 : IZR ms <= IZR i) by (apply IZR_le; lia). assert (I2 : IZR i <= IZR (KU - KL - ms)) by (apply IZR_le; lia).
        rewrite !minus_IZR in I2. apply IZR_le in HM, MS. rewrite <- CR. split; nra. }
      cbn [vol_inside]. rewrite leaf_inside_eq, LT, LA. cbn [forallb alg_interior andb]. rewrite andb_true_r. unfold sphere_interior. rewrite SC. apply Rltb_iff.
      replace (_ + _ + _) with (t * t * dot nv nv) by (generalize t; vring). rewrite NN. nra.
Qed.
Lemma norm_z : norm (vec_of (0, 0, 1)%Z) = 1.
Proof. exact norm_ez. Qed.
Example C87_nonvacuous : cubic_crystal cube_crystal (0, 0, 1)%Z 1 /\ (nonzero (0, 0, 1) <= 3)%Z /\
  forall w, exists draws aux V, fcc_build w cube_crystal (VLeaf ball5) 2 3 (0, 0, 1)%Z (1/2) draws [0; 1] = Ok (aux, V).
Proof.
  split; [|split; [cbn; lia|]].
  - unfold cubic_crystal. rewrite sb_cube. split; [lra|]. split; [apply mat_eq; apply vec_eq; cbn; unfold dot; cbn; ring|]. split; [apply mat_eq; apply vec_eq; cbn; unfold dot; cbn; ring|].
    split; [exists 1; split; [lra|apply mat_eq; apply vec_eq; cbn; ring]|]. rewrite norm_z. split; [cbn [g_structure cube_crystal st_matrix]; rewrite det_mI; lra|].
    exists ez. split; [apply vec_eq; cbn; unfold dot; cbn; ring|]. rewrite norm_ez. field.
  - intros w. destruct (C69_nonvacuous w) as (_ & E). exact E.
Qed.
