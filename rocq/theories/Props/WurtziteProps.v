(** C101: the crystals of the grains made by wurtziteStackingFault. *)
From Coq Require Import Reals List ZArith Bool Lra Lia.
From Verif.Model Require Import Base Vec Algebraic Transform Voxel Post Generator Volume Misc Snap Prefab.
From Verif.Spec Require Import Geometry CrystalSpec AlgSpec PrefabSpec.
From Verif.Proofs Require Import VecFacts AlgFacts VolumeFacts VolTransFacts PrefabFacts.
From Verif.Props Require Import MiscProps TransformProps GeneratorProps PrefabProps.
Import ListNotations.
Open Scope R_scope.

Lemma all_close_iff a b : all_close a b = true <-> points_close a b.
Proof. unfold all_close, points_close, np_close. rewrite !andb_true_iff, !Rleb_iff. tauto. Qed.
Lemma shifted_crystal g b lk g' : crystal_transform g (TTranslation b lk false) = Ok g' ->
  g_structure g' = g_structure g /\ g_strain g' = g_strain g /\ basis_of g' = basis_of g /\ origin_of g' = vadd (origin_of g) b.
Proof.
  unfold crystal_transform. intros H. inv_bind H. injection H as <-. unfold set_bases in Ha. inv_bind Ha. injection Ha as <-.
  assert (a0 = vo_bases (g_voxel g)).
  { cbn [apply_bases] in Ha0. unfold check_bases in Ha0. revert Ha0. repeat destruct (collinear _ _); intros X; inversion X; auto. }
  subst a0. cbn. auto.
Qed.

(** Going down through a fault plane the crystal is shifted by one third or two thirds of
    [1 -1 0], with alternating sign from fault to fault, and by half of -c.  Two thirds is
    used exactly when the (001) plane and the (002) plane snapped to the fault plane
    coincide.  The first part of the shift lies in the fault plane. *)
Theorem C101_wurtzite_grains : forall w g l N min_sep draws V,
  (0 <= N)%Z -> (0 <= min_sep)%Z -> pristine l -> g_strain g = None ->
  wz_build w g (VLeaf l) N min_sep draws = Ok V ->
  exists vols defects gens, V = VMulti 0 vols None /\ Z.of_nat (length defects) = N /\
    (forall p k, serves w vols k p <-> vol_inside w (VLeaf l) p = true /\ lowest_above defects p k) /\
    (forall k v, nth_error vols k = Some v -> exists lk gk, v = VLeaf lk /\ nth_error gens k = Some gk /\ l_gen lk = Some (GCrystal gk)) /\
    nth_error gens 0 = Some g /\
    forall k pl, nth_error defects k = Some pl -> exists gp gk p1 p2 third,
      nth_error gens k = Some gp /\ nth_error gens (S k) = Some gk /\
      g_structure gk = g_structure g /\ basis_of gk = basis_of g /\
      snap_plane (p_point pl) gp (0, 0, 1)%Z Nearest = Ok p1 /\ snap_plane (p_point pl) gp (0, 0, 2)%Z Nearest = Ok p2 /\
      (points_close (p_point p1) (p_point p2) -> third = 2) /\ (~ points_close (p_point p1) (p_point p2) -> third = 1) /\
      dot (mv (basis_of g) (mkV 1 (-1) 0)) (p_normal pl) = 0 /\
      forall c f, lattice_site (basis_of gk) (origin_of gk) c f =
        vadd (lattice_site (basis_of gp) (origin_of gp) c f)
             (mv (basis_of g) (mkV ((-1) ^ k * third / 3) (- ((-1) ^ k * third / 3)) (- (1 / 2)))).
Proof.
  intros w g l N ms draws V HN HM PR HS H. unfold wz_build in H. inv_bind H. inv_bind H. inv_bind H. inv_bind H. injection H as <-. destruct a2 as [aux V].
  assert (SN : exists sp, snap_plane (fst a0) g (0, 0, 2)%Z Floor = Ok sp /\ exists rest, a1 = sp :: rest).
  { unfold plane_stack in Ha1. inv_bind Ha1. inv_bind Ha1. inv_bind Ha1. inv_bind Ha1. injection Ha1 as <-. eauto. }
  destruct SN as (sp & E1 & rest & E2). destruct (snap_normal _ _ _ _ _ HS E1) as (HD & cn & C & NE).
  destruct (plane_stack_levels _ _ _ _ _ Ha1) as (n & pt & d & m & U & D & _ & E3).
  assert (EN : n = p_normal sp) by (rewrite E2 in E3; cbn [seq map] in E3; injection E3 as -> _; reflexivity).
  subst a1. rewrite E3 in Ha2.
  destruct (build_grains w l _ g N ms n pt d m draws _ _ V HN HM PR U D Ha2) as (vols & defects & gens & auxs & -> & G & G0 & A0 & _ & ST).
  exists vols, defects, gens. split; auto. split; [apply (gr_defects _ _ _ _ _ _ _ _ _ _ _ G)|]. split; [exact (grains_serves _ _ _ _ _ _ _ _ _ _ _ HM G)|]. split; [|split; auto].
  { intros k v Hv. destruct (nth_error gens k) as [gk|] eqn:Hg.
    - destruct (gr_gen _ _ _ _ _ _ _ _ _ _ _ G _ _ _ Hv Hg) as (lk & -> & E). eauto.
    - apply nth_error_None in Hg. pose proof (gr_gens _ _ _ _ _ _ _ _ _ _ _ G). assert (k < length vols)%nat by (apply nth_error_Some; congruence). lia. }
  assert (LS : forall k gp ap, (k <= length defects)%nat -> nth_error gens k = Some gp -> nth_error auxs k = Some ap ->
     g_structure gp = g_structure g /\ basis_of gp = basis_of g /\ ap = (-1) ^ k).
  { induction k as [|k IH]; intros gp ap K Hg Hp.
    - rewrite G0 in Hg. injection Hg as <-. rewrite A0 in Hp. injection Hp as <-. auto.
    - destruct (nth_error defects k) as [pl|] eqn:Hd; [|apply nth_error_None in Hd; lia].
      destruct (ST k pl Hd) as (g1 & a1 & g2 & a2 & t & Q1 & Q2 & Q3 & Q4 & Q5 & Q6). rewrite Q3 in Hg. injection Hg as <-. rewrite Q4 in Hp. injection Hp as <-.
      destruct (IH g1 a1 ltac:(lia) Q1 Q2) as (I1 & I2 & I3). unfold wz_step in Q5. inv_bind Q5. inv_bind Q5. injection Q5 as <- <-.
      destruct (shifted_crystal _ _ _ _ Q6) as (S1 & _ & S2 & _). rewrite S1, S2, I1, I2, I3. split; auto. split; auto. cbn [pow]. ring. }
  intros k pl Hd. destruct (ST k pl Hd) as (gp & ap & gk & ak & t & Q1 & Q2 & Q3 & Q4 & Q5 & Q6).
  assert (K : (k < length defects)%nat) by (apply nth_error_Some; congruence).
  destruct (LS k gp ap ltac:(lia) Q1 Q2) as (I1 & I2 & I3). destruct (LS (S k) gk ak ltac:(lia) Q3 Q4) as (J1 & J2 & _).
  unfold wz_step in Q5. inv_bind Q5. inv_bind Q5. injection Q5 as <- <-. destruct (shifted_crystal _ _ _ _ Q6) as (_ & _ & _ & S3).
  exists gp, gk, a1, a2, (if all_close (p_point a1) (p_point a2) then 2 else 1). repeat (split; [assumption|]).
  split; [intros A; apply all_close_iff in A; rewrite A; auto|]. split; [intros A; destruct (all_close _ _) eqn:E; [apply all_close_iff in E; contradiction|auto]|].
  split.
  - destruct (gr_stack _ _ _ _ _ _ _ _ _ _ _ G _ _ Hd) as (s & _ & ->). cbn [p_normal]. rewrite EN, NE, dot_recip by auto. cbn [vec_of]. vunfold. ring.
  - intros [[i j] q] f. rewrite S3, J2, !I2, I3. unfold lattice_site. set (third := if all_close _ _ then 2 else 1).
    generalize third ((-1) ^ k) (vo_origin (g_voxel gp)) (sbases (g_voxel g)). intros. vfield.
Qed.

(* ------------------------------------------------------------------ *)
(** * C102: the prefab is built whenever the request fits *)
Lemma usable_002 g : usable_planes g (0, 0, 1)%Z -> usable_planes g (0, 0, 2)%Z.
Proof.
  intros (A & B & C & D & G & E & F). repeat (split; [assumption|]). exists (vscale 2 G). split.
  - transitivity (vscale 2 (mv (mt (basis_of g)) G)); [generalize (basis_of g); vring|]. rewrite E. cbn. vring.
  - rewrite norm_scale, Rabs_pos_eq by lra. pose proof eps_pos. lra.
Qed.
Lemma usable_snap pt g h m : usable_planes g h -> exists pl, snap_plane pt g h m = Ok pl.
Proof.
  intros (HS & HB & HV & HD & G & HG & HE). apply snap_plane_total; auto.
  assert (E1 : mv (mt (minv (basis_of g))) (vec_of h) = G).
  { rewrite <- HG. transitivity (mv (mt (mm (basis_of g) (minv (basis_of g)))) G); [vring|]. rewrite minv_r by auto. vring. }
  destruct h as [[? ?] ?]. cbn in *. rewrite E1. exact HE.
Qed.
Lemma shift_total g b lk : det (vo_bases (g_voxel g)) <> 0 -> exists g', crystal_transform g (TTranslation b lk false) = Ok g' /\ vo_bases (g_voxel g') = vo_bases (g_voxel g).
Proof.
  intros D. unfold crystal_transform, set_bases. cbn [apply_bases basis_only]. rewrite check_bases_det by auto. cbn [bind]. eexists. split; reflexivity.
Qed.
Lemma wz_step_total bz ap g pl : usable_planes g (0, 0, 1)%Z ->
  exists ap' t g', wz_step bz ap g pl = Ok (ap', t) /\ crystal_transform g t = Ok g' /\ usable_planes g' (0, 0, 1)%Z.
Proof.
  intros UP. destruct (usable_snap (p_point pl) _ _ Nearest UP) as [p1 E1]. destruct (usable_snap (p_point pl) _ _ Nearest (usable_002 _ UP)) as [p2 E2].
  unfold wz_step. rewrite E1, E2. cbn [bind]. destruct UP as (A & B & C & D & G & E & F).
  set (b := vadd _ bz). destruct (shift_total g b true C) as (g' & T & VB). exists (ap * -1), (TTranslation b true false), g'. split; [reflexivity|]. split; [exact T|].
  destruct (shifted_crystal _ _ _ _ T) as (S1 & S2 & S3 & _). unfold usable_planes. rewrite S1, S2, S3, VB. repeat (split; [assumption|]). eauto.
Qed.

(** For every host with points or a sphere the number of (002) planes decides: if the
    request fits, any stream of split draws can be continued to one for which the object
    is built; if it is too large, ValueError is raised. *)
Theorem C102_wurtzite_builds : forall w g l, usable_planes g (0, 0, 1)%Z -> copyable w l -> bounded_host l ->
  exists n lo hi count, (exists G, mv (basis_of g) G = vec_of (0, 0, 2)%Z /\ n = unit_vec G) /\
  ends n l lo hi /\ stack_count g (0, 0, 2)%Z lo hi count /\ (1 <= count)%Z /\
  forall N min_sep, (1 <= N)%Z -> (0 <= min_sep)%Z ->
    ((N - 1) * min_sep < count - 2 * min_sep ->
       forall prefix, exists rest V, wz_build w g (VLeaf l) N min_sep (prefix ++ rest) = Ok V)%Z /\
    (count - 2 * min_sep < (N - 1) * min_sep \/ count <= 2 * min_sep ->
       forall d ds, wz_build w g (VLeaf l) N min_sep (d :: ds) = Err ValueError)%Z.
Proof.
  intros w g l UP HC HB. pose proof (usable_002 _ UP) as UP2. assert (HD : det (basis_of g) <> 0) by apply UP.
  set (rb := minv (basis_of g)). set (nv := mv rb (vec_of (0, 0, 2)%Z)).
  destruct (extremes_ends w l (unit_vec nv) HB) as (lo & hi & EX & EN). destruct (stack_counted g (0, 0, 2)%Z lo hi UP2) as (count & SC & C1 & planes & PS & LP).
  exists (unit_vec nv), lo, hi, count. split; [exists nv; split; [unfold nv, rb; apply mv_minv_r; auto|auto]|]. split; [exact EN|]. split; [exact SC|]. split; [exact C1|].
  assert (RB : reciprocal_bases (g_voxel g) = Ok rb) by (unfold reciprocal_bases, inv; rewrite (proj2 (Reqb_false _ _) HD); reflexivity).
  intros N ms HN HM. split.
  - intros FIT prefix. destruct (plane_stack_levels _ _ _ _ _ PS) as (n & pt & d & m & U & D & _ & EQ).
    destruct (C50_splits_terminate_partial N ms (Z.of_nat (length planes)) HN) as (P & _). destruct (P ltac:(nia) prefix) as (rest & out & E).
    exists rest. unfold wz_build. rewrite RB. cbn [bind]. fold nv. change (vscale (/ norm nv) nv) with (unit_vec nv). rewrite EX. cbn [bind fst snd]. rewrite PS. cbn [bind].
    subst planes. rewrite map_length, seq_length in E.
    match goal with |- context [wz_step ?b] => destruct (build_total w l (wz_step b) (fun k ax gx => usable_planes gx (0, 0, 1)%Z) g N ms n pt d m (prefix ++ rest) 1 out) as (ax & V & EV) end; auto; [lia| |].
    + intros k ax gx pl _ _ J. apply wz_step_total; auto.
    + rewrite EV. cbn [bind snd]. eauto.
  - intros BIG d ds. unfold wz_build. rewrite RB. cbn [bind]. fold nv. change (vscale (/ norm nv) nv) with (unit_vec nv). rewrite EX. cbn [bind fst snd]. rewrite PS. cbn [bind]. unfold build_defects.
    destruct (C50_splits_terminate_partial N ms (Z.of_nat (length planes)) HN) as (_ & P & _). rewrite P; [reflexivity|lia].
Qed.

(** A ball in a unit cubic crystal (standing for a wurtzite cell; the claims do not
    depend on the cell's shape). *)
Example C101_nonvacuous : forall w, pristine ball5 /\ usable_planes cube_crystal (0, 0, 1)%Z /\ copyable w ball5 /\ bounded_host ball5 /\
  exists draws V, wz_build w cube_crystal (VLeaf ball5) 3 0 draws = Ok V.
Proof.
  intros w. split; [left; split; reflexivity|]. destruct C90_nonvacuous as (A & B & C & _). split; [exact C|]. split; [apply A|]. split; [exact B|].
  destruct (C102_wurtzite_builds w cube_crystal ball5 C (A w) B) as (n & lo & hi & count & _ & _ & _ & C1 & H).
  destruct (H 3%Z 0%Z ltac:(lia) ltac:(lia)) as [F _]. destruct (F ltac:(lia) []) as (rest & V & E). eauto.
Qed.
Example C102_nonvacuous : forall w, usable_planes cube_crystal (0, 0, 1)%Z /\ copyable w ball5 /\ bounded_host ball5.
Proof. intros w. destruct (C101_nonvacuous w) as (_ & A & B & C & _). auto. Qed.
