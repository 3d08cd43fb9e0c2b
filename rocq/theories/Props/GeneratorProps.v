(** Crystalline generators: C10, C28, C35, C36, C37, C38, C39, C40, C41, C43, C76. *)
From Coq Require Import Reals List ZArith Bool Lra Lia Psatz String.
From Flocq Require Import Core.Raux.
From Verif.Model Require Import Base Vec Algebraic Voxel Strain Post Misc Transform Generator Volume.
From Verif.Spec Require Import Geometry CrystalSpec AlgSpec.
From Verif.Proofs Require Import PriorityFacts VecFacts VolumeFacts HullFacts AlgFacts GenFacts.
From Verif.Props Require Import BoxProps.
Import ListNotations.
Open Scope R_scope.
Local Arguments IZR : simpl never.
Local Ltac vnum := apply vec_eq; vunfold; cbn; try unfold dot; cbn; lra.

(* ------------------------------------------------------------------ *)
(** * C35, C36: supply_atoms *)

Notation basis_of g := (sbases (g_voxel g)).
Notation origin_of g := (vo_origin (g_voxel g)).

(** Every site of the infinite crystal in the convex hull of the box is supplied,
    with its species. *)
Theorem C76_near_cell_partial : forall mk draws c g box,
  well_formed g -> g_strain g = None -> g_post g = None ->
  Forall near_cell (st_frac (g_structure g)) -> box <> [] ->
  exists ps zs, supply_atoms mk draws c (GCrystal g) (BArr box) = Ok (c, GCrystal g, (ps, zs)) /\
    List.length ps = List.length zs /\
    forall p z, crystal_atom (basis_of g) (origin_of g) (cell_sites g) p z ->
                in_hull box p -> In (p, z) (combine ps zs).
Proof.
  intros mk draws c g box WF HS HP HF HB.
  destruct (crystal_supply_plain mk c g box WF HB HS HP) as (lo & hi & HE & HC).
  destruct (block_pairs g (lo, hi) WF) as [HL HPairs].
  destruct (block_atoms g (lo, hi)) as [ps zs] eqn:EB. cbn [fst snd] in *.
  exists ps, zs. split; [unfold supply_atoms; rewrite HC; reflexivity|]. split; [exact HL|].
  intros p z (n & f & Hf & ->) HH. rewrite HPairs. apply in_flat_map. exists n. split.
  - destruct WF as [_ HD]. eapply site_in_block; eauto. rewrite Forall_forall in HF. apply HF.
    unfold cell_sites in Hf. eapply in_combine_l; eauto.
  - apply in_map_iff. exists (f, z). auto.
Qed.
Lemma cell_near f : in_cell f -> near_cell f.
Proof. unfold in_cell, near_cell. lra. Qed.
Theorem C35_supply_covers_box : forall mk draws c g box,
  well_formed g -> g_strain g = None -> g_post g = None ->
  Forall in_cell (st_frac (g_structure g)) -> box <> [] ->
  exists ps zs, supply_atoms mk draws c (GCrystal g) (BArr box) = Ok (c, GCrystal g, (ps, zs)) /\
    List.length ps = List.length zs /\
    forall p z, crystal_atom (basis_of g) (origin_of g) (cell_sites g) p z ->
                in_hull box p -> In (p, z) (combine ps zs).
Proof.
  intros mk draws c g box WF HS HP HF HB. apply C76_near_cell_partial; auto. eapply Forall_impl; [apply cell_near|exact HF].
Qed.

(** Exactly one atom per (cell, site) of a duplicate-free list of cells, and, when
    the sites are distinct modulo the lattice, no position twice. *)
Theorem C36_supply_sites_once : forall mk draws c g box c' g' ps zs,
  well_formed g -> g_strain g = None -> g_post g = None ->
  supply_atoms mk draws c (GCrystal g) (BArr box) = Ok (c', g', (ps, zs)) ->
  List.length ps = List.length zs /\
  (exists block, NoDup block /\
    combine ps zs =
    flat_map (fun n => map (fun fz => (lattice_site (basis_of g) (origin_of g) n (fst fz), snd fz)) (cell_sites g)) block) /\
  (forall p z, In (p, z) (combine ps zs) -> crystal_atom (basis_of g) (origin_of g) (cell_sites g) p z) /\
  (distinct_mod_lattice (st_frac (g_structure g)) -> NoDup ps).
Proof.
  intros mk draws c g box c' g' ps zs WF HS HP H.
  assert (HB : box <> []). { intros ->. cbn in H. discriminate. }
  destruct (crystal_supply_plain mk c g box WF HB HS HP) as (lo & hi & HE & HC).
  cbn [supply_atoms] in H. rewrite HC in H. cbn [bind fst snd] in H.
  assert (H2 : block_atoms g (lo, hi) = (ps, zs)) by congruence. clear H.
  destruct (block_pairs g (lo, hi) WF) as [HL HPairs].
  assert (HPS : ps = flat_map (fun n => map (lattice_site (basis_of g) (origin_of g) n) (st_frac (g_structure g))) (cells lo hi)).
  { unfold block_atoms in H2. cbn [fst snd] in H2. inversion H2. apply flat_map_ext. intros n. apply map_ext. intros f.
    apply site_pos_spec. }
  rewrite H2 in HL, HPairs. cbn [fst snd] in *. split; [exact HL|]. split; [|split].
  - exists (cells lo hi). split; [apply NoDup_cells|exact HPairs].
  - intros p z Hin. rewrite HPairs in Hin. apply in_flat_map in Hin as (n & _ & Hin).
    apply in_map_iff in Hin as ([f z'] & E & Hin). cbn [fst snd] in E. inversion E; subst. exists n, f. auto.
  - intros HD. rewrite HPS. apply block_NoDup; auto. apply NoDup_cells.
Qed.

(** A two-site cubic crystal with edge 2 meets the hypotheses, and its box holds sites. *)
Definition ex_struct : structure :=
  mkStruct (mkM (mkV 2 0 0) (mkV 0 2 0) (mkV 0 0 2)) [mkV 0 0 0; mkV (1/2) (1/2) (1/2)] [11%Z; 17%Z].
Definition ex_crystal : crystal := mkCrystal ex_struct (mkVoxel (st_matrix ex_struct) (SAll 1) v0) None None.
Lemma ex_wf : well_formed ex_crystal.
Proof. split; [reflexivity|]. cbn. vunfold. lra. Qed.
Lemma ex_cells : Forall in_cell (st_frac (g_structure ex_crystal)).
Proof. repeat constructor; cbn; lra. Qed.
Lemma ex_distinct : distinct_mod_lattice (st_frac (g_structure ex_crystal)).
Proof.
  assert (HALF : forall a, 0 - 1/2 = IZR a -> False).
  { intros a E. assert (2 * IZR a = -1) by lra. rewrite <- (mult_IZR 2 a) in H. apply eq_IZR in H. lia. }
  assert (HALF' : forall a, 1/2 - 0 = IZR a -> False).
  { intros a E. assert (2 * IZR a = 1) by lra. rewrite <- (mult_IZR 2 a) in H. apply eq_IZR in H. lia. }
  intros [|[|i]] [|[|j]] fi fj a b c Hi Hj E; cbn in Hi, Hj; auto;
    try (destruct i; discriminate); try (destruct j; discriminate);
    inversion Hi; inversion Hj; subst; exfalso; unfold vsub, zvec in E; cbn in E; inversion E;
    [eapply HALF|eapply HALF']; eauto.
Qed.
Example C35_C36_nonvacuous :
  new_crystal ex_struct None None = Ok ex_crystal /\ well_formed ex_crystal /\
  Forall in_cell (st_frac (g_structure ex_crystal)) /\ distinct_mod_lattice (st_frac (g_structure ex_crystal)) /\
  crystal_atom (basis_of ex_crystal) (origin_of ex_crystal) (cell_sites ex_crystal) (mkV 3 3 3) 17 /\
  in_hull [mkV 0 0 0; mkV 4 4 4] (mkV 3 3 3).
Proof.
  split.
  { unfold new_crystal, set_structure, new_voxel, check_bases, collinear. cbn [st_matrix ex_struct r0 r1 r2].
    assert (Z : forall a b, dot a b = 0 -> Reqb (Rabs (dot a b / (norm a * norm b))) 1 = false).
    { intros a b ->. apply Reqb_false. unfold Rdiv. rewrite Rmult_0_l, Rabs_R0. lra. }
    rewrite !Z by vring. repeat destruct (Reqb _ 0); reflexivity. }
  split; [apply ex_wf|]. split; [apply ex_cells|]. split; [apply ex_distinct|]. split.
  - exists (1%Z, 1%Z, 1%Z), (mkV (1/2) (1/2) (1/2)). split; [cbn; auto|]. cbn. vnum.
  - exists [1/4; 3/4]. repeat split; auto. repeat constructor; lra. cbn; lra. cbn. vnum.
Qed.

(* ------------------------------------------------------------------ *)
(** * C76: sites given outside the unit cell *)

(** Nothing in the code reduces the fractional coordinates of the structure to the
    unit cell (pymatgen keeps what it is given unless to_unit_cell is set), and then
    supply_atoms misses sites of the box: here the site (5/2,0,0) = cell -1 + 7/2. *)
Definition far_struct : structure :=
  mkStruct mI [mkV (7/2) 0 0] [6%Z].
Definition far_crystal : crystal := mkCrystal far_struct (mkVoxel mI (SAll 1) v0) None None.
Theorem C76_sites_outside_cell_refuted :
  well_formed far_crystal /\
  exists box p ps zs, forall mk draws c,
    crystal_atom (basis_of far_crystal) (origin_of far_crystal) (cell_sites far_crystal) p 6 /\ in_hull box p /\
    supply_atoms mk draws c (GCrystal far_crystal) (BArr box) = Ok (c, GCrystal far_crystal, (ps, zs)) /\
    ~ In p ps.
Proof.
  assert (WF : well_formed far_crystal) by (split; [reflexivity|cbn; vunfold; lra]).
  split; [exact WF|].
  set (box := [mkV 0 0 0; mkV 3 0 0]).
  destruct (crystal_supply_plain (fun _ _ _ => 0) 0%nat far_crystal box WF ltac:(discriminate) eq_refl eq_refl)
    as (lo & hi & HE & _).
  assert (HLO : fst (fst lo) = 0%Z).
  { destruct WF as [_ HD]. destruct (get_extents_Ok (g_voxel far_crystal) box HD ltac:(discriminate)) as (e & es & E & HE').
    rewrite HE in HE'. inversion HE'; subst lo hi. unfold box in E. cbn [map] in E. inversion E; subst e es.
    cbn [rows_min fold_left vfloor fst]. apply Zfloor_imp. cbn. unfold fcoord, vmin. cbn.
    unfold minv, det, cross, dot. cbn.
    match goal with |- 0 <= Rmin ?a ?b < _ => replace a with 0 by field; replace b with 3 by field end.
    rewrite Rmin_left by lra. lra. }
  exists box, (mkV (5/2) 0 0), (fst (block_atoms far_crystal (lo, hi))), (snd (block_atoms far_crystal (lo, hi))).
  intros mk draws c. split; [|split; [|split]].
  - exists ((-1)%Z, 0%Z, 0%Z), (mkV (7/2) 0 0). split; [cbn; auto|]. cbn. vnum.
  - exists [1/6; 5/6]. repeat split; auto. repeat constructor; lra. cbn; lra. cbn. vnum.
  - destruct (crystal_supply_plain mk c far_crystal box WF ltac:(discriminate) eq_refl eq_refl) as (lo' & hi' & HE' & HC).
    rewrite HE in HE'. inversion HE'; subst lo' hi'. cbn [supply_atoms]. rewrite HC. reflexivity.
  - cbn [block_atoms fst snd]. intros HI. apply in_flat_map in HI as ([[a b] d] & Hc & HI).
    destruct HI as [HI|[]]. apply in_cells in Hc. destruct lo as [[l0 l1] l2], hi as [[h0 h1] h2]. cbn [fst] in HLO. subst l0.
    destruct Hc as [[Ha _] _]. cbn in HI. assert (E : vx (mkV (5/2) 0 0) = 5/2) by reflexivity. rewrite <- HI in E.
    vunfold. revert E. cbn. unfold dot; cbn. intros E. assert (IZR a = -1) by lra. apply eq_IZR in H. lia.
Qed.
(** A site a little outside the cell, as C76_near_cell_partial allows. *)
Example C76_nonvacuous : let g := mkCrystal (mkStruct mI [mkV (-1/2) 0 (3/4)] [6%Z]) (mkVoxel mI (SAll 1) v0) None None in
  well_formed g /\ g_strain g = None /\ g_post g = None /\ Forall near_cell (st_frac (g_structure g)) /\ ~ Forall in_cell (st_frac (g_structure g)).
Proof.
  cbn zeta. split; [split; [reflexivity|cbn; vunfold; lra]|]. split; [reflexivity|]. split; [reflexivity|].
  split; [apply Forall_cons; [|apply Forall_nil]; unfold near_cell; cbn; lra|].
  intros H. inversion H as [|? ? X _]. unfold in_cell in X. cbn in X. lra.
Qed.

(* ------------------------------------------------------------------ *)
(** * C10: crystal volumes are completely filled *)

Lemma in_filter_pairs w l (ps : list vec) (zs : list Z) p z : List.length ps = List.length zs ->
  (In (p, z) (combine (filter (leaf_inside w l) ps)
                     (map snd (filter (fun q => leaf_inside w l (fst q)) (combine ps zs)))) <->
   In (p, z) (combine ps zs) /\ leaf_inside w l p = true).
Proof.
  revert zs. induction ps as [|x ps IH]; intros [|y zs] L; cbn; try discriminate; [easy|].
  injection L as L. specialize (IH zs L). cbn in IH. destruct (leaf_inside w l x) eqn:E; cbn.
  - rewrite IH. split; [intros [H|[H1 H2]]|intros [[H|H] H2]]; auto. inversion H; subst. auto.
  - rewrite IH. split; [tauto|]. intros [[H|H] H2]; auto. inversion H; subst. congruence.
Qed.

Theorem C10_crystal_volume_filled : forall w c l g box,
  l_gen l = Some (GCrystal g) -> well_formed g -> g_strain g = None -> g_post g = None ->
  Forall in_cell (st_frac (g_structure g)) ->
  get_bounding_box w l = BArr box -> box <> [] ->
  exists l' ats sps, leaf_populate w c l = Ok (c, l') /\ l_atoms l' = Some (ats, sps) /\
    List.length ats = List.length sps /\
    (forall p z, In (p, z) (combine ats sps) ->
       crystal_atom (basis_of g) (origin_of g) (cell_sites g) p z /\ leaf_inside w l p = true) /\
    (forall p z, crystal_atom (basis_of g) (origin_of g) (cell_sites g) p z ->
       leaf_inside w l p = true -> in_hull box p -> In (p, z) (combine ats sps)) /\
    (distinct_mod_lattice (st_frac (g_structure g)) -> NoDup ats).
Proof.
  intros w c l g box HG WF HS HP HF HB HN.
  destruct (C35_supply_covers_box (w_mk w) (w_draws w) c g box WF HS HP HF HN) as (ps & zs & HSup & HL & HCov).
  destruct (C36_supply_sites_once _ _ _ _ _ _ _ _ _ WF HS HP HSup) as (_ & _ & HOnly & HND).
  destruct (leaf_populate w c l) as [[c' l']|e] eqn:HPop.
  - destruct (leaf_populate_inv _ _ _ _ _ HPop) as (g0 & g1 & co & sp & HG' & HSup' & L & ->).
    rewrite HG in HG'. inversion HG'; subst g0. rewrite HB in HSup'. rewrite HSup in HSup'. inversion HSup'; subst.
    do 3 eexists. split; [reflexivity|]. split; [reflexivity|]. split.
    { clear - L. revert sp L. induction co as [|x co IH]; intros [|y sp] L; cbn in *; try discriminate; auto.
      destruct (leaf_inside w l x); cbn; auto. }
    split; [|split].
    + intros p z H. apply in_filter_pairs in H as [H1 H2]; auto.
    + intros p z H1 H2 H3. apply in_filter_pairs; auto.
    + intros HD. apply NoDup_filter. auto.
  - exfalso. unfold leaf_populate in HPop. rewrite HG, HB, HSup in HPop. cbn [bind] in HPop.
    rewrite leaf_check_map in HPop. unfold index_mask in HPop. rewrite map_length, HL, Nat.eqb_refl in HPop.
    cbn [bind] in HPop. discriminate.
Qed.

(** Sphere-bounded volumes: every crystal atom that is interior and within the
    nominal radius of every sphere is there, whatever other surfaces cut the volume. *)
Theorem C10_sphere_bounded_filled : forall w c l g,
  l_gen l = Some (GCrystal g) -> well_formed g -> g_strain g = None -> g_post g = None ->
  Forall in_cell (st_frac (g_structure g)) ->
  l_points l = PNone -> Forall valid_alg (l_alg l) -> (exists s, In (ASphere s) (l_alg l)) ->
  exists l' ats sps, leaf_populate w c l = Ok (c, l') /\ l_atoms l' = Some (ats, sps) /\
    forall p z, crystal_atom (basis_of g) (origin_of g) (cell_sites g) p z -> leaf_inside w l p = true ->
      (forall s, In (ASphere s) (l_alg l) -> dist p (s_center s) <= s_radius s) ->
      In (p, z) (combine ats sps).
Proof.
  intros w c l g HG WF HS HP HF HPt HV HSp.
  destruct (C13_sphere_box w l HPt HV HSp) as (b & box & Hb & _ & HB & L8 & _ & HIn & _).
  assert (HN : box <> []) by (intros ->; discriminate).
  destruct (C10_crystal_volume_filled w c l g box HG WF HS HP HF HB HN) as (l' & ats & sps & H1 & H2 & _ & _ & H3 & _).
  exists l', ats, sps. split; [auto|]. split; [auto|]. intros p z Hc Hi Hd. apply H3; auto.
Qed.

(** Cylinder-bounded volumes (no points, no sphere, at most three planes, axis of the
    first cylinder not along (1,1,1)). *)
Theorem C10_cylinder_bounded_filled : forall w c l g cy cs,
  l_gen l = Some (GCrystal g) -> well_formed g -> g_strain g = None -> g_post g = None ->
  Forall in_cell (st_frac (g_structure g)) ->
  l_points l = PNone -> spheres_of (l_alg l) = [] -> (List.length (planes_of (l_alg l)) <= 3)%nat ->
  cyls_of (l_alg l) = cy :: cs -> valid_cyl cy -> off_diagonal (c_axis cy) ->
  exists l' ats sps, leaf_populate w c l = Ok (c, l') /\ l_atoms l' = Some (ats, sps) /\
    forall p z, crystal_atom (basis_of g) (origin_of g) (cell_sites g) p z -> leaf_inside w l p = true ->
      norm (cross (vsub p (c_point cy)) (c_axis cy)) <= c_radius cy ->
      Rabs (dot (vsub p (c_point cy)) (c_axis cy)) <= c_length cy / 2 ->
      In (p, z) (combine ats sps).
Proof.
  intros w c l g cy cs HG WF HS HP HF HPt HSp HPl HCy HV HO.
  destruct (C12_cylinder_box_partial cy HV HO) as (box & HBx & L8 & _ & HIn).
  assert (HB : get_bounding_box w l = BArr box).
  { unfold get_bounding_box. rewrite HPt, HSp. destruct (Nat.ltb_spec 3 (List.length (planes_of (l_alg l)))); [lia|].
    rewrite HCy, HBx. reflexivity. }
  assert (HN : box <> []) by (intros ->; discriminate).
  destruct (C10_crystal_volume_filled w c l g box HG WF HS HP HF HB HN) as (l' & ats & sps & H1 & H2 & _ & _ & H3 & _).
  exists l', ats, sps. split; [auto|]. split; [auto|]. intros p z Hc Hi Hd Hd'. apply H3; auto.
Qed.

(** Point-bounded volumes: the hull of the points. *)
Theorem C10_point_bounded_filled : forall w c l g pts,
  l_gen l = Some (GCrystal g) -> well_formed g -> g_strain g = None -> g_post g = None ->
  Forall in_cell (st_frac (g_structure g)) ->
  l_points l = PArr pts -> pts <> [] ->
  exists l' ats sps, leaf_populate w c l = Ok (c, l') /\ l_atoms l' = Some (ats, sps) /\
    forall p z, crystal_atom (basis_of g) (origin_of g) (cell_sites g) p z -> leaf_inside w l p = true ->
      in_hull pts p -> In (p, z) (combine ats sps).
Proof.
  intros w c l g pts HG WF HS HP HF HPt HN.
  assert (HB : get_bounding_box w l = BArr pts) by (unfold get_bounding_box; rewrite HPt; reflexivity).
  destruct (C10_crystal_volume_filled w c l g pts HG WF HS HP HF HB HN) as (l' & ats & sps & H1 & H2 & _ & _ & H3 & _).
  exists l', ats, sps. auto.
Qed.

Definition ex_ball : leaf :=
  mkLeaf PNone None None [ASphere (mkSphere 3 v0 1)] (Some (GCrystal ex_crystal)) 0 1 None.
Example C10_nonvacuous : forall w,
  l_gen ex_ball = Some (GCrystal ex_crystal) /\ Forall valid_alg (l_alg ex_ball) /\
  (exists s, In (ASphere s) (l_alg ex_ball)) /\
  crystal_atom (basis_of ex_crystal) (origin_of ex_crystal) (cell_sites ex_crystal) (mkV 1 1 (-1)) 17 /\
  leaf_inside w ex_ball (mkV 1 1 (-1)) = true /\ dist (mkV 1 1 (-1)) v0 <= 3.
Proof.
  intros w. split; [reflexivity|]. split; [repeat constructor; cbn; lra|]. split; [eexists; cbn; eauto|]. split.
  - exists (0%Z, 0%Z, (-1)%Z), (mkV (1/2) (1/2) (1/2)). split; [cbn; auto|]. cbn. vnum.
  - assert (E : dist (mkV 1 1 (-1)) v0 <= 3).
    { unfold dist, norm. rewrite <- (sqrt_square 3) by lra. apply sqrt_le_1; vunfold; lra. }
    split; auto. unfold leaf_inside. cbn [ex_ball l_tri l_alg fold_left alg_interior]. unfold sphere_interior.
    cbn. apply Rltb_iff. lra.
Qed.

(* ------------------------------------------------------------------ *)
(** * C37: transforming a generator moves its crystal *)

Lemma apply_bases_mm : forall t a d, apply_bases t (mm a d) = mm (apply_bases t a) d.
Proof.
  induction t as [s lk bo|m o lk bo|o lk bo|pl lk bo|ts IH] using transform_ind'; intros a d; cbn [apply_bases];
    try reflexivity; try apply mm_assoc.
  revert a. induction IH as [|t ts H _ IHts]; intros a; cbn [fold_left]; auto. rewrite H. apply IHts.
Qed.
Lemma apply_pt_affine : forall t b x o,
  apply_pt t (vadd (mv b x) o) = vadd (mv (apply_bases t b) x) (apply_pt t o).
Proof.
  induction t as [s lk bo|m o' lk bo|o' lk bo|pl lk bo|ts IH] using transform_ind'; intros b x o; cbn [apply_bases apply_pt].
  - vring.
  - unfold matrix_pt. rewrite mv_mm. destruct o' as [o'|].
    + replace (vsub (vadd (mv b x) o) o') with (vadd (mv b x) (vsub o o')) by (generalize (mv b x); vring).
      rewrite mv_add. generalize (mv m (mv b x)) (mv m (vsub o o')). vring.
    + apply mv_add.
  - unfold matrix_pt. rewrite mv_mm. destruct o' as [o'|].
    + replace (vsub (vadd (mv b x) o) o') with (vadd (mv b x) (vsub o o')) by (generalize (mv b x); vring).
      rewrite mv_add. generalize (mv (mscale (-1) mI) (mv b x)) (mv (mscale (-1) mI) (vsub o o')). vring.
    + apply mv_add.
  - unfold matrix_pt. rewrite mv_mm. set (m := reflection_matrix (p_normal pl)).
    replace (vsub (vadd (mv b x) o) (p_point pl)) with (vadd (mv b x) (vsub o (p_point pl))) by (generalize (mv b x); vring).
    rewrite mv_add. generalize (mv m (mv b x)) (mv m (vsub o (p_point pl))). vring.
  - revert b o. induction IH as [|t ts H _ IHts]; intros b o; cbn [fold_left]; [reflexivity|]. rewrite H. apply IHts.
Qed.

(** scale given as a number or per lattice vector *)
Definition uniform_scale (v : voxel) : Prop :=
  match vo_scale v with SAll _ | SCols _ => True | SRows _ | SFull _ => False end.
Lemma sbases_mm v : uniform_scale v ->
  exists d, forall b o, sbases (mkVoxel b (vo_scale v) o) = mm b d.
Proof.
  unfold uniform_scale. destruct (vo_scale v) as [s|s|s|s]; intros H; [| |destruct H|destruct H].
  - exists (mscale s mI). intros b o. unfold sbases. cbn. vring.
  - exists (mkM (mkV (vx s) 0 0) (mkV 0 (vy s) 0) (mkV 0 0 (vz s))). intros b o. unfold sbases. cbn. vring.
Qed.

Theorem C37_transform_moves_crystal_partial : forall g t g',
  crystal_transform g t = Ok g' -> uniform_scale (g_voxel g) ->
  g_structure g' = g_structure g /\ g_strain g' = g_strain g /\ g_post g' = g_post g /\
  forall n f,
    (* the crystal is moved as a whole ... *)
    (basis_only t = false ->
       lattice_site (basis_of g') (origin_of g') n f =
       apply_pt t (lattice_site (basis_of g) (origin_of g) n f)) /\
    (* ... or only its directions are, with the origin kept *)
    (basis_only t = true ->
       origin_of g' = origin_of g /\
       vsub (lattice_site (basis_of g') (origin_of g') n f) (origin_of g') =
       vsub (apply_pt t (lattice_site (basis_of g) (origin_of g) n f)) (apply_pt t (origin_of g))).
Proof.
  intros g t g' H US. unfold crystal_transform in H. inv_bind H. unfold set_bases in Ha. inv_bind Ha.
  inversion H; subst. inversion Ha; subst. cbn [g_structure g_strain g_post]. split; [auto|]. split; [auto|]. split; [auto|].
  unfold check_bases in Ha0.
  assert (a0 = apply_bases t (vo_bases (g_voxel g))).
  { revert Ha0. repeat destruct (collinear _ _); intros E; inversion E; auto. }
  subst a0. destruct (sbases_mm (g_voxel g) US) as [d Hd].
  assert (EB : basis_of g = mm (vo_bases (g_voxel g)) d).
  { rewrite <- (Hd _ (vo_origin (g_voxel g))). destruct (g_voxel g); reflexivity. }
  intros [[a b] c] f. cbn [g_voxel]. unfold lattice_site. destruct (basis_only t); split; intros HB; try discriminate.
  - cbn [vo_origin]. split; [reflexivity|]. rewrite EB, Hd, <- apply_bases_mm, apply_pt_affine, !vsub_vadd. reflexivity.
  - unfold set_vorigin. cbn [vo_bases vo_scale vo_origin]. rewrite Hd, EB, apply_pt_affine, apply_bases_mm. reflexivity.
Qed.

(** Bases whose determinant does not vanish are accepted, so an invertible
    transformation of an invertible basis never fails. *)
Lemma collinear_det a b : collinear a b = true -> dot (cross a b) (cross a b) = 0.
Proof.
  unfold collinear. destruct (Reqb (norm a * norm b) 0) eqn:E; [discriminate|]. apply Reqb_false in E. intros H.
  apply Reqb_iff in H. rewrite lagrange, <- !norm_sq.
  assert (Q : dot a b * dot a b = (norm a * norm b) * (norm a * norm b)).
  { set (q := dot a b / (norm a * norm b)) in *. assert (dot a b = q * (norm a * norm b)) by (unfold q; field; split; intros Z0; apply E; rewrite Z0; ring).
    rewrite H0. assert (q * q = 1). { replace (q * q) with (Rabs q * Rabs q) by (unfold Rabs; destruct (Rcase_abs q); ring). rewrite H. ring. }
    replace (q * (norm a * norm b) * (q * (norm a * norm b))) with ((q * q) * ((norm a * norm b) * (norm a * norm b))) by ring.
    rewrite H1. ring. }
  rewrite Q. ring.
Qed.
Lemma check_bases_det b : det b <> 0 -> check_bases b = Ok b.
Proof.
  intros H. unfold check_bases.
  destruct (collinear (r0 b) (r1 b)) eqn:E1.
  { exfalso. apply H. apply collinear_det, dot_zero in E1. replace (det b) with (dot (r2 b) (cross (r0 b) (r1 b))) by vring. rewrite E1. unfold v0, dot; cbn; ring. }
  destruct (collinear (r0 b) (r2 b)) eqn:E2.
  { exfalso. apply H. apply collinear_det, dot_zero in E2. replace (det b) with (- dot (r1 b) (cross (r0 b) (r2 b))) by vring. rewrite E2. unfold v0, dot; cbn; ring. }
  destruct (collinear (r1 b) (r2 b)) eqn:E3.
  { exfalso. apply H. apply collinear_det, dot_zero in E3. unfold det. rewrite E3. unfold v0, dot; cbn; ring. }
  reflexivity.
Qed.

(** With a scale of shape (3,1), which the setter accepts, the crystal is not moved
    rigidly: quarter turn about z, rows scaled by (2,1,1). *)
Definition quarter : mat := mkM (mkV 0 (-1) 0) (mkV 1 0 0) (mkV 0 0 1).
Theorem C37_row_scaled_refuted :
  exists g g' t n f, rotation quarter /\ t = TMatrix quarter None true false /\
    crystal_transform g t = Ok g' /\
    lattice_site (basis_of g') (origin_of g') n f <> apply_pt t (lattice_site (basis_of g) (origin_of g) n f).
Proof.
  set (g := mkCrystal (mkStruct mI [v0] [6%Z]) (mkVoxel mI (SRows (mkV 2 1 1)) v0) None None).
  set (t := TMatrix quarter None true false).
  assert (E : exists g', crystal_transform g t = Ok g' /\ g_voxel g' = mkVoxel (mm quarter mI) (SRows (mkV 2 1 1)) (apply_pt t v0)).
  { unfold crystal_transform, set_bases. cbn [apply_bases t]. change (vo_bases (g_voxel g)) with mI.
    rewrite check_bases_det by (unfold quarter; vunfold; lra). cbn [bind]. eexists. split; reflexivity. }
  destruct E as (g' & E1 & E2). exists g, g', t, (1%Z, 0%Z, 0%Z), v0. split.
  { split; [unfold orthogonal, quarter; vring|unfold quarter; vring]. }
  split; [reflexivity|]. split; [exact E1|]. rewrite E2. unfold lattice_site. cbn. unfold quarter. vunfold.
  intros C. inversion C as [[C1 C2 C3]]. cbn in *. lra.
Qed.
Example C37_nonvacuous : exists g', crystal_transform ex_crystal (TMulti [TTranslation (mkV 1 2 3) false false; TMatrix quarter None true false]) = Ok g' /\
  uniform_scale (g_voxel ex_crystal) /\ origin_of g' = mkV (-2) 1 3.
Proof.
  unfold crystal_transform, set_bases. rewrite check_bases_det by (cbn; unfold quarter; vunfold; lra). cbn [bind].
  eexists. split; [reflexivity|]. split; [exact I|]. cbn. unfold quarter. apply vec_eq; vunfold; lra.
Qed.

(* ------------------------------------------------------------------ *)
(** * C28: a sequence at once or step by step *)

Theorem C28_sequence_at_once_refuted : exists g ts g1 g2,
  crystal_transform g (TMulti ts) = Ok g1 /\ foldM crystal_transform ts g = Ok g2 /\
  origin_of g1 <> origin_of g2.
Proof.
  exists ex_crystal, [TTranslation (mkV 1 2 3) true false; TMatrix quarter None true true].
  assert (D : det (mm quarter (st_matrix ex_struct)) <> 0) by (cbn; unfold quarter; vunfold; lra).
  assert (D0 : det (st_matrix ex_struct) <> 0) by (cbn; vunfold; lra).
  do 2 eexists. split; [|split].
  - unfold crystal_transform, set_bases. cbn [apply_bases fold_left]. change (vo_bases (g_voxel ex_crystal)) with (st_matrix ex_struct).
    rewrite (check_bases_det _ D). cbn [bind]. reflexivity.
  - cbn [foldM]. unfold crystal_transform at 1. unfold set_bases. cbn [apply_bases].
    change (vo_bases (g_voxel ex_crystal)) with (st_matrix ex_struct). rewrite (check_bases_det _ D0). cbn [bind].
    unfold crystal_transform. cbn [g_voxel vo_bases basis_only set_vorigin vo_scale vo_origin apply_bases]. unfold set_bases.
    cbn [vo_bases apply_bases]. rewrite (check_bases_det _ D). cbn [bind]. reflexivity.
  - cbn. unfold vadd, v0; cbn. intros C. inversion C. lra.
Qed.

Lemma crystal_transform_inv g t g' : crystal_transform g t = Ok g' ->
  check_bases (apply_bases t (vo_bases (g_voxel g))) = Ok (apply_bases t (vo_bases (g_voxel g))) /\
  g' = mkCrystal (g_structure g)
         (mkVoxel (apply_bases t (vo_bases (g_voxel g))) (vo_scale (g_voxel g))
                  (if basis_only t then vo_origin (g_voxel g) else apply_pt t (vo_origin (g_voxel g))))
         (g_strain g) (g_post g).
Proof.
  intros H. unfold crystal_transform, set_bases in H. inv_bind H. inv_bind Ha. inversion Ha; subst. inversion H; subst.
  assert (a0 = apply_bases t (vo_bases (g_voxel g))).
  { revert Ha0. unfold check_bases. repeat destruct (collinear _ _); intros E; inversion E; auto. }
  subst a0. split; auto. destruct (basis_only t); reflexivity.
Qed.
Lemma steps_same ts : forall g g' b, Forall (fun t => basis_only t = b) ts ->
  check_bases (vo_bases (g_voxel g)) = Ok (vo_bases (g_voxel g)) ->
  foldM crystal_transform ts g = Ok g' ->
  check_bases (fold_left (fun q t => apply_bases t q) ts (vo_bases (g_voxel g))) =
    Ok (fold_left (fun q t => apply_bases t q) ts (vo_bases (g_voxel g))) /\
  g' = mkCrystal (g_structure g)
         (mkVoxel (fold_left (fun q t => apply_bases t q) ts (vo_bases (g_voxel g))) (vo_scale (g_voxel g))
            (if b then vo_origin (g_voxel g) else fold_left (fun q t => apply_pt t q) ts (vo_origin (g_voxel g))))
         (g_strain g) (g_post g).
Proof.
  induction ts as [|t ts IH]; intros g g' b HF HC H; cbn [foldM fold_left] in *.
  - inversion H; subst. split; auto. destruct b, g' as [? [] ? ?]; reflexivity.
  - inversion HF as [|? ? HT HF']; subst. inv_bind H. apply crystal_transform_inv in Ha as [HC1 ->].
    pose proof (fun X => IH _ _ _ HF' X H) as IH'. destruct (IH' HC1) as [HC2 ->]. cbn [g_voxel vo_bases vo_scale vo_origin g_structure g_strain g_post] in *.
    split; auto. destruct (basis_only t); reflexivity.
Qed.
(** With one common basis_only flag the two agree whenever the steps succeed. *)
Theorem C28_sequence_at_once_partial : forall g ts g' b,
  check_bases (vo_bases (g_voxel g)) = Ok (vo_bases (g_voxel g)) ->
  Forall (fun t => basis_only t = b) ts ->
  foldM crystal_transform ts g = Ok g' -> crystal_transform g (TMulti ts) = Ok g'.
Proof.
  intros g ts g' b HC HF H. destruct (steps_same ts g g' b HF HC H) as [HC' ->].
  unfold crystal_transform, set_bases. cbn [apply_bases]. rewrite HC'. cbn [bind].
  assert (E : basis_only (TMulti ts) = match ts with [] => false | _ => b end).
  { cbn [basis_only]. clear - HF. induction HF as [|t ts H _ IH]; cbn [existsb]; auto. rewrite H, IH.
    destruct ts, b; reflexivity. }
  rewrite E. destruct ts as [|t ts]; [destruct b; reflexivity|]. destruct b; reflexivity.
Qed.
Example C28_nonvacuous : exists g',
  check_bases (vo_bases (g_voxel ex_crystal)) = Ok (vo_bases (g_voxel ex_crystal)) /\
  foldM crystal_transform [TTranslation (mkV 1 2 3) true false; TMatrix quarter None true false] ex_crystal = Ok g' /\
  origin_of g' = mkV (-2) 1 3.
Proof.
  assert (D : det (mm quarter (st_matrix ex_struct)) <> 0) by (cbn; unfold quarter; vunfold; lra).
  assert (D0 : det (st_matrix ex_struct) <> 0) by (cbn; vunfold; lra).
  eexists. split; [apply (check_bases_det _ D0)|]. split.
  - cbn [foldM]. unfold crystal_transform at 1. unfold set_bases. cbn [apply_bases].
    change (vo_bases (g_voxel ex_crystal)) with (st_matrix ex_struct). rewrite (check_bases_det _ D0). cbn [bind].
    unfold crystal_transform. cbn [g_voxel vo_bases basis_only set_vorigin vo_scale vo_origin apply_bases]. unfold set_bases.
    cbn [vo_bases apply_bases]. rewrite (check_bases_det _ D). cbn [bind]. reflexivity.
  - cbn. unfold quarter. apply vec_eq; vunfold; lra.
Qed.

(* ------------------------------------------------------------------ *)
(** * C38: the lattice of the structure *)

(** Site of the documented crystal: integer combinations of the rows of lattice.matrix. *)
Definition documented_site (m : mat) (o : vec) (n : Z * Z * Z) (f : vec) : vec :=
  let '(a, b, c) := n in
  let u := vadd (zvec a b c) f in
  vadd (vadd (vadd (vscale (vx u) (r0 m)) (vscale (vy u) (r1 m))) (vscale (vz u) (r2 m))) o.

Definition skew_struct : structure := mkStruct (mkM (mkV 2 0 0) (mkV 1 2 0) (mkV 0 0 2)) [v0] [6%Z].
Theorem C38_structure_lattice_refuted : exists g box ps zs p, forall mk draws c,
  new_crystal skew_struct None None = Ok g /\
  supply_atoms mk draws c (GCrystal g) (BArr box) = Ok (c, GCrystal g, (ps, zs)) /\ In p ps /\
  forall n f, In f (st_frac skew_struct) -> p <> documented_site (st_matrix skew_struct) v0 n f.
Proof.
  set (g := mkCrystal skew_struct (mkVoxel (st_matrix skew_struct) (SAll 1) v0) None None).
  assert (D : det (st_matrix skew_struct) <> 0) by (cbn; vunfold; lra).
  assert (G : new_crystal skew_struct None None = Ok g).
  { unfold new_crystal, set_structure, new_voxel. rewrite (check_bases_det _ D). reflexivity. }
  assert (WF : well_formed g) by (split; [reflexivity|cbn; vunfold; lra]).
  set (box := [mkV 2 1 0]). assert (HN : box <> []) by discriminate.
  destruct (crystal_supply_plain (fun _ _ _ => 0) 0%nat g box WF HN eq_refl eq_refl) as (lo & hi & HE & _).
  exists g, box, (fst (block_atoms g (lo, hi))), (snd (block_atoms g (lo, hi))), (mkV 2 1 0).
  intros mk draws c. split; [exact G|]. split; [|split].
  - destruct (crystal_supply_plain mk c g box WF HN eq_refl eq_refl) as (lo' & hi' & HE' & HC).
    rewrite HE in HE'. inversion HE'; subst. cbn [supply_atoms]. rewrite HC. reflexivity.
  - cbn [block_atoms fst snd]. apply in_flat_map. exists (1%Z, 0%Z, 0%Z). split.
    + eapply site_in_block with (f := v0); [apply WF|exact HE|unfold near_cell; cbn; lra|].
      exists [1]. repeat split; auto. repeat constructor; lra. cbn; lra.
      cbn. vnum.
    + cbn. left. apply vec_eq; vunfold; lra.
  - intros [[a b] d] f [<-|[]] E. assert (Y : vy (mkV 2 1 0) = 1) by reflexivity. rewrite E in Y. cbn in Y.
    assert (2 * IZR b = 1) by lra. rewrite <- (mult_IZR 2 b) in H. apply eq_IZR in H. lia.
Qed.
(** For symmetric lattice matrices (cubic, tetragonal, orthorhombic cells in their
    standard setting) every supplied atom is a site of the documented crystal. *)
Theorem C38_structure_lattice_partial : forall s g mk draws c box c' g' ps zs p z,
  new_crystal s None None = Ok g -> mt (st_matrix s) = st_matrix s ->
  List.length (st_frac s) = List.length (st_numbers s) -> det (st_matrix s) <> 0 ->
  supply_atoms mk draws c (GCrystal g) (BArr box) = Ok (c', g', (ps, zs)) ->
  In (p, z) (combine ps zs) ->
  exists n f, In (f, z) (combine (st_frac s) (st_numbers s)) /\ p = documented_site (st_matrix s) v0 n f.
Proof.
  intros s g mk draws c box c' g' ps zs p z HG HSym HL HD HS HI.
  unfold new_crystal, set_structure, new_voxel in HG. rewrite (check_bases_det _ HD) in HG. cbn [bind] in HG.
  inversion HG; subst g. clear HG.
  assert (WF : well_formed (mkCrystal s (mkVoxel (st_matrix s) (SAll 1) v0) None None)).
  { split; [exact HL|]. unfold sbases. cbn [g_voxel vo_scale vo_bases]. rewrite mscale_1. exact HD. }
  destruct (C36_supply_sites_once _ _ _ _ _ _ _ _ _ WF eq_refl eq_refl HS) as (_ & _ & HOnly & _).
  destruct (HOnly p z HI) as (n & f & Hf & ->). exists n, f. split; [exact Hf|]. destruct n as [[a b] d].
  unfold lattice_site, documented_site, sbases. cbn [g_voxel vo_scale vo_bases vo_origin]. rewrite mscale_1. rewrite <- HSym at 1.
  generalize (st_matrix s). vring.
Qed.
Example C38_nonvacuous : mt (st_matrix ex_struct) = st_matrix ex_struct /\ det (st_matrix ex_struct) <> 0.
Proof. split; [reflexivity|]. cbn. vunfold. lra. Qed.

(* ------------------------------------------------------------------ *)
(** * C39: accepted voxel bases *)

(** The pairwise test accepts three coplanar vectors (and zero vectors), after which
    get_extents and reciprocal_bases raise. *)
Theorem C39_accepted_bases_refuted : exists b v,
  new_voxel b v0 = Ok v /\ det b = 0 /\
  (forall p ps, get_extents v (p :: ps) = Err LinAlgError) /\ reciprocal_bases v = Err LinAlgError.
Proof.
  set (b := mkM (mkV 1 0 0) (mkV 0 1 0) (mkV 1 1 0)).
  exists b, (mkVoxel b (SAll 1) v0).
  assert (D : det b = 0) by (unfold b; vring).
  assert (DS : Reqb (det (sbases (mkVoxel b (SAll 1) v0))) 0 = true) by (apply Reqb_iff; unfold b; cbn; vring).
  split; [|split; [exact D|split]].
  - unfold new_voxel, check_bases.
    assert (N : forall a c, dot (cross a c) (cross a c) <> 0 -> collinear a c = false).
    { intros a c H. destruct (collinear a c) eqn:E; auto. exfalso. apply H, collinear_det, E. }
    rewrite !N; [reflexivity| | |]; unfold b; vunfold; lra.
  - intros p ps. unfold get_extents. cbn [mapM]. unfold solve. rewrite DS. reflexivity.
  - unfold reciprocal_bases, inv. rewrite DS. reflexivity.
Qed.
(** What does hold: linearly independent vectors are always accepted, pairs of
    non-zero parallel rows never. *)
Theorem C39_accepted_bases_partial : forall b o,
  (det b <> 0 -> exists v, new_voxel b o = Ok v /\ vo_bases v = b /\ vo_origin v = o /\
     (exists rb, reciprocal_bases v = Ok rb /\ mm rb b = mI) /\
     (forall p ps, exists e, get_extents v (p :: ps) = Ok e)) /\
  (forall u k, u <> v0 -> k <> 0 ->
     (r0 b = u /\ r1 b = vscale k u \/ r0 b = u /\ r2 b = vscale k u \/ r1 b = u /\ r2 b = vscale k u) ->
     new_voxel b o = Err AssertionError).
Proof.
  intros b o. split.
  - intros D. exists (mkVoxel b (SAll 1) o). unfold new_voxel. rewrite (check_bases_det _ D).
    assert (D' : det (sbases (mkVoxel b (SAll 1) o)) <> 0) by (unfold sbases; cbn [vo_scale vo_bases]; rewrite mscale_1; exact D).
    split; [reflexivity|]. split; [reflexivity|]. split; [reflexivity|]. split.
    + unfold reciprocal_bases, inv. rewrite (proj2 (Reqb_false _ _) D'). eexists. split; [reflexivity|].
      unfold sbases. cbn [vo_scale vo_bases]. rewrite mscale_1. apply minv_l; auto.
    + intros p ps. destruct (get_extents_Ok (mkVoxel b (SAll 1) o) (p :: ps) D' ltac:(discriminate)) as (e & es & _ & H). eauto.
  - intros u k Hu Hk HC.
    assert (COL : collinear u (vscale k u) = true).
    { assert (NU : 0 < norm u). { destruct (Rle_lt_or_eq_dec 0 (norm u) (norm_pos u)) as [H|H]; auto. exfalso. apply Hu, norm_zero; auto. }
      unfold collinear. rewrite norm_scale. assert (0 < Rabs k) by (apply Rabs_pos_lt; auto).
      rewrite (proj2 (Reqb_false _ _)) by (apply Rgt_not_eq, Rlt_gt; repeat apply Rmult_lt_0_compat; auto). apply Reqb_iff.
      replace (dot u (vscale k u)) with (k * (norm u * norm u)) by (rewrite norm_sq; vring).
      replace (k * (norm u * norm u) / (norm u * (Rabs k * norm u))) with (k / Rabs k) by (field; lra).
      unfold Rdiv. rewrite Rabs_mult, Rabs_inv, Rabs_Rabsolu. field. lra. }
    unfold new_voxel, check_bases.
    destruct HC as [[E1 E2]|[[E1 E2]|[E1 E2]]]; rewrite E1, E2, COL.
    + reflexivity.
    + destruct (collinear u (r1 b)); reflexivity.
    + destruct (collinear (r0 b) u); [reflexivity|]. destruct (collinear (r0 b) (vscale k u)); reflexivity.
Qed.
Example C39_nonvacuous : det (mkM (mkV 2 0 0) (mkV 1 3 0) (mkV 0 0 4)) <> 0 /\
  r0 (mkM (mkV 1 2 3) (mkV 2 4 6) (mkV 0 0 1)) = mkV 1 2 3 /\ r1 (mkM (mkV 1 2 3) (mkV 2 4 6) (mkV 0 0 1)) = vscale 2 (mkV 1 2 3).
Proof. split; [vunfold; lra|]. split; [reflexivity|]. cbn. vnum. Qed.

(* ------------------------------------------------------------------ *)
(** * C40: homogeneous strain *)

Lemma mt_minv_cancel b d : det b <> 0 -> vm (vm d (mt (minv b))) (mt b) = d.
Proof.
  intros H. unfold vm. rewrite !mt_mt. apply mv_minv_r; auto.
Qed.
Lemma vm_id v : vm v mI = v. Proof. vring. Qed.

(** All the strain laws of one HStrain object h used with basis b (crystal mode) or
    without (standard mode). *)
Theorem C40_strain_laws_partial : forall h b pts,
  (hs_mode h = "crystal"%string -> hs_bases h = Some b /\ det b <> 0) ->
  exists out, apply_strain h pts = Ok out /\ List.length out = List.length pts /\
    (* the identity strain changes nothing *)
    (hs_matrix h = mI -> out = pts) /\
    forall i p q, nth_error pts i = Some p -> nth_error out i = Some q ->
      (* the strain origin is a fixed point *)
      (p = hs_origin h -> q = hs_origin h) /\
      (* crystal mode: fractional coordinates are multiplied by the strain matrix *)
      (hs_mode h = "crystal"%string ->
         mv (minv b) (vsub q (hs_origin h)) = vm (mv (minv b) (vsub p (hs_origin h))) (hs_matrix h)) /\
      (* standard mode: cartesian ones are *)
      (hs_mode h <> "crystal"%string -> vsub q (hs_origin h) = vm (vsub p (hs_origin h)) (hs_matrix h)).
Proof.
  intros h b pts HB. unfold apply_strain. destruct (String.eqb_spec (hs_mode h) "crystal") as [E|E].
  - destruct (HB E) as [Hb Hd]. rewrite Hb. unfold inv. rewrite (proj2 (Reqb_false _ _) Hd). cbn [bind].
    eexists. split; [reflexivity|]. split; [apply map_length|]. split.
    + intros ->. rewrite <- (map_id pts) at 2. apply map_ext. intros p. rewrite vm_id, mt_minv_cancel by auto. apply vadd_vsub.
    + intros i p q Hp Hq. rewrite nth_error_map, Hp in Hq. cbn in Hq. inversion Hq; subst. split; [|split].
      * intros ->. replace (vsub (hs_origin h) (hs_origin h)) with v0 by vring. generalize (mt (minv b)) (mt b). vring.
      * intros _. rewrite vsub_vadd. unfold vm at 1 3. rewrite !mt_mt. rewrite mv_minv_l by auto. reflexivity.
      * intros; contradiction.
  - eexists. split; [reflexivity|]. split; [apply map_length|]. split.
    + intros ->. rewrite <- (map_id pts) at 2. apply map_ext. intros p. rewrite vm_id. apply vadd_vsub.
    + intros i p q Hp Hq. rewrite nth_error_map, Hp in Hq. cbn in Hq. inversion Hq; subst. split; [|split].
      * intros ->. replace (vsub (hs_origin h) (hs_origin h)) with v0 by vring. vring.
      * intros; contradiction.
      * intros _. apply vsub_vadd.
Qed.
(** Any string is accepted as a mode (and then behaves as 'standard'). *)
Theorem C40_modes_refuted : forall h m, exists h', set_mode h m = Ok h' /\ hs_mode h' = m.
Proof. intros h m. unfold set_mode. rewrite orb_true_r. eexists. split; reflexivity. Qed.
Example C40_nonvacuous : exists h,
  new_hstrain (Some (St3 (mkV 2 1 1))) None "crystal"%string = Ok h /\
  let h' := scrape_params h (g_voxel ex_crystal) in
  hs_mode h' = "crystal"%string /\ hs_bases h' = Some (basis_of ex_crystal) /\ det (basis_of ex_crystal) <> 0.
Proof. eexists. split; [reflexivity|]. split; [reflexivity|]. split; [reflexivity|]. apply ex_wf. Qed.

(* ------------------------------------------------------------------ *)
(** * C41: strained crystals *)

(** q is where the strain field takes the point p of a crystal with basis B and origin o:
    about the generator's origin or the field's own; in crystal mode the matrix acts on
    the fractional coordinates, otherwise on the displacement. *)
Definition strained (h : hstrain) (B : mat) (o p q : vec) : Prop :=
  let o' := if hs_generator_origin h then o else hs_origin h in
  if String.eqb (hs_mode h) "crystal"
  then exists f, p = vadd (mv B f) o' /\ q = vadd (mv B (vm f (hs_matrix h))) o'
  else q = vadd (vm (vsub p o') (hs_matrix h)) o'.
Definition strain_map (h : hstrain) (b : mat) (p : vec) : vec :=
  if String.eqb (hs_mode h) "crystal"
  then vadd (vm (vm (vm (vsub p (hs_origin h)) (mt (minv b))) (hs_matrix h)) (mt b)) (hs_origin h)
  else vadd (vm (vsub p (hs_origin h)) (hs_matrix h)) (hs_origin h).
Lemma strained_map h v p q : det (sbases v) <> 0 -> (strained h (sbases v) (vo_origin v) p q <-> q = strain_map (scrape_params h v) (sbases v) p).
Proof.
  intros Hd. unfold strained, strain_map, scrape_params. cbn [hs_mode hs_origin hs_matrix]. set (o' := if hs_generator_origin h then vo_origin v else hs_origin h).
  destruct (String.eqb (hs_mode h) "crystal"); [|tauto].
  assert (E : forall f M, vm (vm (vm (mv (sbases v) f) (mt (minv (sbases v)))) M) (mt (sbases v)) = mv (sbases v) (vm f M)).
  { intros f M. replace (vm (mv (sbases v) f) (mt (minv (sbases v)))) with (mv (minv (sbases v)) (mv (sbases v) f)) by (generalize (minv (sbases v)) (sbases v); vring).
    rewrite mv_minv_l by auto. generalize (sbases v). vring. }
  split.
  - intros (f & -> & ->). rewrite <- E. f_equal. f_equal. f_equal. f_equal. vring.
  - intros ->. exists (mv (minv (sbases v)) (vsub p o')). rewrite mv_minv_r by auto. split; [vring|]. rewrite <- E, mv_minv_r by auto. reflexivity.
Qed.
Lemma crystal_supply_strained mk c g box h :
  well_formed g -> box <> [] -> g_strain g = Some h -> g_post g = None ->
  exists lo hi, get_extents (g_voxel g) box = Ok (lo, hi) /\
    crystal_supply mk c g box =
      Ok (c, mkCrystal (g_structure g) (g_voxel g) (Some (scrape_params h (g_voxel g))) None,
          (map (strain_map (scrape_params h (g_voxel g)) (basis_of g)) (fst (block_atoms g (lo, hi))),
           snd (block_atoms g (lo, hi)))).
Proof.
  intros [L Hd] Hb HS HP. destruct (get_extents_Ok (g_voxel g) box Hd Hb) as (e & es & _ & HE).
  do 2 eexists. split; [exact HE|]. unfold crystal_supply. rewrite HE. cbn [bind]. rewrite HS, HP.
  unfold apply_strain, strain_map. destruct (String.eqb (hs_mode (scrape_params h (g_voxel g))) "crystal") eqn:E.
  - unfold scrape_params in E. cbn [hs_mode] in E. cbn [scrape_params hs_bases]. unfold scrape_params. cbn [hs_bases].
    rewrite E. unfold inv. rewrite (proj2 (Reqb_false _ _) Hd). cbn [bind]. reflexivity.
  - cbn [bind]. reflexivity.
Qed.

(** Halving along x leaves the far half of the box empty. *)
Definition half_strain : hstrain := mkH (mkM (mkV (1/2) 0 0) (mkV 0 1 0) (mkV 0 0 1)) v0 true "standard"%string None.
Definition strained_crystal : crystal :=
  mkCrystal ex_struct (mkVoxel (st_matrix ex_struct) (SAll 1) v0) (Some half_strain) None.
Theorem C41_strained_fill_refuted :
  new_hstrain (Some (St3 (mkV (1/2) 1 1))) None "standard"%string = Ok half_strain /\
  well_formed strained_crystal /\
  exists box p z q ps zs g', forall mk draws c,
    crystal_atom (basis_of strained_crystal) (origin_of strained_crystal) (cell_sites strained_crystal) p z /\
    strained half_strain (basis_of strained_crystal) (origin_of strained_crystal) p q /\ in_hull box q /\
    supply_atoms mk draws c (GCrystal strained_crystal) (BArr box) = Ok (c, GCrystal g', (ps, zs)) /\
    ~ In q ps.
Proof.
  split; [reflexivity|].
  assert (WF : well_formed strained_crystal) by (split; [reflexivity|cbn; vunfold; lra]). split; [exact WF|].
  set (box := [mkV 0 0 0; mkV 10 0 0]). assert (HN : box <> []) by discriminate.
  destruct (crystal_supply_strained (fun _ _ _ => 0) 0%nat strained_crystal box half_strain WF HN eq_refl eq_refl)
    as (lo & hi & HE & _).
  assert (HHI : fst (fst hi) = 5%Z).
  { destruct WF as [_ HD]. destruct (get_extents_Ok (g_voxel strained_crystal) box HD HN) as (e & es & E & HE').
    rewrite HE in HE'. inversion HE'; subst lo hi. unfold box in E. cbn [map] in E. inversion E; subst e es.
    cbn [rows_max fold_left vceil fst]. apply Zceil_imp. cbn. unfold fcoord, vmax. cbn.
    unfold minv, det, cross, dot. cbn.
    match goal with |- _ < Rmax ?a ?b <= _ => replace a with 0 by field; replace b with 5 by field end.
    rewrite Rmax_right by lra. lra. }
  exists box, (mkV 16 0 0), 11%Z, (mkV 8 0 0).
  do 3 eexists. intros mk draws c. split; [|split; [|split; [|split]]].
  - exists (8%Z, 0%Z, 0%Z), (mkV 0 0 0). split; [cbn; auto|]. cbn. vnum.
  - cbn. vnum.
  - exists [1/5; 4/5]. repeat split; auto. repeat constructor; lra. cbn; lra. cbn. vnum.
  - destruct (crystal_supply_strained mk c strained_crystal box half_strain WF HN eq_refl eq_refl) as (lo' & hi' & HE' & HC).
    rewrite HE in HE'. inversion HE'; subst lo' hi'. cbn [supply_atoms]. rewrite HC. cbn [bind fst snd]. reflexivity.
  - intros HI. apply in_map_iff in HI as (x & Ex & HI). cbn [block_atoms fst snd] in HI.
    apply in_flat_map in HI as ([[a b] d] & Hc & HI).
    apply in_cells in Hc. destruct lo as [[l0 l1] l2], hi as [[h0 h1] h2]. cbn [fst] in HHI. subst h0.
    destruct Hc as [[_ Ha] _]. apply IZR_le in Ha.
    assert (X : vx (mkV 8 0 0) = 8) by reflexivity. rewrite <- Ex in X. unfold strain_map in X. cbn in X.
    unfold dot in X. cbn in X.
    destruct HI as [HI|[HI|[]]]; subst x; cbn in X; unfold dot in X; cbn in X; lra.
Qed.
(** What is supplied are exactly strained crystal sites, and every site whose
    unstrained position lies in the box is among them. *)
Theorem C41_strained_fill_partial : forall mk draws c g box h,
  well_formed g -> g_strain g = Some h -> g_post g = None ->
  Forall in_cell (st_frac (g_structure g)) -> box <> [] ->
  exists g' ps zs, supply_atoms mk draws c (GCrystal g) (BArr box) = Ok (c, GCrystal g', (ps, zs)) /\
    (forall q z, In (q, z) (combine ps zs) ->
       exists p, crystal_atom (basis_of g) (origin_of g) (cell_sites g) p z /\ strained h (basis_of g) (origin_of g) p q) /\
    (forall p q z, crystal_atom (basis_of g) (origin_of g) (cell_sites g) p z -> in_hull box p ->
       strained h (basis_of g) (origin_of g) p q -> In (q, z) (combine ps zs)).
Proof.
  intros mk draws c g box h WF HS HP HF HB.
  destruct (crystal_supply_strained mk c g box h WF HB HS HP) as (lo & hi & HE & HC).
  do 3 eexists. split. { cbn [supply_atoms]. rewrite HC. cbn [bind fst snd]. reflexivity. }
  assert (SM := fun p q => strained_map h (g_voxel g) p q (proj2 WF)). set (S := strain_map _ _) in *.
  assert (CM : forall a (b : list Z), combine (map S a) b = map (fun x => (S (fst x), snd x)) (combine a b)).
  { induction a as [|x a IH]; intros [|y b]; cbn; f_equal; auto. }
  destruct (block_pairs g (lo, hi) WF) as [_ HPr]. rewrite CM, HPr. split.
  - intros q z HI. apply in_map_iff in HI as ([p z'] & E & HI). cbn in E. inversion E; subst.
    apply in_flat_map in HI as (n & _ & HI). apply in_map_iff in HI as ([f z'] & E' & HI). cbn in E'. inversion E'; subst.
    eexists. split; [exists n, f; eauto|apply SM; reflexivity].
  - intros p q z (n & f & Hf & ->) HH HQ. apply SM in HQ. subst q. apply in_map_iff. exists (lattice_site (basis_of g) (origin_of g) n f, z).
    split; [reflexivity|]. apply in_flat_map. exists n. split.
    + destruct WF as [_ HD]. eapply site_in_block; eauto. apply cell_near. rewrite Forall_forall in HF. apply HF. eapply in_combine_l; eauto.
    + apply in_map_iff. exists (f, z). auto.
Qed.
Example C41_nonvacuous : exists h, new_hstrain (Some (St3 (mkV 2 1 1))) None "crystal"%string = Ok h /\
  let g := mkCrystal ex_struct (g_voxel ex_crystal) (Some h) None in
  well_formed g /\ Forall in_cell (st_frac (g_structure g)) /\
  crystal_atom (basis_of g) (origin_of g) (cell_sites g) (mkV 3 3 3) 17 /\ in_hull [mkV 0 0 0; mkV 4 4 4] (mkV 3 3 3).
Proof.
  destruct C35_C36_nonvacuous as (_ & W & I & _ & A & B). eexists. split; [reflexivity|]. cbn zeta.
  split; [exact W|]. split; [exact I|]. split; [exact A|exact B].
Qed.

(* ------------------------------------------------------------------ *)
(** * C43: IStrain can be constructed -- never *)
Theorem C43_istrain_construction_refuted : forall F K (call : F -> list nat -> K -> res (list nat)) identity f kwargs,
  new_istrain call identity f kwargs = Err TypeError.
Proof. reflexivity. Qed.
