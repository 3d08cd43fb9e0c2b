(** What does hold where C11, C14, C19, C32 and C92 fail as stated, and C100: moving a
    volume moves its atoms. *)
From Coq Require Import Reals List ZArith Bool Lra Lia.
From Verif.Model Require Import Base Vec Algebraic Transform Voxel Post Generator Volume Wulff.
From Verif.Spec Require Import Geometry CrystalSpec AlgSpec WulffSpec.
From Verif.Proofs Require Import VecFacts AlgFacts HullFacts VolumeFacts VolTransFacts WulffFacts.
From Verif.Props Require Import AlgebraicProps BoxProps GeneratorProps TransformProps PrefabProps WulffProps.
Import ListNotations.
Open Scope R_scope.

(* ------------------------------------------------------------------ *)
(** * C11, C92: a sphere around the polyhedron makes it fillable *)

(** A volume bounded by planes and one sphere enclosing the polyhedron is populated with
    exactly the atoms of the infinite crystal in the (padded) half spaces. *)
Theorem C11_with_sphere_partial : forall w c l g before s after,
  l_gen l = Some (GCrystal g) -> well_formed g -> g_strain g = None -> g_post g = None ->
  Forall in_cell (st_frac (g_structure g)) ->
  l_points l = PNone -> l_tri l = None ->
  l_alg l = map APlane before ++ ASphere s :: map APlane after ->
  Forall valid_plane (before ++ after) -> valid_sphere s ->
  (forall p, (forall pl, In pl (before ++ after) -> dot (vsub p (p_point pl)) (p_normal pl) < p_tol pl) ->
     dist p (s_center s) <= s_radius s) ->
  exists l' ats sps, leaf_populate w c l = Ok (c, l') /\ l_atoms l' = Some (ats, sps) /\
    List.length ats = List.length sps /\
    forall p z, In (p, z) (combine ats sps) <->
      crystal_atom (basis_of g) (origin_of g) (cell_sites g) p z /\
      forall pl, In pl (before ++ after) -> dot (vsub p (p_point pl)) (p_normal pl) < p_tol pl.
Proof.
  intros w c l g before s after HG WF HS HP HF HPt HT HA HV VS HE.
  assert (PI : forall pl p, plane_interior pl p = true <-> dot (vsub p (p_point pl)) (p_normal pl) < p_tol pl).
  { intros pl p. unfold plane_interior, sdist_from_plane. rewrite Rltb_iff.
    replace (dot (vsub p (p_point pl)) (p_normal pl)) with (dot p (p_normal pl) - dot (p_point pl) (p_normal pl)); [tauto|].
    generalize (p_point pl) (p_normal pl). vring. }
  assert (VA : Forall valid_alg (l_alg l)).
  { rewrite HA. apply Forall_app in HV as [V1 V2]. apply Forall_app. split; [|constructor; [exact VS|]]; apply Forall_map; assumption. }
  assert (IS : forall p, (forall pl, In pl (before ++ after) -> dot (vsub p (p_point pl)) (p_normal pl) < p_tol pl) <-> leaf_inside w l p = true).
  { intros p. rewrite leaf_inside_eq, HT. cbn [andb]. rewrite forallb_forall, HA. split; intros H.
    - intros a Ha. apply in_app_or in Ha as [Ha|[<-|Ha]].
      + apply in_map_iff in Ha as (pl & <- & Ha). apply PI, H, in_or_app. auto.
      + specialize (HE p H). cbn [alg_interior]. unfold sphere_interior. apply Rltb_iff. destruct VS as [V1 V2].
        change (dot (vsub p (s_center s)) (vsub p (s_center s)) < (s_radius s + s_tol s) * (s_radius s + s_tol s)). rewrite <- norm_sq.
        unfold dist in HE. pose proof (norm_pos (vsub p (s_center s))). nra.
      + apply in_map_iff in Ha as (pl & <- & Ha). apply PI, H, in_or_app. auto.
    - intros pl Hp. apply PI. apply (H (APlane pl)). apply in_app_or in Hp as [Hp|Hp]; apply in_or_app; [left|right; right]; apply in_map, Hp. }
  assert (HSp : exists s, In (ASphere s) (l_alg l)) by (exists s; rewrite HA; apply in_or_app; right; left; reflexivity).
  destruct (C13_sphere_box w l HPt VA HSp) as (b & box & Hb & _ & HB & L8 & _ & HIn & _).
  assert (HN : box <> []) by (intros ->; discriminate).
  assert (b = s).
  { rewrite HA in Hb. apply in_app_or in Hb as [Hb|[Hb|Hb]]; [|congruence|]; apply in_map_iff in Hb as (pl & Q & _); discriminate. }
  subst b.
  destruct (C10_crystal_volume_filled w c l g box HG WF HS HP HF HB HN) as (l' & ats & sps & H1 & H2 & H3 & H4 & H5 & _).
  exists l', ats, sps. split; [auto|]. split; [auto|]. split; [auto|]. intros p z. rewrite IS. split.
  - intros H. apply H4; auto.
  - intros [Q1 Q2]. apply H5; auto. apply HIn, HE. apply IS. exact Q2.
Qed.

(** The volume returned by WulffSingle.get_construction can be filled once an enclosing
    Sphere has been added with add_alg_object (volume.py 237-239, which appends to the
    list of surfaces): it then holds exactly the atoms inside all facets. *)
Theorem C92_with_sphere_partial : forall w wp g energies natoms s p s' l c ball,
  new_single g energies natoms = Ok s ->
  wp_single wp (ws_energies s) (g_structure g) (ws_natoms s) = Ok p -> unit_facets (concat (pa_forms p)) ->
  single_construction w wp s = Ok (s', VLeaf l) ->
  well_formed g -> g_strain g = None -> g_post g = None -> Forall in_cell (st_frac (g_structure g)) ->
  valid_sphere ball ->
  (forall x, Forall (fun f => in_facet f x) (concat (pa_forms p)) -> dist x (s_center ball) <= s_radius ball) ->
  exists l' ats sps, vol_populate w c (VLeaf (with_alg l (l_alg l ++ [ASphere ball]))) = Ok (c, VLeaf l') /\
    l_atoms l' = Some (ats, sps) /\
    forall x z, In (x, z) (combine ats sps) <->
      crystal_atom (basis_of g) (origin_of g) (cell_sites g) x z /\ Forall (fun f => in_facet f x) (concat (pa_forms p)).
Proof.
  intros w wp g e n s p s' l c ball H HP U HC WF HS HPo HF VB HE. unfold new_single in H. inv_bind H. inv_bind H. injection H as <-. cbn [ws_energies ws_natoms] in HP.
  destruct (plane_volume_shape w g _ U) as (l0 & E & PN & G & _ & AL & IN).
  unfold single_construction, single_wulff in HC. cbn [ws_wulff ws_energies ws_gen ws_natoms] in HC. rewrite HP in HC. cbn [bind snd fst] in HC.
  rewrite planes_wulff_ok in HC by assumption. cbn [bind] in HC. rewrite E in HC. cbn [bind] in HC. injection HC as _ Q. subst l0.
  set (fs := concat (pa_forms p)) in *.
  assert (B : forall x, (forall pl, In pl (map fplane fs ++ []) -> dot (vsub x (p_point pl)) (p_normal pl) < p_tol pl) <-> Forall (fun f => in_facet f x) fs).
  { intros x. rewrite app_nil_r. assert (PI : forall pl, plane_interior pl x = true <-> dot (vsub x (p_point pl)) (p_normal pl) < p_tol pl).
    { intros pl. unfold plane_interior, sdist_from_plane. rewrite Rltb_iff.
      replace (dot (vsub x (p_point pl)) (p_normal pl)) with (dot x (p_normal pl) - dot (p_point pl) (p_normal pl)); [tauto|].
      generalize (p_point pl) (p_normal pl). vring. }
    unfold unit_facets in U. rewrite Forall_forall in U. split; intros Q.
    - apply Forall_forall. intros f Hf. apply (fplane_bounds f (U f Hf)). apply PI, Q, in_map, Hf.
    - intros pl Hp. apply in_map_iff in Hp as (f & <- & Hf). apply PI. rewrite Forall_forall in Q. apply (fplane_bounds f (U f Hf)). auto. }
  unfold plane_volume in E. injection E as E.
  destruct (C11_with_sphere_partial w c (with_alg l (l_alg l ++ [ASphere ball])) g (map fplane fs) ball []) as (l' & ats & sps & Q1 & Q2 & Q3 & Q4); auto.
  - subst l. reflexivity.
  - cbn [with_alg l_alg]. rewrite AL. reflexivity.
  - rewrite app_nil_r. apply Forall_map. eapply Forall_impl; [|exact U]. intros f Hf. split; [exact Hf|]. unfold fplane. cbn. unfold default_tol. lra.
  - intros x Hx. apply HE, B, Hx.
  - exists l', ats, sps. split; [cbn [vol_populate]; rewrite Q1; reflexivity|]. split; [exact Q2|]. intros x z. rewrite Q4. rewrite <- B. tauto.
Qed.
Example C92_sphere_nonvacuous : exists s' l, single_construction cube_world cube_pack cube_object = Ok (s', VLeaf l) /\
  (forall x, Forall (fun f => in_facet f x) (concat (pa_forms (cube_particle 10))) -> dist x v0 <= 20) /\
  valid_sphere (mkSphere 20 v0 (/ 100000)).
Proof.
  assert (U : unit_facets (concat (pa_forms (cube_particle 10)))) by (cbn [pa_forms cube_particle concat]; rewrite app_nil_r; apply cube_unit).
  destruct (C91_single_shape cube_world cube_pack cube_crystal (VDict [(KTuple [1; 0; 0]%Z, VFloat 1)]) (VInt 10) cube_object (cube_particle 10) eq_refl eq_refl U)
    as (s' & V & E & l & -> & _). exists s', l. split; [exact E|]. split; [|split; cbn; lra].
  intros x H. cbn [pa_forms cube_particle concat] in H. rewrite app_nil_r in H. unfold cube_facets in H. cbn [map] in H.
  repeat match goal with H : Forall _ (_ :: _) |- _ => inversion H; clear H; subst end.
  repeat match goal with H : in_facet _ _ |- _ => unfold in_facet, dot in H; cbn in H end.
  unfold dist, norm. rewrite <- (sqrt_square 20) by lra. apply sqrt_le_1; [apply dot_pos|lra|]. unfold dot. vunfold.
  destruct x as [a b d]. cbn in *. assert (a * a <= 101) by nra. assert (b * b <= 101) by nra. assert (d * d <= 101) by nra. lra.
Qed.

(* ------------------------------------------------------------------ *)
(** * C14: a moved point-defined volume can be built anew *)

Lemma in_hull_affine t ps p : in_hull ps p -> in_hull (map (apply_pt t) ps) (apply_pt t p).
Proof.
  intros (ws & L & P & S & ->). exists ws. rewrite map_length. split; [exact L|]. split; [exact P|]. split; [exact S|].
  assert (G : forall (ws : list R) ps, List.length ws = List.length ps ->
    vadd (vsub (apply_pt t (wsum ws ps)) (apply_pt t v0)) (vscale (fold_right Rplus 0 ws) (apply_pt t v0)) = wsum ws (map (apply_pt t) ps)).
  { assert (A : forall b x, mv (apply_bases t b) x = vsub (apply_pt t (mv b x)) (apply_pt t v0)).
    { intros b x. pose proof (apply_pt_affine t b x v0) as Q. rewrite vadd_v0_r in Q. rewrite Q, vsub_vadd. reflexivity. }
    assert (LIN : forall x y s, vsub (apply_pt t (vadd (vscale s x) y)) (apply_pt t v0) =
      vadd (vscale s (vsub (apply_pt t x) (apply_pt t v0))) (vsub (apply_pt t y) (apply_pt t v0))).
    { assert (A' : forall x, vsub (apply_pt t x) (apply_pt t v0) = mv (apply_bases t mI) x) by (intros x; rewrite A, mv_id; reflexivity).
      intros x y s. rewrite !A'. generalize (apply_bases t mI). vring. }
    clear ws ps L P S. induction ws as [|a ws IH]; intros [|q ps] L; cbn in L; try discriminate.
    - cbn. generalize (apply_pt t v0). vring.
    - injection L as L. cbn [wsum map fold_right]. rewrite <- (IH ps L). rewrite LIN.
      generalize (apply_pt t q) (apply_pt t v0) (apply_pt t (wsum ws ps)) (fold_right Rplus 0 ws). vring. }
  rewrite <- (G ws ps L), S. generalize (apply_pt t (wsum ws ps)) (apply_pt t v0). vring.
Qed.

(** For every invertible transformation, the hull of the images is the image of the hull. *)
Lemma in_hull_image t t' ps p : (forall q, apply_pt t' (apply_pt t q) = q) ->
  (in_hull (map (apply_pt t) ps) (apply_pt t p) <-> in_hull ps p).
Proof.
  intros I. split; [|apply in_hull_affine]. intros H. apply (in_hull_affine t') in H. rewrite I in H.
  rewrite map_map in H. rewrite (map_ext _ (fun x => x)) in H by (intros; apply I). rewrite map_id in H. exact H.
Qed.

(** A new Volume made from the transformed points has as interior the image of the old
    one's, whenever both triangulations decide hull membership.  (t' is the inverse of t;
    translations, rotations, inversions and reflections have one, C34.) *)
Theorem C14_rebuilt_partial : forall w tol prio pts l1 t t' l2,
  new_volume w (Some pts) [] None None prio tol = Ok l1 ->
  (forall q, apply_pt t' (apply_pt t q) = q) ->
  new_volume w (Some (map (apply_pt t) pts)) [] None None prio tol = Ok l2 ->
  (forall p, w_find w pts tol p = true <-> in_hull pts p) ->
  (forall p, w_find w (map (apply_pt t) pts) tol p = true <-> in_hull (map (apply_pt t) pts) p) ->
  (forall p, leaf_inside w l1 p = true <-> in_hull pts p) /\
  (forall p, leaf_inside w l2 (apply_pt t p) = leaf_inside w l1 p).
Proof.
  assert (B : forall w pts prio tol l p, new_volume w (Some pts) [] None None prio tol = Ok l -> leaf_inside w l p = w_find w pts tol p).
  { intros w pts prio tol l p H. unfold new_volume, add_points in H. cbn [l_points empty_leaf with_points l_hull] in H. unfold createHull in H. cbn -[Nat.leb] in H.
    destruct (Nat.leb (List.length pts) 3); [cbn in H; discriminate H|]. destruct (w_qhull w pts); [|cbn in H; discriminate H]. cbn in H. injection H as <-.
    rewrite leaf_inside_eq. cbn. apply andb_true_r. }
  intros w tol prio pts l1 t t' l2 H1 I H2 F1 F2. split.
  - intros p. rewrite (B _ _ _ _ _ _ H1). apply F1.
  - intros p. apply bool_iff_eq. rewrite (B _ _ _ _ _ _ H1), (B _ _ _ _ _ _ H2), F1, F2. apply (in_hull_image t t'). exact I.
Qed.
(** A unit cube and its translate, with a membership test that is right for both. *)
Definition corner_world : world := mkWorld
  (fun ps _ p => match ps with
                 | [] => false
                 | q :: _ => let d := vsub p q in
                     Rleb 0 (vx d) && Rleb (vx d) 1 && (Rleb 0 (vy d) && Rleb (vy d) 1) && (Rleb 0 (vz d) && Rleb (vz d) 1)
                 end) (fun _ => true) (fun _ => LPfail 0) (fun _ _ => None) (fun _ _ _ => 0) [].
Example C14_nonvacuous : exists l1 l2,
  let t := TTranslation (mkV 5 0 0) false false in
  new_volume corner_world (Some (makeRectPrism 1 1 1 None)) [] None None 0 default_vtol = Ok l1 /\
  new_volume corner_world (Some (map (apply_pt t) (makeRectPrism 1 1 1 None))) [] None None 0 default_vtol = Ok l2 /\
  (forall q, apply_pt (TTranslation (mkV (-5) 0 0) false false) (apply_pt t q) = q) /\
  (forall p, w_find corner_world (makeRectPrism 1 1 1 None) default_vtol p = true <-> in_hull (makeRectPrism 1 1 1 None) p) /\
  (forall p, w_find corner_world (map (apply_pt t) (makeRectPrism 1 1 1 None)) default_vtol p = true <-> in_hull (map (apply_pt t) (makeRectPrism 1 1 1 None)) p).
Proof.
  do 2 eexists. cbv zeta. split; [reflexivity|]. split; [reflexivity|].
  assert (I : forall q, apply_pt (TTranslation (mkV (-5) 0 0) false false) (apply_pt (TTranslation (mkV 5 0 0) false false) q) = q)
    by (intros q; apply vec_eq; cbn; lra).
  assert (I' : forall q, apply_pt (TTranslation (mkV 5 0 0) false false) (apply_pt (TTranslation (mkV (-5) 0 0) false false) q) = q)
    by (intros q; apply vec_eq; cbn; lra).
  assert (F : forall q l p, w_find corner_world (q :: l) default_vtol p = true <->
     0 <= vx p - vx q <= 1 /\ 0 <= vy p - vy q <= 1 /\ 0 <= vz p - vz q <= 1).
  { intros q l p. cbn [w_find corner_world]. rewrite !andb_true_iff, !Rleb_iff. cbn. tauto. }
  assert (C : forall p, w_find corner_world (makeRectPrism 1 1 1 None) default_vtol p = true <-> in_hull (makeRectPrism 1 1 1 None) p).
  { intros p. destruct (C54_prism_is_box 1 1 1 p) as [_ B]. rewrite B. unfold Rmin, Rmax. destruct (Rle_dec 0 1); [|lra].
    unfold makeRectPrism, unit_cube. cbn [map]. rewrite F. cbn. lra. }
  split; [exact I|]. split; [exact C|]. intros p. rewrite <- (I' p). set (q := apply_pt (TTranslation (mkV (-5) 0 0) false false) p).
  rewrite (in_hull_image _ _ _ _ I), <- C. unfold makeRectPrism, unit_cube. cbn [map]. rewrite !F. cbn. lra.
Qed.

(* ------------------------------------------------------------------ *)
(** * C19: mirroring works through the general matrix class *)

Lemma reflection_orth n : dot n n = 1 -> orthogonal (reflection_matrix n).
Proof.
  intros H. unfold orthogonal, reflection_matrix. rewrite H. unfold Rdiv. rewrite Rinv_1, Rmult_1_r.
  transitivity (madd mI (mscale (4 * (dot n n - 1)) (outer n n))); [vring|]. rewrite H. vring.
Qed.
(** A MatrixTransform with the matrix and origin of a Reflection does what Reflection
    should: the interior of the result is the mirror image. *)
Theorem C19_mirror_matrix_partial : forall pl lk bo a, valid_plane pl -> valid_alg a ->
  exists a', apply_alg (TMatrix (reflection_matrix (p_normal pl)) (Some (p_point pl)) lk bo) a = Ok a' /\ valid_alg a' /\
    forall p, alg_interior a' (vsub p (vscale (2 * dot (vsub p (p_point pl)) (p_normal pl)) (p_normal pl))) = alg_interior a p.
Proof.
  intros pl lk bo a [HN HT] HA. pose proof (unit_dot _ HN) as D.
  destruct (C18_rigid_motion_of_object (TMatrix (reflection_matrix (p_normal pl)) (Some (p_point pl)) lk bo) a) as (a' & E & V & I).
  - constructor. apply reflection_orth, D.
  - exact HA.
  - exists a'. split; [exact E|]. split; [exact V|]. intros p. rewrite <- (I p). f_equal.
    rewrite <- (reflection_pt pl p D lk bo) || idtac.
    change (apply_pt (TMatrix (reflection_matrix (p_normal pl)) (Some (p_point pl)) lk bo) p) with (apply_pt (TReflection pl lk bo) p).
    rewrite (reflection_pt pl p D lk bo). unfold sdist_from_plane. generalize (p_point pl) (p_normal pl). vring.
Qed.
Example C19_nonvacuous : valid_plane (mkPlane (mkV (3/5) (4/5) 0) (mkV 1 2 3) 1) /\ valid_alg (ACyl (mkCyl (mkV 0 0 1) v0 2 3 1)).
Proof. repeat split; cbn; try lra; apply dot_unit; unfold dot; cbn; lra. Qed.

(* ------------------------------------------------------------------ *)
(** * C32: what s2s_alignment does before it fails *)

(** For planes that are not nearly parallel the moving plane is turned about its own point
    until the two planes face each other; this is done to the caller's object. *)
Theorem C32_planes_face_partial : forall M T mp tp, valid_plane M -> valid_plane T ->
  eps <= acos (- dot (p_normal M) (p_normal T)) <= PI - eps ->
  let M' := fst (s2s_alignment M T mp tp) in
  p_normal M' = vopp (p_normal T) /\ p_point M' = p_point M /\ p_tol M' = p_tol M.
Proof.
  intros M T mp tp [NM TM] [NT TT] HA.
  assert (N3 : norm (vscale (-1) (p_normal T)) = 1). { rewrite norm_scale, NT. unfold Rabs. destruct (Rcase_abs (-1)); lra. }
  destruct (C30_aligns_partial (p_normal M) (vscale (-1) (p_normal T))) as (Rm & ER & RR & AL).
  { rewrite NM. lra. } { rewrite N3. lra. }
  { rewrite NM, N3. replace (dot (p_normal M) (vscale (-1) (p_normal T)) / (1 * 1)) with (- dot (p_normal M) (p_normal T)); [exact HA|].
    unfold Rdiv. rewrite Rmult_1_l, Rinv_1, Rmult_1_r. generalize (p_normal M) (p_normal T). vring. }
  cbv zeta. unfold s2s_alignment. rewrite ER. rewrite C33_exact_rotations_accepted by exact RR.
  cbn [apply_alg matrix_alg]. unfold unit_vec in AL. rewrite NM, N3, Rinv_1 in AL.
  assert (S1 : forall v, vscale 1 v = v) by (intros; vring). rewrite !S1 in AL.
  unfold plane_set_normal. rewrite AL, check_unit by exact N3. cbn [bind fst p_normal p_point p_tol plane_set_point matrix_pt].
  split; [vring|]. split; [|reflexivity]. generalize (p_point M). clear. intros p. destruct Rm as [[] [] []], p. apply vec_eq; vunfold; ring.
Qed.
Example C32_nonvacuous : eps <= acos (- dot (mkV 1 0 0) (mkV 0 1 0)) <= PI - eps.
Proof.
  pose proof eps_pos. pose proof PI2_1 as P2. pose proof eps_small.
  replace (- dot (mkV 1 0 0) (mkV 0 1 0)) with 0 by (unfold dot; cbn; ring). rewrite acos_0. lra.
Qed.

(* ------------------------------------------------------------------ *)
(** * C100: moving a volume moves its atoms *)

Lemma apply_bases_det t : rigid t -> forall b, det b <> 0 -> det (apply_bases t b) <> 0.
Proof.
  induction t as [s lk bo|m o lk bo|o lk bo|pl lk bo|ts IH] using transform_ind'; intros Hr b Hb; inversion Hr; subst; cbn [apply_bases]; auto.
  - rewrite det_mm. apply Rmult_integral_contrapositive. split; [apply orth_det_nz; auto|auto].
  - rewrite det_mm. apply Rmult_integral_contrapositive. split; [apply orth_det_nz, orth_neg|auto].
  - clear Hr. revert b Hb. induction ts as [|t ts IHt]; intros b Hb; cbn; auto. inversion IH; inversion H0; subst. apply IHt; auto.
Qed.
Lemma crystal_transform_rigid g t : rigid t -> det (vo_bases (g_voxel g)) <> 0 ->
  exists g', crystal_transform g t = Ok g' /\ vo_scale (g_voxel g') = vo_scale (g_voxel g) /\
    vo_bases (g_voxel g') = apply_bases t (vo_bases (g_voxel g)).
Proof.
  intros R D. unfold crystal_transform, set_bases. rewrite check_bases_det by (apply apply_bases_det; auto). cbn [bind].
  eexists. split; [reflexivity|]. destruct (basis_only t); cbn; auto.
Qed.
Lemma sphere_moves t s a' : rigid t -> apply_alg t (ASphere s) = Ok a' ->
  a' = ASphere (mkSphere (s_radius s) (apply_pt t (s_center s)) (s_tol s)).
Proof.
  revert s a'. induction t as [sh lk bo|m o lk bo|o lk bo|pl lk bo|ts IH] using transform_ind'; intros s a' Hr H; inversion Hr; subst.
  - injection H as <-. reflexivity.
  - injection H as <-. reflexivity.
  - injection H as <-. reflexivity.
  - cbn [apply_alg apply_pt] in *. clear Hr. revert s a' H. induction ts as [|t ts IHt]; intros s a' H; cbn in *.
    + injection H as <-. destruct s; reflexivity.
    + inversion IH; inversion H1; subst. inv_bind H. apply H3 in Ha; [|assumption]. subst a. apply IHt in H; auto.
Qed.
Lemma sphere_kind t a s' : rigid t -> apply_alg t a = Ok (ASphere s') -> exists s, a = ASphere s.
Proof.
  revert a s'. induction t as [sh lk bo|m o lk bo|o lk bo|pl lk bo|ts IH] using transform_ind'; intros a s' Hr H; inversion Hr; subst.
  - destruct a; [eauto|discriminate|discriminate].
  - destruct a; [eauto| |]; cbn in H; inv_bind H; discriminate.
  - destruct a; [eauto| |]; cbn in H; inv_bind H; discriminate.
  - cbn [apply_alg] in *. clear Hr. revert a H. induction ts as [|t ts IHt]; intros a H; cbn in *.
    + injection H as ->. eauto.
    + inversion IH; inversion H1; subst. inv_bind H. apply IHt in H; auto. destruct H as [s ->]. eapply H3; eauto.
Qed.
Lemma rigid_injective t p q : rigid t -> apply_pt t p = apply_pt t q -> p = q.
Proof.
  intros R E. pose proof (C34_isometries t R p q) as D. rewrite E in D. unfold dist in D.
  replace (vsub (apply_pt t q) (apply_pt t q)) with v0 in D by (generalize (apply_pt t q); vring). rewrite norm_v0 in D.
  symmetry in D. apply norm_zero in D. apply vec_eq; [apply (f_equal vx) in D|apply (f_equal vy) in D|apply (f_equal vz) in D]; cbn in D; lra.
Qed.
Lemma sbases_det v : uniform_scale v -> det (sbases v) <> 0 -> det (vo_bases v) <> 0.
Proof.
  intros U D E. apply D. destruct (sbases_mm v U) as [d Hd].
  assert (EB : sbases v = mm (vo_bases v) d) by (rewrite <- (Hd _ (vo_origin v)); destruct v; reflexivity).
  rewrite EB, det_mm, E. ring.
Qed.
Lemma sbases_rigid v v' t : uniform_scale v -> vo_scale v' = vo_scale v -> vo_bases v' = apply_bases t (vo_bases v) ->
  rigid t -> det (sbases v) <> 0 -> det (sbases v') <> 0.
Proof.
  intros U ES EB R D. destruct (sbases_mm v U) as [d Hd].
  assert (E1 : sbases v = mm (vo_bases v) d) by (rewrite <- (Hd _ (vo_origin v)); destruct v; reflexivity).
  assert (E2 : sbases v' = mm (apply_bases t (vo_bases v)) d).
  { rewrite <- (Hd _ (vo_origin v')), <- ES, <- EB. destruct v'; reflexivity. }
  rewrite E1, det_mm in D. rewrite E2, det_mm. apply Rmult_integral_contrapositive. split; [apply apply_bases_det; auto|]; intros Q; apply D; rewrite Q; ring.
Qed.

(** The volume after a rigid motion, its surfaces and its generator. *)
Lemma moved_leaf w l t g : l_points l = PNone -> l_tri l = None -> Forall valid_alg (l_alg l) -> rigid t ->
  l_gen l = Some (GCrystal g) -> det (vo_bases (g_voxel g)) <> 0 ->
  exists l' g', leaf_transform w l t = (l', Ok tt) /\ l_gen l' = Some (GCrystal g') /\
    (if locked t then crystal_transform g t = Ok g' else g' = g) /\
    l_points l' = PNone /\ l_tri l' = None /\ Forall2 (fun a a' => apply_alg t a = Ok a' /\ valid_alg a') (l_alg l) (l_alg l').
Proof.
  intros HP HT HV HR HG HD. rewrite leaf_transform_nopoints by auto.
  destruct (go_alg_rigid t HR (l_alg l) [] HV) as (out & E & F). rewrite E. cbn [app]. unfold gen_step. cbn [with_alg l_gen]. rewrite HG.
  assert (F' : Forall2 (fun a a' => apply_alg t a = Ok a' /\ valid_alg a') (l_alg l) out) by (clear -F; induction F as [|? ? ? ? (? & ? & ?)]; constructor; auto).
  destruct (locked t) eqn:LK.
  - destruct (crystal_transform_rigid g t HR HD) as (g' & Eg & _). cbn [generator_transform]. rewrite Eg. cbn [bind].
    eexists. exists g'. split; [reflexivity|]. cbn. auto.
  - eexists. exists g. split; [reflexivity|]. cbn. auto.
Qed.

(** A locked rigid motion followed by populate_atoms gives, inside the nominal spheres,
    exactly the images of the atoms one gets without it. *)
Theorem C100_atoms_move : forall w c l g t,
  l_gen l = Some (GCrystal g) -> well_formed g -> uniform_scale (g_voxel g) -> g_strain g = None -> g_post g = None ->
  Forall in_cell (st_frac (g_structure g)) ->
  l_points l = PNone -> l_tri l = None -> Forall valid_alg (l_alg l) -> (exists s, In (ASphere s) (l_alg l)) ->
  rigid t -> locked t = true -> basis_only t = false ->
  exists l0 a0 s0 lt l1 a1 s1,
    leaf_populate w c l = Ok (c, l0) /\ l_atoms l0 = Some (a0, s0) /\
    leaf_transform w l t = (lt, Ok tt) /\ leaf_populate w c lt = Ok (c, l1) /\ l_atoms l1 = Some (a1, s1) /\
    forall p z, (forall s, In (ASphere s) (l_alg l) -> dist p (s_center s) <= s_radius s) ->
      (In (p, z) (combine a0 s0) <-> In (apply_pt t p, z) (combine a1 s1)).
Proof.
  intros w c l g t HG WF US HS HPo HF HP HT HV HSp HR LK BO.
  destruct (moved_leaf w l t g HP HT HV HR HG (sbases_det _ US (proj2 WF))) as (lt & g' & ET & HG' & CT & HP' & HT' & F2). rewrite LK in CT.
  pose proof CT as CT0. destruct (crystal_transform_rigid g t HR (sbases_det _ US (proj2 WF))) as (g2 & Q & ES & EB). rewrite CT in Q. injection Q as <-.
  destruct (C37_transform_moves_crystal_partial g t g' CT US) as (S1 & S2 & S3 & MV).
  assert (WF' : well_formed g').
  { split; [rewrite S1; apply WF|]. eapply sbases_rigid; eauto. apply WF. }
  assert (V' : Forall valid_alg (l_alg lt)) by (clear -F2; induction F2 as [|? ? ? ? (? & ?)]; constructor; auto).
  assert (SP : forall s', In (ASphere s') (l_alg lt) <-> exists s, In (ASphere s) (l_alg l) /\ s' = mkSphere (s_radius s) (apply_pt t (s_center s)) (s_tol s)).
  { clear -F2 HR. induction F2 as [|a a' la la' (E & _) F IH]; intros s'.
    - split; [intros []|intros (s & [] & _)].
    - split.
      + intros [->|H].
        * destruct (sphere_kind _ _ _ HR E) as [s ->]. apply sphere_moves in E; auto. injection E as ->. exists s. split; [left; auto|auto].
        * apply IH in H as (s & H & Q). exists s. split; [right; auto|auto].
      + intros (s & [->|H] & ->).
        * left. symmetry. apply sphere_moves in E; auto.
        * right. apply IH. eauto. }
  assert (HSp' : exists s, In (ASphere s) (l_alg lt)) by (destruct HSp as [s Hs]; eexists; apply SP; eauto).
  assert (IN : forall p, leaf_inside w lt (apply_pt t p) = leaf_inside w l p).
  { intros p. pose proof (leaf_transform_rigid w l t HP HT HV HR) as Q. rewrite ET in Q. apply Q. }
  destruct (C10_sphere_bounded_filled w c l g HG WF HS HPo HF HP HV HSp) as (l0 & a0 & s0 & P0 & A0 & I0).
  rewrite <- S1 in HF. rewrite <- S2 in HS. rewrite <- S3 in HPo.
  destruct (C10_sphere_bounded_filled w c lt g' HG' WF' HS HPo HF HP' V' HSp') as (l1 & a1 & s1 & P1 & A1 & I1).
  rewrite S1 in HF. rewrite S2 in HS. rewrite S3 in HPo.
  destruct (C13_sphere_box w l HP HV HSp) as (b & box & _ & _ & HB & L8 & _).
  destruct (C13_sphere_box w lt HP' V' HSp') as (b' & box' & _ & _ & HB' & L8' & _).
  assert (N1 : box <> []) by (intros ->; discriminate). assert (N2 : box' <> []) by (intros ->; discriminate).
  destruct (C10_crystal_volume_filled w c l g box HG WF HS HPo HF HB N1) as (l0' & a0' & s0' & P0' & A0' & _ & O0 & _).
  rewrite P0 in P0'. injection P0' as <-. rewrite A0 in A0'. injection A0' as <- <-.
  rewrite <- S1 in HF. rewrite <- S2 in HS. rewrite <- S3 in HPo.
  destruct (C10_crystal_volume_filled w c lt g' box' HG' WF' HS HPo HF HB' N2) as (l1' & a1' & s1' & P1' & A1' & _ & O1 & _).
  rewrite P1 in P1'. injection P1' as <-. rewrite A1 in A1'. injection A1' as <- <-.
  exists l0, a0, s0, lt, l1, a1, s1. split; [exact P0|]. split; [exact A0|]. split; [exact ET|]. split; [exact P1|]. split; [exact A1|].
  intros p z HN.
  assert (CS : cell_sites g' = cell_sites g) by (unfold cell_sites; rewrite S1; reflexivity).
  assert (CA : crystal_atom (basis_of g) (origin_of g) (cell_sites g) p z <-> crystal_atom (basis_of g') (origin_of g') (cell_sites g') (apply_pt t p) z).
  { rewrite CS. split; intros (n & f & Hf & E); exists n, f; (split; [exact Hf|]); destruct (MV n f) as [M _]; specialize (M BO).
    - rewrite M, E. reflexivity.
    - rewrite M in E. apply (rigid_injective t); auto. }
  assert (HN' : forall s', In (ASphere s') (l_alg lt) -> dist (apply_pt t p) (s_center s') <= s_radius s').
  { intros s' Hs. apply SP in Hs as (s & Hs & ->). cbn. rewrite (C34_isometries t HR). auto. }
  split; intros H.
  - apply O0 in H as [H1 H2]. apply I1; [apply CA; exact H1|rewrite IN; exact H2|exact HN'].
  - apply O1 in H as [H1 H2]. apply I0; [apply CA; exact H1|rewrite <- IN; exact H2|exact HN].
Qed.

(** An unlocked rigid motion moves the surfaces over a crystal that stays where it is. *)
Theorem C100_crystal_stays : forall w c l g t,
  l_gen l = Some (GCrystal g) -> well_formed g -> uniform_scale (g_voxel g) -> g_strain g = None -> g_post g = None ->
  Forall in_cell (st_frac (g_structure g)) ->
  l_points l = PNone -> l_tri l = None -> Forall valid_alg (l_alg l) -> (exists s, In (ASphere s) (l_alg l)) ->
  rigid t -> locked t = false ->
  exists lt l1 a1 s1,
    leaf_transform w l t = (lt, Ok tt) /\ leaf_populate w c lt = Ok (c, l1) /\ l_atoms l1 = Some (a1, s1) /\
    forall p z, (forall s, In (ASphere s) (l_alg l) -> dist p (s_center s) <= s_radius s) ->
      (In (apply_pt t p, z) (combine a1 s1) <->
       leaf_inside w l p = true /\ crystal_atom (basis_of g) (origin_of g) (cell_sites g) (apply_pt t p) z).
Proof.
  intros w c l g t HG WF US HS HPo HF HP HT HV HSp HR LK.
  destruct (moved_leaf w l t g HP HT HV HR HG (sbases_det _ US (proj2 WF))) as (lt & g' & ET & HG' & CT & HP' & HT' & F2). rewrite LK in CT. subst g'.
  assert (V' : Forall valid_alg (l_alg lt)) by (clear -F2; induction F2 as [|? ? ? ? (? & ?)]; constructor; auto).
  assert (SP : forall s', In (ASphere s') (l_alg lt) <-> exists s, In (ASphere s) (l_alg l) /\ s' = mkSphere (s_radius s) (apply_pt t (s_center s)) (s_tol s)).
  { clear -F2 HR. induction F2 as [|a a' la la' (E & _) F IH]; intros s'.
    - split; [intros []|intros (s & [] & _)].
    - split.
      + intros [->|H].
        * destruct (sphere_kind _ _ _ HR E) as [s ->]. apply sphere_moves in E; auto. injection E as ->. exists s. split; [left; auto|auto].
        * apply IH in H as (s & H & Q). exists s. split; [right; auto|auto].
      + intros (s & [->|H] & ->).
        * left. symmetry. apply sphere_moves in E; auto.
        * right. apply IH. eauto. }
  assert (HSp' : exists s, In (ASphere s) (l_alg lt)) by (destruct HSp as [s Hs]; eexists; apply SP; eauto).
  assert (IN : forall p, leaf_inside w lt (apply_pt t p) = leaf_inside w l p).
  { intros p. pose proof (leaf_transform_rigid w l t HP HT HV HR) as Q. rewrite ET in Q. apply Q. }
  destruct (C10_sphere_bounded_filled w c lt g HG' WF HS HPo HF HP' V' HSp') as (l1 & a1 & s1 & P1 & A1 & I1).
  destruct (C13_sphere_box w lt HP' V' HSp') as (b' & box' & _ & _ & HB' & L8' & _).
  assert (N2 : box' <> []) by (intros ->; discriminate).
  destruct (C10_crystal_volume_filled w c lt g box' HG' WF HS HPo HF HB' N2) as (l1' & a1' & s1' & P1' & A1' & _ & O1 & _).
  rewrite P1 in P1'. injection P1' as <-. rewrite A1 in A1'. injection A1' as <- <-.
  exists lt, l1, a1, s1. split; [exact ET|]. split; [exact P1|]. split; [exact A1|]. intros p z HN. split.
  - intros H. apply O1 in H as [H1 H2]. rewrite IN in H2. auto.
  - intros [H1 H2]. apply I1; [exact H2|rewrite IN; exact H1|]. intros s' Hs. apply SP in Hs as (s & Hs & ->). cbn. rewrite (C34_isometries t HR). auto.
Qed.
Example C100_nonvacuous : exists w,
  let t := TMulti [TTranslation (mkV 1 2 3) true false; TMatrix (mkM (mkV 0 (-1) 0) (mkV 1 0 0) (mkV 0 0 1)) (Some (mkV 5 0 0)) true false] in
  rigid t /\ locked t = true /\ basis_only t = false /\ well_formed ex_crystal /\ uniform_scale (g_voxel ex_crystal) /\
  Forall in_cell (st_frac (g_structure ex_crystal)) /\
  crystal_atom (basis_of ex_crystal) (origin_of ex_crystal) (cell_sites ex_crystal) (mkV 1 1 (-1)) 17 /\ leaf_inside w ex_ball (mkV 1 1 (-1)) = true /\
  dist (mkV 1 1 (-1)) v0 <= 3.
Proof.
  destruct (C10_nonvacuous corner_world) as (_ & _ & _ & A & B & C). exists corner_world. cbv zeta.
  split; [constructor; repeat constructor; unfold orthogonal; vring|]. split; [reflexivity|]. split; [reflexivity|].
  split; [apply ex_wf|]. split; [exact I|]. split; [apply ex_cells|]. auto.
Qed.
