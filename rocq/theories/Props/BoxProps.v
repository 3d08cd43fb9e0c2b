(** Bounding boxes: C12 (cylinder), C13 (sphere), C54 (makeRectPrism). *)
From Coq Require Import Reals List Bool Lra Psatz Lia ZArith.
From Verif.Model Require Import Base Vec Algebraic Transform Voxel Generator Volume.
From Verif.Spec Require Import Geometry AlgSpec.
From Verif.Proofs Require Import VecFacts VolumeFacts AlgFacts HullFacts.
Import ListNotations.
Open Scope R_scope.

(* ------------------------------------------------------------------ *)
(** * C54 *)
Lemma between a x : (exists t, 0 <= t <= 1 /\ x = t * a) <-> Rmin 0 a <= x <= Rmax 0 a.
Proof.
  split.
  - intros (t & Ht & ->). destruct (Rle_dec 0 a).
    + rewrite Rmin_left, Rmax_right by lra. nra.
    + rewrite Rmin_right, Rmax_left by lra. nra.
  - intros H. destruct (Req_dec a 0) as [->|NZ].
    + rewrite Rmin_left, Rmax_left in H by lra. exists 0. lra.
    + exists (x / a). split; [|field; auto]. destruct (Rle_dec 0 a).
      * rewrite Rmin_left, Rmax_right in H by lra. split.
        -- apply Rmult_le_pos; [lra|]. left; apply Rinv_0_lt_compat; lra.
        -- apply (Rmult_le_reg_r a); [lra|]. unfold Rdiv. rewrite Rmult_assoc, Rinv_l; lra.
      * rewrite Rmin_right, Rmax_left in H by lra.
        replace (x / a) with ((- x) * / (- a)) by (field; lra). assert (0 < / - a) by (apply Rinv_0_lt_compat; lra). split.
        -- apply Rmult_le_pos; lra.
        -- apply (Rmult_le_reg_r (- a)); [lra|]. rewrite Rmult_assoc, Rinv_l; lra.
Qed.

Lemma cons_eq {A} (a b : A) l l' : a = b -> l = l' -> a :: l = b :: l'.
Proof. congruence. Qed.
Lemma prism_corners a b c : makeRectPrism a b c None = corners v0 (mkV a 0 0) (mkV 0 b 0) (mkV 0 0 c).
Proof. unfold makeRectPrism, corners, unit_cube. cbn [map]. repeat (apply cons_eq; [vring|]). reflexivity. Qed.
Lemma prism_mean a b c : vmean (makeRectPrism a b c None) = mkV (a/2) (b/2) (c/2).
Proof.
  unfold vmean, makeRectPrism, unit_cube. cbn [map length fold_right INR]. apply vec_eq; vunfold; field.
Qed.

(** The eight corners span exactly the box between 0 and (a,b,c); negative dimensions
    extend to the negative side. *)
Theorem C54_prism_is_box : forall a b c p,
  length (makeRectPrism a b c None) = 8%nat /\
  (in_hull (makeRectPrism a b c None) p <->
   Rmin 0 a <= vx p <= Rmax 0 a /\ Rmin 0 b <= vy p <= Rmax 0 b /\ Rmin 0 c <= vz p <= Rmax 0 c).
Proof.
  intros a b c p. split; [reflexivity|]. rewrite prism_corners, parallelepiped_hull, <- !between. split.
  - intros (x & y & z & Hx & Hy & Hz & ->). repeat split.
    + exists x. split; auto. vunfold. ring.
    + exists y. split; auto. vunfold. ring.
    + exists z. split; auto. vunfold. ring.
  - intros ((x & Hx & Ex) & (y & Hy & Ey) & (z & Hz & Ez)). exists x, y, z. repeat split; try lra.
    apply vec_eq; rewrite ?Ex, ?Ey, ?Ez; vunfold; ring.
Qed.
Theorem C54_centred_prism_is_box : forall a b c ctr p,
  0 <= a -> 0 <= b -> 0 <= c ->
  (in_hull (makeRectPrism a b c (Some ctr)) p <->
   Rabs (vx p - vx ctr) <= a / 2 /\ Rabs (vy p - vy ctr) <= b / 2 /\ Rabs (vz p - vz ctr) <= c / 2).
Proof.
  intros a b c ctr p Ha Hb Hc.
  assert (E : makeRectPrism a b c (Some ctr) =
    corners (vsub ctr (mkV (a/2) (b/2) (c/2))) (mkV a 0 0) (mkV 0 b 0) (mkV 0 0 c)).
  { transitivity (map (fun p => vadd p (vsub ctr (vmean (makeRectPrism a b c None)))) (makeRectPrism a b c None)); [reflexivity|].
    rewrite prism_mean, prism_corners. unfold corners. cbn [map]. repeat (apply cons_eq; [vring|]). reflexivity. }
  rewrite E, parallelepiped_hull.
  assert (I : forall d x, 0 <= d -> (Rabs x <= d / 2 <-> exists t, 0 <= t <= 1 /\ x + d / 2 = t * d)).
  { intros d x Hd. rewrite between, Rmin_left, Rmax_right by lra.
    split; intros H.
    - revert H. unfold Rabs. destruct (Rcase_abs x); lra.
    - apply Rabs_le. lra. }
  rewrite !I by auto. split.
  - intros (x & y & z & Hx & Hy & Hz & ->). repeat split.
    + exists x. split; auto. vunfold. field.
    + exists y. split; auto. vunfold. field.
    + exists z. split; auto. vunfold. field.
  - intros ((x & Hx & Ex) & (y & Hy & Ey) & (z & Hz & Ez)). exists x, y, z. repeat split; try lra.
    destruct p, ctr; cbn in *; apply vec_eq; vunfold; lra.
Qed.
Example C54_nonvacuous : in_hull (makeRectPrism 2 4 6 (Some (mkV 10 10 10))) (mkV 11 8 13) /\
  ~ in_hull (makeRectPrism 2 4 6 (Some (mkV 10 10 10))) (mkV 12 8 13).
Proof.
  split; [|intros H]; [apply C54_centred_prism_is_box|apply C54_centred_prism_is_box in H]; cbn in *; try lra.
  - repeat split; apply Rabs_le; lra.
  - destruct H as (H & _). rewrite Rabs_right in H; lra.
Qed.

(* ------------------------------------------------------------------ *)
(** * C13 *)
Lemma smallest_sphere_spec : forall l s,
  In (smallest_sphere s l) (s :: l) /\ forall x, In x (s :: l) -> s_radius (smallest_sphere s l) <= s_radius x.
Proof.
  unfold smallest_sphere. induction l as [|y l IH]; intros s; cbn [fold_left].
  - split; [simpl; auto|]. intros x [->|[]]. lra.
  - destruct (Rltb (s_radius y) (s_radius s)) eqn:E.
    + apply Rltb_iff in E. destruct (IH y) as [I M]. split; [simpl in *; tauto|].
      intros x [->|[->|Hx]]; [|apply M; simpl; auto|apply M; simpl; auto].
      specialize (M y (or_introl eq_refl)). lra.
    + apply Rltb_false in E. destruct (IH s) as [I M]. split; [simpl in *; tauto|].
      intros x [->|[->|Hx]]; [apply M; simpl; auto| |apply M; simpl; auto].
      specialize (M s (or_introl eq_refl)). lra.
Qed.
Lemma in_spheres_of s l : In s (spheres_of l) <-> In (ASphere s) l.
Proof.
  unfold spheres_of. rewrite in_flat_map. split.
  - intros ([x|x|x] & H1 & H2); simpl in H2; destruct H2; subst; auto; try contradiction.
  - intros H. exists (ASphere s). simpl; auto.
Qed.
Lemma comp_le_norm v r : norm v <= r -> Rabs (vx v) <= r /\ Rabs (vy v) <= r /\ Rabs (vz v) <= r.
Proof.
  intros H. unfold norm in H.
  repeat split; eapply Rle_trans; try exact H; rewrite <- sqrt_Rsqr_abs; apply sqrt_le_1_alt; unfold Rsqr, dot; nra.
Qed.
Lemma cube_hull b : 0 <= s_radius b ->
  forall p, in_hull (map (fun p => vadd p (vsub (s_center b) (vscale (2 * s_radius b / 2) (mkV 1 1 1))))
                         (makeRectPrism (2 * s_radius b) (2 * s_radius b) (2 * s_radius b) None)) p <->
  Rabs (vx p - vx (s_center b)) <= s_radius b /\ Rabs (vy p - vy (s_center b)) <= s_radius b /\
  Rabs (vz p - vz (s_center b)) <= s_radius b.
Proof.
  intros Hr p. set (d := 2 * s_radius b) in *.
  pose proof (C54_centred_prism_is_box d d d (s_center b) p) as H.
  replace (d / 2) with (s_radius b) in * by (unfold d; field).
  rewrite <- H by (unfold d; lra).
  replace (makeRectPrism d d d (Some (s_center b)))
    with (map (fun p0 => vadd p0 (vsub (s_center b) (vscale (s_radius b) (mkV 1 1 1)))) (makeRectPrism d d d None)); [reflexivity|].
  transitivity (map (fun p => vadd p (vsub (s_center b) (vmean (makeRectPrism d d d None)))) (makeRectPrism d d d None)); [|reflexivity].
  rewrite prism_mean. apply map_ext. intros a. unfold d. apply vec_eq; vunfold; field.
Qed.

(** A volume without points but with valid spheres: the box is the circumscribed cube
    of one of the spheres, of minimal radius; its hull contains that ball, and every
    interior point of the volume is within the ball's tolerance shell. *)
Theorem C13_sphere_box : forall w l,
  l_points l = PNone -> Forall valid_alg (l_alg l) -> (exists s, In (ASphere s) (l_alg l)) ->
  exists b box, In (ASphere b) (l_alg l) /\
    (forall s, In (ASphere s) (l_alg l) -> s_radius b <= s_radius s) /\
    get_bounding_box w l = BArr box /\ length box = 8%nat /\
    (forall p, in_hull box p <-> Rabs (vx p - vx (s_center b)) <= s_radius b /\
       Rabs (vy p - vy (s_center b)) <= s_radius b /\ Rabs (vz p - vz (s_center b)) <= s_radius b) /\
    (forall p, dist p (s_center b) <= s_radius b -> in_hull box p) /\
    (forall p, leaf_inside w l p = true -> dist p (s_center b) < s_radius b + s_tol b).
Proof.
  intros w l HP HV [s0 Hs0]. unfold get_bounding_box. rewrite HP.
  destruct (spheres_of (l_alg l)) as [|s ss] eqn:E.
  { apply in_spheres_of in Hs0. rewrite E in Hs0. destruct Hs0. }
  destruct (smallest_sphere_spec ss s) as [I M]. set (b := smallest_sphere s ss) in *.
  assert (IB : In (ASphere b) (l_alg l)) by (apply in_spheres_of; rewrite E; auto).
  assert (VB : valid_sphere b) by (rewrite Forall_forall in HV; exact (HV _ IB)).
  destruct VB as [RB TB].
  exists b. eexists. split; [exact IB|]. split.
  { intros x Hx. apply M. rewrite <- E. apply in_spheres_of; auto. }
  split; [reflexivity|]. split; [reflexivity|]. split; [apply cube_hull; lra|]. split.
  - intros p Hp. apply cube_hull; [lra|]. apply comp_le_norm in Hp. exact Hp.
  - intros p Hp. unfold leaf_inside in Hp.
    assert (G : forall al c0, fold_left (fun c a => c && alg_interior a p) al c0 = true -> c0 = true /\ forall a, In a al -> alg_interior a p = true).
    { induction al as [|a al IH]; intros c0 H; cbn [fold_left] in H; [split; auto; intros ? []|].
      apply IH in H as [H1 H2]. apply andb_true_iff in H1 as [H1 H3]. split; auto. intros a' [->|Ha]; auto. }
    apply G in Hp as [_ Hp]. specialize (Hp _ IB). cbn [alg_interior] in Hp. unfold sphere_interior in Hp. apply Rltb_iff in Hp.
    change (dot (vsub p (s_center b)) (vsub p (s_center b)) < (s_radius b + s_tol b) * (s_radius b + s_tol b)) in Hp.
    rewrite <- norm_sq in Hp. unfold dist. pose proof (norm_pos (vsub p (s_center b))). nra.
Qed.
Example C13_nonvacuous : let l := mkLeaf PNone None None [ASphere (mkSphere 5 v0 1); ASphere (mkSphere 3 v0 1)] None 0 1 None in
  l_points l = PNone /\ Forall valid_alg (l_alg l) /\ exists s, In (ASphere s) (l_alg l).
Proof. cbn. split; [reflexivity|]. split; [repeat constructor; cbn; lra|]. eexists. left. reflexivity. Qed.

(* ------------------------------------------------------------------ *)
(** * C12 *)
Lemma orthonormal_expand e f a d :
  dot e e = 1 -> dot f f = 1 -> dot a a = 1 -> dot e f = 0 -> dot e a = 0 -> dot f a = 0 ->
  d = vadd (vadd (vscale (dot d e) e) (vscale (dot d f) f)) (vscale (dot d a) a).
Proof.
  intros. set (M := mkM e f a).
  assert (O : orthogonal M).
  { unfold orthogonal, M. clear M. destruct e, f, a. unfold dot in *. cbn in *. apply mat_eq; apply vec_eq; vunfold; lra. }
  pose proof (orth_mt M O) as E. rewrite <- (mv_id d) at 1. rewrite <- E, mv_mm. unfold M. vring.
Qed.
(** The axis is not parallel to the body diagonal (1,1,1). *)
Definition off_diagonal (a : vec) : Prop := cross (mkV 1 1 1) a <> v0.

Lemma vs0_norm c : valid_cyl c ->
  dot (cyl_vs0_raw c) (c_axis c) = 0 /\ (off_diagonal (c_axis c) <-> norm (cyl_vs0_raw c) <> 0).
Proof.
  intros (Hn & _). pose proof (unit_dot _ Hn) as Hd. unfold cyl_vs0_raw. set (a := c_axis c) in *.
  set (k := / norm (mkV 1 1 1)).
  assert (N3 : 0 < norm (mkV 1 1 1)).
  { unfold norm, dot; cbn. apply sqrt_lt_R0. lra. }
  assert (Hk : 0 < k) by (apply Rinv_0_lt_compat; auto).
  set (u := vscale k (mkV 1 1 1)). split.
  - replace (dot (vsub u (vscale (dot u a) a)) a) with (dot u a * (1 - dot a a)) by vring. rewrite Hd. ring.
  - unfold off_diagonal.
    assert (E : dot (vsub u (vscale (dot u a) a)) (vsub u (vscale (dot u a) a)) = k * k * dot (cross (mkV 1 1 1) a) (cross (mkV 1 1 1) a)).
    { rewrite lagrange, Hd.
      replace (dot (vsub u (vscale (dot u a) a)) (vsub u (vscale (dot u a) a))) with (dot u u - dot u a * dot u a * (2 - dot a a)) by vring.
      rewrite Hd. unfold u. vring. }
    split.
    + intros H Z. apply H. apply dot_zero. apply norm_zero in Z. rewrite Z in E.
      replace (dot v0 v0) with 0 in E by vring. assert (0 < k * k) by nra.
      symmetry in E. apply Rmult_integral in E as [E|E]; [lra|exact E].
    + intros H Z. apply H. unfold norm. rewrite E, Z. replace (k * k * dot v0 v0) with 0 by vring. apply sqrt_0.
Qed.

Ltac pick := first [left; solve [vring] | right; pick].
(** Eight points centred on the cylinder's centre whose hull contains every point
    within [radius] of the axis line and half a length of the centre along it — for
    every axis except those parallel to (1,1,1). *)
Theorem C12_cylinder_box_partial : forall c, valid_cyl c -> off_diagonal (c_axis c) ->
  exists box, cyl_bounding_box c = Some box /\ length box = 8%nat /\ fold_right vadd v0 box = vscale 8 (c_point c) /\
    forall p, norm (cross (vsub p (c_point c)) (c_axis c)) <= c_radius c ->
              Rabs (dot (vsub p (c_point c)) (c_axis c)) <= c_length c / 2 -> in_hull box p.
Proof.
  intros c V OD. destruct (vs0_norm c V) as [PERP NZ]. apply NZ in OD as NZ0. destruct V as (Hn & Hr & Hl & Ht).
  pose proof (unit_dot _ Hn) as Hd. set (a := c_axis c) in *.
  unfold cyl_bounding_box. rewrite (proj2 (Reqb_false _ _) NZ0).
  set (e := vscale (/ norm (cyl_vs0_raw c)) (cyl_vs0_raw c)).
  assert (NP : 0 < norm (cyl_vs0_raw c)) by (pose proof (norm_pos (cyl_vs0_raw c)); lra).
  assert (E1 : dot e e = 1) by (apply unit_dot, vscale_inv_unit; auto).
  assert (EA : dot e a = 0).
  { unfold e. replace (dot (vscale (/ norm (cyl_vs0_raw c)) (cyl_vs0_raw c)) a) with (/ norm (cyl_vs0_raw c) * dot (cyl_vs0_raw c) a) by vring.
    rewrite PERP. ring. }
  assert (FN : norm (cross e a) = 1).
  { apply dot_unit. rewrite lagrange, E1, EA, Hd. ring. }
  fold a. rewrite FN. rewrite (proj2 (Reqb_false 1 0)) by lra.
  replace (vscale (/ 1) (cross e a)) with (cross e a) by (apply vec_eq; vunfold; field).
  set (f := cross e a) in *.
  assert (FF : dot f f = 1) by (apply unit_dot; auto).
  assert (EF : dot e f = 0) by (unfold f; vring).
  assert (FA : dot f a = 0) by (unfold f; vring).
  set (h := vscale (c_length c / 2) a). eexists. split; [reflexivity|]. split; [reflexivity|]. split.
  { cbn [map app length fold_right INR]. generalize h e f. intros. apply vec_eq; vunfold; field. }
  intros p H1 H2. set (x := c_point c) in *. set (d := vsub p x) in *. set (r := c_radius c) in *.
  assert (BND : dot d e * dot d e + dot d f * dot d f <= r * r).
  { assert (DD : dot d d = dot d e * dot d e + dot d f * dot d f + dot d a * dot d a).
    { pose proof (orthonormal_expand e f a d E1 FF Hd EF EA FA) as X. rewrite X at 1 2.
      generalize (dot d e) (dot d f) (dot d a). intros s1 s2 s3.
      replace (dot (vadd (vadd (vscale s1 e) (vscale s2 f)) (vscale s3 a)) (vadd (vadd (vscale s1 e) (vscale s2 f)) (vscale s3 a)))
        with (s1*s1*dot e e + s2*s2*dot f f + s3*s3*dot a a + 2*s1*s2*dot e f + 2*s1*s3*dot e a + 2*s2*s3*dot f a) by vring.
      rewrite E1, FF, Hd, EF, EA, FA. ring. }
    pose proof (norm_sq (cross d a)) as NS. rewrite lagrange, Hd in NS. pose proof (norm_pos (cross d a)). nra. }
  assert (H2' : - (c_length c / 2) <= dot d a <= c_length c / 2) by (revert H2; unfold Rabs; destruct (Rcase_abs (dot d a)); lra).
  assert (BE : - r <= dot d e <= r) by nra.
  assert (BF : - r <= dot d f <= r) by nra.
  (* as a parallelepiped *)
  assert (HP : in_hull (corners (vsub (vsub (vsub x (vscale r e)) (vscale r f)) h) (vscale (2*r) e) (vscale (2*r) f) (vscale 2 h)) p).
  { apply parallelepiped_hull. exists ((dot d e + r) / (2*r)), ((dot d f + r) / (2*r)), ((dot d a + c_length c / 2) / c_length c).
    assert (Q : forall u v, 0 < v -> 0 <= u <= v -> 0 <= u / v <= 1).
    { intros u v Hv Hu. split; [apply Rmult_le_pos; [lra|left; apply Rinv_0_lt_compat; lra]|].
      apply (Rmult_le_reg_r v); [lra|]. unfold Rdiv. rewrite Rmult_assoc, Rinv_l; lra. }
    split; [apply Q; lra|]. split; [apply Q; lra|]. split; [apply Q; lra|].
    transitivity (vadd x d); [unfold d; vring|].
    pose proof (orthonormal_expand e f a d E1 FF Hd EF EA FA) as X. rewrite X at 1.
    generalize (dot d e) (dot d f) (dot d a). intros s1 s2 s3. unfold h. generalize e f. intros.
    apply vec_eq; vunfold; field; lra. }
  eapply in_hull_incl; [|exact HP]. intros q Hq. cbn [corners In] in Hq. cbn [map app In].
  (* q is one of the listed corners *)
  assert (C : forall s1 s2 s3, (s1 = 1 \/ s1 = -1) -> (s2 = 1 \/ s2 = -1) -> (s3 = 1 \/ s3 = -1) ->
    q = vadd (vadd (vadd x (vscale (s1*r) e)) (vscale (s2*r) f)) (vscale s3 h) ->
    In q (map (fun p0 => vadd p0 h) (map (fun w => vadd x (vscale r w)) [vadd e f; vsub e f; vadd (vopp e) f; vsub (vopp e) f])
       ++ map (fun p0 => vsub p0 h) (map (fun w => vadd x (vscale r w)) [vadd e f; vsub e f; vadd (vopp e) f; vsub (vopp e) f]))).
  { clear. generalize e f h. clear. intros e f h s1 s2 s3 H1 H2 H3 ->. cbn [map app].
    cbn [In]. destruct H1, H2, H3; subst; pick. }
  destruct Hq as [<-|[<-|[<-|[<-|[<-|[<-|[<-|[<-|[]]]]]]]]];
  [apply (C (-1) (-1) (-1))|apply (C 1 (-1) (-1))|apply (C (-1) 1 (-1))|apply (C (-1) (-1) 1)
  |apply (C 1 1 (-1))|apply (C 1 (-1) 1)|apply (C (-1) 1 1)|apply (C 1 1 1)]; auto; vring.
Qed.
(** Refuted for axes along (1,1,1): the second normalisation divides 0 by 0 and the box
    consists of NaNs. *)
Theorem C12_cylinder_box_refuted : forall c, valid_cyl c -> ~ off_diagonal (c_axis c) -> cyl_bounding_box c = None.
Proof.
  intros c V OD. destruct (vs0_norm c V) as [_ NZ]. unfold cyl_bounding_box.
  destruct (Reqb (norm (cyl_vs0_raw c)) 0) eqn:E; [reflexivity|]. apply Reqb_false in E. exfalso. apply OD, NZ, E.
Qed.
Example C12_nonvacuous :
  (valid_cyl (mkCyl (mkV 0 0 1) v0 2 10 1) /\ off_diagonal (mkV 0 0 1)) /\
  exists c, new_cylinder (mkV 1 1 1) v0 2 10 1 = Ok c /\ valid_cyl c /\ ~ off_diagonal (c_axis c).
Proof.
  split.
  - split; [repeat split; cbn; try lra; apply dot_unit; vring|]. unfold off_diagonal. intros H.
    assert (E : vx (cross (mkV 1 1 1) (mkV 0 0 1)) = 0) by (rewrite H; reflexivity). cbn in E. lra.
  - assert (N3 : 1 <= norm (mkV 1 1 1)).
    { unfold norm, dot; cbn. rewrite <- sqrt_1 at 1. apply sqrt_le_1_alt. lra. }
    pose proof eps_small. pose proof eps_pos. unfold new_cylinder.
    rewrite (proj2 (check_axis_Ok (mkV 1 1 1) _)) by (split; [|reflexivity]; lra). cbn [bind].
    rewrite (proj2 (check_cyl_len_Ok 2 2)), (proj2 (check_cyl_len_Ok 10 10)), (proj2 (check_tol_Ok 1 1)) by (split; auto; lra).
    cbn [bind]. eexists. split; [reflexivity|]. split.
    + repeat split; cbn [c_axis c_radius c_length c_tol]; try lra. apply vscale_inv_unit. lra.
    + intros H1. apply H1. cbn [c_axis]. generalize (/ norm (mkV 1 1 1)). vring.
Qed.
