(** Centres and points of other shapes (C129). *)
From Coq Require Import Reals List Bool Arith Lra Lia.
From Verif.Model Require Import Base Vec Algebraic Voxel Strain TransformObj AlgShape.
From Verif.Spec Require Import Geometry StrainSpec HistorySpec AlgSpec AlgShapeSpec.
From Verif.Proofs Require Import VecFacts VolumeFacts AlgFacts.
From Verif.Props Require Import AlgebraicProps StrainProps PrefabObjProps.
Import ListNotations.
Open Scope R_scope.

(* ------------------------------------------------------------------ *)
(** * Arrays of three numbers *)
Lemma size_asize a : real_array a -> length (a_data a) = asize a. Proof. intros H. exact H. Qed.
Lemma three_read a : real_array a ->
  (asize a = 3%nat -> three_of a = Some (arr_vec a)) /\ (asize a <> 3%nat -> three_of a = None).
Proof.
  intros H. rewrite <- (size_asize a H). unfold three_of, arr_vec, at_. destruct (a_data a) as [|x [|y [|z [|w l]]]]; cbn; split; intros; try lia; reflexivity.
Qed.
Lemma three_of_flat a v : flat3 a v -> real_array a /\ arr_vec a = v /\ asize a = 3%nat.
Proof. intros [D S]. unfold real_array, asize, arr_vec, at_. rewrite D, S. cbn. destruct v; auto. Qed.
Lemma long_size s d : long_axes s d -> fold_right Nat.mul 1%nat s = fold_right Nat.mul 1%nat d.
Proof. induction 1; cbn; auto. rewrite IHlong_axes. lia. Qed.
Lemma squeeze_det s d : long_axes s d -> squeeze s = d.
Proof. intros H. eapply long_axes_det; [apply squeeze_axes|exact H]. Qed.

(* ------------------------------------------------------------------ *)
(** * The solids *)
Lemma ball_right r c t p : 0 < r -> 0 < t -> ball_test r t c p = true <-> in_ball r c t p.
Proof. intros Hr Ht. unfold ball_test, in_ball. apply (C23_sphere_interior_is_ball (mkSphere r c t) p). split; auto. Qed.
Lemma half_right n x t p : 0 < norm n -> plane_test (vscale (/ norm n) n) t x p = true <-> in_half_space n x t p.
Proof.
  intros Hn. unfold plane_test, plane_interior, sdist_from_plane, in_half_space. cbn [p_normal p_point p_tol]. rewrite Rltb_iff.
  replace (dot p (vscale (/ norm n) n) - dot x (vscale (/ norm n) n)) with (/ norm n * dot (vsub p x) n) by (generalize (/ norm n); vring).
  set (N := norm n) in *. set (D := dot (vsub p x) n). split; intros H.
  - apply (Rmult_lt_compat_l N) in H; auto. rewrite <- Rmult_assoc, Rinv_r, Rmult_1_l in H by lra. lra.
  - apply (Rmult_lt_reg_l N); auto. rewrite <- Rmult_assoc, Rinv_r, Rmult_1_l by lra. lra.
Qed.
Lemma rod_right a x r l t p : eps < norm a -> eps <= r -> eps <= l -> 0 < t ->
  cyl_interior (mkCyl (vscale (/ norm a) a) x r l t) p = true <-> in_rod a x r l t p.
Proof.
  intros Ha Hr Hl Ht.
  assert (E : new_cylinder a x r l t = Ok (mkCyl (vscale (/ norm a) a) x r l t)).
  { unfold new_cylinder. rewrite (proj2 (check_axis_Ok a (vscale (/ norm a) a))), (proj2 (check_cyl_len_Ok r r)), (proj2 (check_cyl_len_Ok l l)), (proj2 (check_tol_Ok t t)); auto. }
  destruct (C23_cylinder_interior a x r l t _ p E) as [_ H]. exact H.
Qed.
Lemma flags_right f (test : vec -> bool) inside :
  (forall pts, check_interior f pts = Ok (Flags (map test pts))) -> (forall p, test p = true <-> inside p) -> answers_right f inside.
Proof.
  intros H T pts. exists (map test pts). split; [auto|]. induction pts; cbn; constructor; auto.
Qed.

(* ------------------------------------------------------------------ *)
(** * Spheres *)
Lemma sphere_step r c v t o : 0 < r -> 0 < t -> flat3 c v -> real_assign o -> flat_center o ->
  exists c', fst (assign_to (FSphere r c t) o) = FSphere (update (asks_radius o) r) c' (update (asks_tol o) t) /\
  flat3 c' (update (asks_center o) v) /\ 0 < update (asks_radius o) r /\ 0 < update (asks_tol o) t.
Proof.
  intros Hr Ht Hc RA FC. destruct o as [t'|r'|a|a|a|a|l]; cbn [asks_radius asks_tol asks_center update];
    try (exists c; cbn; split; [reflexivity|]; auto; fail).
  - exists c. cbn. unfold check_tol. destruct (Rlt_dec 0 t') as [L|L].
    + rewrite (proj2 (Rltb_iff 0 t') L). cbn. auto.
    + rewrite (proj2 (Rltb_false 0 t')) by lra. cbn. auto.
  - exists c. cbn. unfold check_sphere_radius. destruct (Rlt_dec 0 r') as [L|L].
    + rewrite (proj2 (Rltb_iff 0 r') L). cbn. auto.
    + rewrite (proj2 (Rltb_false 0 r')) by lra. cbn. auto.
  - cbn in RA, FC. inversion RA as [|? ? Ra _]; subst. destruct (three_read a Ra) as [T1 T2]. cbn [assign_to].
    unfold check_center. destruct (Nat.eqb_spec (asize a) 3) as [E|E]; cbn [negb].
    + rewrite (T1 E). cbn [update]. assert (S : a_shape a = [3%nat]).
      { unfold asize in E. destruct (a_shape a) as [|n [|m s]]; cbn in *; try lia. f_equal. lia. }
      rewrite S. cbn. exists a. split; [reflexivity|]. split; [|auto]. split; [|exact S].
      unfold real_array in Ra. rewrite S in Ra. cbn in Ra. unfold arr_vec, at_.
      destruct (a_data a) as [|x [|y [|z [|w l]]]]; cbn in *; try lia. reflexivity.
    + rewrite (T2 E). cbn. exists c. auto.
Qed.
(** C129, spheres whose centres are flat arrays: after any history of assignments (refused
    ones included) the sphere has the last accepted radius, centre and tolerance, and gives
    one answer per point, the right one. *)
Theorem C129_sphere_partial : forall r c v t f h, flat3 c v -> make_sphere r c t = Ok f ->
  Forall real_assign h -> Forall flat_center h ->
  exists r' v' t', last_of asks_radius r h r' /\ last_of asks_center v h v' /\ last_of asks_tol t h t' /\
    answers_right (assigned f h) (in_ball r' v' t').
Proof.
  intros r c v t f h Hc M RA FC. unfold make_sphere in M. do 3 inv_bind M.
  apply check_sphere_radius_Ok in Ha as [Hr ->]. apply check_tol_Ok in Ha1 as [Ht ->].
  unfold check_center in Ha0. destruct (negb _); [discriminate|]. destruct (negb _); [discriminate|]. inversion Ha0; subst a0. inversion M; subst f. clear M Ha0.
  enough (E : exists r' v' t' c', last_of asks_radius r h r' /\ last_of asks_center v h v' /\ last_of asks_tol t h t' /\
    assigned (FSphere r c t) h = FSphere r' c' t' /\ flat3 c' v' /\ 0 < r' /\ 0 < t').
  { destruct E as (r' & v' & t' & c' & L1 & L2 & L3 & E & F & P1 & P2). exists r', v', t'. repeat (split; [assumption|]).
    apply (flags_right _ (ball_test r' t' v')).
    - intros pts. rewrite E. cbn. unfold sphere_answers. destruct (three_of_flat _ _ F) as (_ & A & _). destruct F as [_ S]. rewrite S, A. reflexivity.
    - intros p. apply ball_right; auto. }
  induction h as [|o h IH] using rev_ind.
  - exists r, v, t, c. repeat split; auto; try constructor; apply Hc.
  - apply Forall_app in RA as [RA RO]. apply Forall_app in FC as [FC FO]. inversion RO; inversion FO; subst.
    destruct (IH RA FC) as (r' & v' & t' & c' & L1 & L2 & L3 & E & F & P1 & P2).
    unfold assigned in *. rewrite fold_left_app, E. cbn [fold_left].
    destruct (sphere_step r' c' v' t' o) as (c2 & E2 & F2 & Q1 & Q2); auto.
    do 3 eexists. exists c2. split; [apply last_update, L1|]. split; [apply last_update, L2|]. split; [apply last_update, L3|]. auto.
Qed.
(** exactly these spheres answer at all for every array of points *)
Theorem C129_sphere_shapes : forall r c t f, real_array c -> make_sphere r c t = Ok f ->
  ((exists inside, answers_right f inside) <-> exists v, flat3 c v).
Proof.
  intros r c t f Rc M. split.
  - intros [inside H]. unfold make_sphere in M. do 3 inv_bind M. unfold check_center in Ha0.
    destruct (Nat.eqb_spec (asize c) 3) as [E|E]; [|discriminate]. cbn in Ha0. destruct (Nat.eqb_spec (hd 0%nat (a_shape c)) 3) as [E1|E1]; [|discriminate].
    cbn in Ha0. inversion Ha0; subst a0. inversion M; subst f. clear M Ha0. destruct (H []) as (l & K & _). cbn in K. unfold sphere_answers in K.
    assert (S : a_shape c = [3%nat]).
    { destruct (a_shape c) as [|n s]; cbn in E1; [discriminate|]. subst n. destruct s as [|m s]; [reflexivity|]. destruct m as [|[|m]], s; cbn in K; discriminate. }
    exists (arr_vec c). split; [|exact S]. unfold real_array in Rc. rewrite S in Rc. cbn in Rc. unfold arr_vec, at_.
    destruct (a_data c) as [|x [|y [|z [|w l']]]]; cbn in *; try lia. reflexivity.
  - intros [v F]. destruct (C129_sphere_partial r c v t f [] F M ltac:(constructor) ltac:(constructor)) as (r' & v' & t' & _ & _ & _ & A).
    eauto.
Qed.
(** C129 fails for a centre given as the documented 3x1 column: it is accepted; one point gets
    three answers, three points get answers for other centres, any other number of points an error. *)
Theorem C129_column_refuted : forall r c v t, column3 c v -> 0 < r -> 0 < t ->
  exists f, make_sphere r c t = Ok f /\ (forall inside, ~ answers_right f inside) /\
    (forall pts, length pts <> 1%nat -> length pts <> 3%nat -> check_interior f pts = Err ValueError) /\
    (forall p, exists l, check_interior f [p] = Ok (Flags l) /\ length l = 3%nat) /\
    (forall p q s, exists l, check_interior f [p; q; s] = Ok (Flags l) /\
       Forall2 (fun x b => b = true <-> in_ball r (mkV (snd x) (snd x) (snd x)) t (fst x)) [(p, vx v); (q, vy v); (s, vz v)] l).
Proof.
  intros r c v t [D S] Hr Ht. exists (FSphere r c t).
  assert (M : make_sphere r c t = Ok (FSphere r c t)).
  { unfold make_sphere, check_center. rewrite (proj2 (check_sphere_radius_Ok r r)), (proj2 (check_tol_Ok t t)) by auto.
    unfold asize. rewrite S. reflexivity. }
  split; [exact M|]. split; [|split; [|split]].
  - intros inside H. assert (F : exists w, flat3 c w).
    { apply (C129_sphere_shapes r c t (FSphere r c t)); [unfold real_array; rewrite D, S; reflexivity|exact M|eauto]. }
    destruct F as (w & _ & S'). rewrite S in S'. discriminate.
  - intros pts N1 N3. cbn. unfold sphere_answers. rewrite S. destruct pts as [|p [|q [|s [|u pts]]]]; cbn in *; auto; lia.
  - intros p. eexists. cbn. unfold sphere_answers. rewrite S. split; reflexivity.
  - intros p q s. eexists. cbn. unfold sphere_answers. rewrite S. split; [reflexivity|]. unfold at_. rewrite D. cbn.
    repeat constructor; apply ball_right; auto.
Qed.
Example C129_column_wrong : exists f, make_sphere 1 (mkArr [3%nat; 1%nat] [0; 0; 5]) 1 = Ok f /\
  in_ball 1 (mkV 0 0 5) 1 (mkV 0 0 5) /\
  exists l, check_interior f [mkV 0 0 5; mkV 0 0 5; mkV 0 0 5] = Ok (Flags l) /\ Forall (fun b => b = false) l.
Proof.
  destruct (C129_column_refuted 1 (mkArr [3%nat; 1%nat] [0; 0; 5]) (mkV 0 0 5) 1) as (f & M & _ & _ & _ & H); [split; reflexivity|lra|lra|].
  exists f. split; [exact M|]. split.
  - unfold in_ball, dist. replace (vsub (mkV 0 0 5) (mkV 0 0 5)) with v0 by vring. rewrite norm_v0. lra.
  - destruct (H (mkV 0 0 5) (mkV 0 0 5) (mkV 0 0 5)) as (l & K & F). exists l. split; [exact K|].
    cbn in F. inversion F as [|? b0 ? ? F0 X0]; subst. inversion X0 as [|? b1 ? ? F1 X1]; subst. inversion X1 as [|? b2 ? ? F2 X2]; subst. inversion X2; subst.
    assert (K0 : forall x, 2 * 2 <= x -> ~ sqrt x < 1 + 1).
    { intros x Hx Hl. assert (0 <= sqrt x) by apply sqrt_pos. rewrite <- (sqrt_sqrt x) in Hx by lra. nra. }
    repeat constructor; match goal with |- ?b = false => destruct b; [|reflexivity] end; exfalso.
    + apply (K0 (dot (vsub (mkV 0 0 5) (mkV 0 0 0)) (vsub (mkV 0 0 5) (mkV 0 0 0)))); [vunfold; lra|]. exact (proj1 F0 eq_refl).
    + apply (K0 (dot (vsub (mkV 0 0 5) (mkV 0 0 0)) (vsub (mkV 0 0 5) (mkV 0 0 0)))); [vunfold; lra|]. exact (proj1 F1 eq_refl).
    + apply (K0 (dot (vsub (mkV 0 0 5) (mkV 5 5 5)) (vsub (mkV 0 0 5) (mkV 5 5 5)))); [vunfold; lra|]. exact (proj1 F2 eq_refl).
Qed.

(* ------------------------------------------------------------------ *)
(** * Planes *)
Lemma check_point_thin a : real_array a -> (exists d, long_axes (a_shape a) d /\ (length d <= 1)%nat) ->
  match check_point a with Ok x => asize a = 3%nat /\ flat3 x (arr_vec a) | Err _ => asize a <> 3%nat end.
Proof.
  intros Ra (d & L & N). unfold check_point. rewrite (squeeze_det _ _ L). assert (Z := long_size _ _ L). fold (asize a) in Z.
  destruct d as [|n [|m d]]; cbn in N, Z; [lia| |lia]. destruct (Nat.eqb_spec n 3) as [->|E]; [|lia].
  split; [lia|]. split; [|reflexivity]. cbn [a_data]. unfold real_array in Ra. fold (asize a) in Ra. rewrite Z in Ra. unfold arr_vec, at_.
  destruct (a_data a) as [|x [|y [|z [|w l]]]]; cbn in *; try lia. reflexivity.
Qed.
Lemma normal_read a : real_array a ->
  match check_normal_arr a with Ok n => exists w, direction a = Some w /\ n = vscale (/ norm w) w /\ eps < norm w | Err _ => direction a = None end.
Proof.
  intros Ra. destruct (three_read a Ra) as [T1 T2]. unfold check_normal_arr, direction. destruct (Nat.eqb_spec (asize a) 3) as [E|E]; cbn [negb].
  - rewrite (T1 E). unfold check_normal. destruct (Rlt_dec eps (norm (arr_vec a))) as [L|L].
    + rewrite (proj2 (Rltb_iff _ _) L). eauto.
    + rewrite (proj2 (Rltb_false _ _)) by lra. reflexivity.
  - rewrite (T2 E). reflexivity.
Qed.
Lemma plane_step n x v t o : 0 < t -> eps < norm n -> flat3 x v -> real_assign o -> thin_point o ->
  exists x', fst (assign_to (FPlane (vscale (/ norm n) n) x t) o) =
      FPlane (vscale (/ norm (update (asks_normal o) n)) (update (asks_normal o) n)) x' (update (asks_tol o) t) /\
  flat3 x' (update (asks_point o) v) /\ eps < norm (update (asks_normal o) n) /\ 0 < update (asks_tol o) t.
Proof.
  intros Ht Hn Hx RA TP. destruct o as [t'|r'|a|a|a|a|l]; cbn [asks_normal asks_tol asks_point update];
    try (exists x; cbn; split; [reflexivity|]; auto; fail).
  - exists x. cbn. unfold check_tol. destruct (Rlt_dec 0 t') as [L|L].
    + rewrite (proj2 (Rltb_iff 0 t') L). cbn. auto.
    + rewrite (proj2 (Rltb_false 0 t')) by lra. cbn. auto.
  - cbn in RA. inversion RA as [|? ? Ra _]; subst. pose proof (normal_read a Ra) as Q. exists x. cbn [assign_to].
    destruct (check_normal_arr a) as [m|e]; cbn [bind fst].
    + destruct Q as (w & -> & -> & L). cbn. auto.
    + rewrite Q. cbn. auto.
  - cbn in RA, TP. inversion RA as [|? ? Ra _]; subst. pose proof (check_point_thin a Ra TP) as Q. destruct (three_read a Ra) as [T1 T2]. cbn [assign_to].
    destruct (check_point a) as [y|e]; cbn [bind fst].
    + destruct Q as [E F]. rewrite (T1 E). cbn. exists y. auto.
    + rewrite (T2 Q). cbn. exists x. auto.
Qed.
(** C129, planes whose points have at most one axis longer than one: after any history of
    assignments the plane has the last accepted normal, point and tolerance, and gives one
    answer per point, the right one. *)
Theorem C129_plane_partial : forall n w x v t f h, real_array n -> direction n = Some w -> real_array x -> three_of x = Some v -> thin_point (AsPoint x) ->
  make_plane n x t = Ok f -> Forall real_assign h -> Forall thin_point h ->
  exists w' v' t', last_of asks_normal w h w' /\ last_of asks_point v h v' /\ last_of asks_tol t h t' /\
    answers_right (assigned f h) (in_half_space w' v' t').
Proof.
  intros n w x v t f h Rn Dn Rx Dx TPx M RA FC. unfold make_plane in M. do 3 inv_bind M.
  pose proof (normal_read n Rn) as Q. rewrite Ha in Q. destruct Q as (w0 & D0 & -> & L). rewrite Dn in D0. inversion D0; subst w0. clear D0.
  pose proof (check_point_thin x Rx TPx) as Q. rewrite Ha0 in Q. destruct Q as [E3 F]. destruct (three_read x Rx) as [T1 _]. rewrite (T1 E3) in Dx. inversion Dx; subst v. clear Dx T1.
  apply check_tol_Ok in Ha1 as [Ht ->]. inversion M; subst f. clear M.
  enough (E : exists w' v' t' x', last_of asks_normal w h w' /\ last_of asks_point (arr_vec x) h v' /\ last_of asks_tol t h t' /\
    assigned (FPlane (vscale (/ norm w) w) a0 t) h = FPlane (vscale (/ norm w') w') x' t' /\ flat3 x' v' /\ eps < norm w' /\ 0 < t').
  { destruct E as (w' & v' & t' & x' & L1 & L2 & L3 & E & F' & P1 & P2). exists w', v', t'. repeat (split; [assumption|]).
    apply (flags_right _ (plane_test (vscale (/ norm w') w') t' v')).
    - intros pts. rewrite E. cbn. unfold plane_answers. destruct (three_of_flat _ _ F') as (_ & A & _). destruct F' as [_ S]. rewrite S, A. reflexivity.
    - intros p. apply half_right. pose proof eps_pos. lra. }
  induction h as [|o h IH] using rev_ind.
  - exists w, (arr_vec x), t, a0. repeat split; auto; try constructor; apply F.
  - apply Forall_app in RA as [RA RO]. apply Forall_app in FC as [FC FO]. inversion RO; inversion FO; subst.
    destruct (IH RA FC) as (w' & v' & t' & x' & L1 & L2 & L3 & E & F' & P1 & P2).
    unfold assigned in *. rewrite fold_left_app, E. cbn [fold_left].
    destruct (plane_step w' x' v' t' o) as (c2 & E2 & F2 & Q1 & Q2); auto.
    do 3 eexists. exists c2. split; [apply last_update, L1|]. split; [apply last_update, L2|]. split; [apply last_update, L3|]. auto.
Qed.
(** a plane whose accepted point has two or more axes longer than one answers for no solid at all *)
Theorem C129_plane_shapes_refuted : forall n x t f k d, long_axes (a_shape x) (3%nat :: k :: d) -> make_plane n x t = Ok f ->
  forall inside, ~ answers_right f inside.
Proof.
  intros n x t f k d L M inside H. unfold make_plane in M. do 3 inv_bind M. unfold check_point in Ha0. rewrite (squeeze_det _ _ L) in Ha0. cbn in Ha0.
  inversion Ha0; subst a0. inversion M; subst f. destruct (H []) as (l & K & _). cbn [check_interior] in K. unfold plane_answers in K. cbn [a_shape] in K.
  destruct (negb _); [discriminate|].
  destruct k as [|[|[|[|k]]]], d as [|k' d]; cbn in K; try discriminate;
  match goal with K : (if ?b then _ else _) = _ |- _ => destruct b; discriminate end.
Qed.
(** what such a plane answers when its point is a table of three points: about one test point,
    one answer for each of the three planes; about three, the i-th for the i-th plane *)
Theorem C129_plane_table : forall n w x0 x1 x2 t f, real_array n -> direction n = Some w ->
  make_plane n (mkArr [3%nat; 3%nat] (concat (map (fun x => [vx x; vy x; vz x]) [x0; x1; x2]))) t = Ok f ->
  (forall p, exists l, check_interior f [p] = Ok (Flags l) /\ Forall2 (fun x b => b = true <-> in_half_space w x t p) [x0; x1; x2] l) /\
  (forall p0 p1 p2, exists b0 b1 b2, check_interior f [p0; p1; p2] = Ok (Flags [b0; b1; b2]) /\
    (b0 = true <-> in_half_space w x0 t p0) /\ (b1 = true <-> in_half_space w x1 t p1) /\ (b2 = true <-> in_half_space w x2 t p2)) /\
  (forall pts, length pts <> 1%nat -> length pts <> 3%nat -> check_interior f pts = Err ValueError).
Proof.
  intros n w [a0 b0 c0] [a1 b1 c1] [a2 b2 c2] t f Rn Dn M. unfold make_plane in M. do 3 inv_bind M.
  pose proof (normal_read n Rn) as Q. rewrite Ha in Q. destruct Q as (w0 & D0 & -> & L). rewrite Dn in D0. inversion D0; subst w0. clear D0.
  cbn in Ha0. inversion Ha0; subst a3. apply check_tol_Ok in Ha1 as [Ht ->]. inversion M; subst f. clear M.
  assert (HR : forall x p, plane_test (vscale (/ norm w) w) t x p = true <-> in_half_space w x t p) by (intros; apply half_right; pose proof eps_pos; lra).
  split; [|split].
  - intros p. eexists. split; [reflexivity|]. cbn [map]. repeat constructor; apply HR.
  - intros p0 p1 p2. do 3 eexists. split; [reflexivity|]. repeat split; apply HR.
  - intros [|p [|q [|r [|s l]]]] N1 N3; cbn in N1, N3; try lia; reflexivity.
Qed.
Example C129_plane_accepted : exists f, make_plane (mkArr [3%nat] [0; 0; 1]) (mkArr [3%nat; 3%nat] [0; 0; 0; 0; 0; 0; 0; 0; 0]) 1 = Ok f /\
  long_axes [3%nat; 3%nat] [3%nat; 3%nat] /\ check_interior f [v0; v0] = Err ValueError /\ (exists l, check_interior f [v0] = Ok (Flags l) /\ length l = 3%nat).
Proof.
  assert (N1 : norm (mkV 0 0 1) = 1) by (apply dot_unit; vring).
  exists (FPlane (vscale (/ norm (mkV 0 0 1)) (mkV 0 0 1)) (mkArr [3%nat; 3%nat] [0; 0; 0; 0; 0; 0; 0; 0; 0]) 1).
  split; [|split; [repeat constructor; lia|split; [reflexivity|eexists; split; reflexivity]]].
  unfold make_plane, check_normal_arr. cbn [asize a_shape fold_right Nat.mul Nat.add Nat.eqb negb].
  change (arr_vec (mkArr [3%nat] [0; 0; 1])) with (mkV 0 0 1).
  rewrite (proj2 (check_normal_Ok (mkV 0 0 1) (vscale (/ norm (mkV 0 0 1)) (mkV 0 0 1)))); [|split; [pose proof eps_small; rewrite N1; lra|reflexivity]].
  rewrite (proj2 (check_tol_Ok 1 1)) by (split; [lra|reflexivity]). reflexivity.
Qed.

(* ------------------------------------------------------------------ *)
(** * Cylinders *)
Lemma reshape_read a : real_array a -> match reshape3 a with Ok v => three_of a = Some v | Err e => three_of a = None /\ e = ValueError end.
Proof.
  intros Ra. destruct (three_read a Ra) as [T1 T2]. unfold reshape3. destruct (Nat.eqb_spec (asize a) 3); auto.
Qed.
Lemma axis_read v : match check_axis v with Ok n => n = vscale (/ norm v) v /\ eps < norm v | Err _ => norm v <= eps end.
Proof.
  unfold check_axis. destruct (Rleb (norm v) eps) eqn:E; [apply Rleb_iff in E; exact E|].
  split; [reflexivity|]. destruct (Rle_dec (norm v) eps) as [L|L]; [|lra]. rewrite (proj2 (Rleb_iff _ _) L) in E. discriminate.
Qed.
Lemma cyl_len_read x : check_cyl_len x = if Rle_dec eps x then Ok x else Err ValueError.
Proof.
  unfold check_cyl_len. destruct (Rle_dec eps x).
  - rewrite (proj2 (Rltb_false _ _)) by lra. reflexivity.
  - rewrite (proj2 (Rltb_iff _ _)) by lra. reflexivity.
Qed.
Lemma cyl_step a x r l t o : eps < norm a -> eps <= r -> eps <= l -> 0 < t -> real_assign o ->
  fst (assign_to (FCyl (mkCyl (vscale (/ norm a) a) x r l t)) o) =
    FCyl (mkCyl (vscale (/ norm (update (asks_axis o) a)) (update (asks_axis o) a)) (update (asks_point o) x)
                (update (asks_cyl_radius o) r) (update (asks_length o) l) (update (asks_tol o) t)) /\
  eps < norm (update (asks_axis o) a) /\ eps <= update (asks_cyl_radius o) r /\ eps <= update (asks_length o) l /\ 0 < update (asks_tol o) t.
Proof.
  intros Ha Hr Hl Ht RA. destruct o as [t'|r'|b|b|b|b|l']; cbn [asks_axis asks_tol asks_point asks_cyl_radius asks_length update];
    try (cbn; split; [reflexivity|]; auto; fail).
  - cbn. unfold check_tol. destruct (Rlt_dec 0 t') as [L|L].
    + rewrite (proj2 (Rltb_iff 0 t') L). cbn. auto.
    + rewrite (proj2 (Rltb_false 0 t')) by lra. cbn. auto.
  - cbn [assign_to]. unfold cyl_set_radius. rewrite cyl_len_read. destruct (Rle_dec eps r'); cbn; auto.
  - cbn in RA. inversion RA as [|? ? Ra _]; subst. pose proof (reshape_read b Ra) as Q. cbn [assign_to].
    destruct (reshape3 b) as [v|e]; cbn [bind]; [rewrite Q|rewrite (proj1 Q)]; cbn; auto.
  - cbn in RA. inversion RA as [|? ? Ra _]; subst. pose proof (reshape_read b Ra) as Q. cbn [assign_to]. unfold direction.
    destruct (reshape3 b) as [v|e]; cbn [bind]; [rewrite Q|rewrite (proj1 Q); cbn; auto].
    unfold cyl_set_axis. pose proof (axis_read v) as W. destruct (check_axis v) as [n|e]; cbn [bind fst].
    + destruct W as [-> W]. destruct (Rlt_dec eps (norm v)); [|lra]. cbn. auto.
    + destruct (Rlt_dec eps (norm v)); [lra|]. cbn. auto.
  - cbn [assign_to]. unfold cyl_set_length. rewrite cyl_len_read. destruct (Rle_dec eps l'); cbn; auto.
Qed.
(** C129 for cylinders, arrays of any shape: after any history of assignments the cylinder
    has the last accepted axis, point, radius, length and tolerance, and gives one answer
    per point, the right one. *)
Theorem C129_cylinder : forall b a y x r l t f h, real_array b -> direction b = Some a -> real_array y -> three_of y = Some x ->
  make_cylinder b y r l t = Ok f -> Forall real_assign h ->
  exists a' x' r' l' t', last_of asks_axis a h a' /\ last_of asks_point x h x' /\ last_of asks_cyl_radius r h r' /\
    last_of asks_length l h l' /\ last_of asks_tol t h t' /\ answers_right (assigned f h) (in_rod a' x' r' l' t').
Proof.
  intros b a y x r l t f h Rb Db Ry Dy M RA. unfold make_cylinder in M. do 6 inv_bind M.
  pose proof (reshape_read b Rb) as Q. rewrite Ha in Q. unfold direction in Db. rewrite Q in Db. destruct (Rlt_dec eps (norm a0)) as [Ln|]; [|discriminate]. inversion Db; subst a0. clear Db Q Ha.
  pose proof (reshape_read y Ry) as Q. rewrite Ha1 in Q. rewrite Dy in Q. inversion Q; subst a2. clear Q Ha1.
  apply check_axis_Ok in Ha0 as [_ ->]. apply check_cyl_len_Ok in Ha2 as [Hr ->]. apply check_cyl_len_Ok in Ha3 as [Hl ->]. apply check_tol_Ok in Ha4 as [Ht ->].
  inversion M; subst f. clear M.
  enough (E : exists a' x' r' l' t', last_of asks_axis a h a' /\ last_of asks_point x h x' /\ last_of asks_cyl_radius r h r' /\
    last_of asks_length l h l' /\ last_of asks_tol t h t' /\
    assigned (FCyl (mkCyl (vscale (/ norm a) a) x r l t)) h = FCyl (mkCyl (vscale (/ norm a') a') x' r' l' t') /\ eps < norm a' /\ eps <= r' /\ eps <= l' /\ 0 < t').
  { destruct E as (a' & x' & r' & l' & t' & L1 & L2 & L3 & L4 & L5 & E & P1 & P2 & P3 & P4). exists a', x', r', l', t'. repeat (split; [assumption|]).
    apply (flags_right _ (cyl_interior (mkCyl (vscale (/ norm a') a') x' r' l' t'))).
    - intros pts. rewrite E. reflexivity.
    - intros p. apply rod_right; auto. }
  induction h as [|o h IH] using rev_ind.
  - exists a, x, r, l, t. repeat split; auto; constructor.
  - apply Forall_app in RA as [RA RO]. inversion RO; subst.
    destruct (IH RA) as (a' & x' & r' & l' & t' & L1 & L2 & L3 & L4 & L5 & E & P1 & P2 & P3 & P4).
    unfold assigned in *. rewrite fold_left_app, E. cbn [fold_left].
    destruct (cyl_step a' x' r' l' t' o) as (E2 & Q1 & Q2 & Q3 & Q4); auto.
    do 5 eexists. split; [apply last_update, L1|]. split; [apply last_update, L2|]. split; [apply last_update, L3|].
    split; [apply last_update, L4|]. split; [apply last_update, L5|]. split; [exact E2|]. auto.
Qed.

(* ------------------------------------------------------------------ *)
(** * Refusals *)
(** an assignment that raises leaves the object as it was *)
Theorem C129_refused_unchanged : forall f o f' e, assign_to f o = (f', Err e) -> f' = f.
Proof.
  intros f o f' e H. destruct f, o; cbn in H;
  repeat match type of H with context [match ?r with Ok _ => _ | Err _ => _ end] => destruct r; cbn in H end; congruence.
Qed.
(** which centres and points are refused, and how *)
Theorem C129_refusals : forall a,
  (forall r c t, snd (assign_to (FSphere r c t) (AsCenter a)) = Ok tt <->
     fold_right Nat.mul 1%nat (a_shape a) = 3%nat /\ exists s, a_shape a = 3%nat :: s) /\
  (forall n x t, snd (assign_to (FPlane n x t) (AsPoint a)) = Ok tt <-> exists d, long_axes (a_shape a) (3%nat :: d)) /\
  (forall n x t, snd (assign_to (FPlane n x t) (AsPoint a)) = Err IndexError <-> long_axes (a_shape a) []) /\
  (forall c, snd (assign_to (FCyl c) (AsPoint a)) = Ok tt <-> fold_right Nat.mul 1%nat (a_shape a) = 3%nat).
Proof.
  intros a. assert (LQ := squeeze_axes (a_shape a)). repeat split.
  - cbn in *. unfold check_center, asize in H. destruct (Nat.eqb_spec (fold_right Nat.mul 1%nat (a_shape a)) 3); cbn in H; [auto|discriminate].
  - cbn in *. unfold check_center, asize in H. destruct (Nat.eqb_spec (fold_right Nat.mul 1%nat (a_shape a)) 3); cbn in H; [|discriminate].
    destruct (Nat.eqb_spec (hd 0%nat (a_shape a)) 3) as [K|K]; cbn in H; [|discriminate]. destruct (a_shape a) as [|m s]; cbn in K; [lia|]. subst m. eauto.
  - intros [E [s S]]. cbn. unfold check_center, asize. rewrite E, S. reflexivity.
  - intros H. cbn in H. unfold check_point in H. destruct (squeeze (a_shape a)) as [|m s]; [discriminate|]. destruct (Nat.eqb_spec m 3) as [->|]; [eauto|discriminate].
  - intros [d L]. cbn. unfold check_point. rewrite (squeeze_det _ _ L). reflexivity.
  - intros H. cbn in H. unfold check_point in H. destruct (squeeze (a_shape a)) as [|m s]; [exact LQ|]. destruct (Nat.eqb m 3); discriminate.
  - intros L. cbn. unfold check_point. rewrite (squeeze_det _ _ L). reflexivity.
  - intros H. cbn in H. unfold reshape3, asize in H. destruct (Nat.eqb_spec (fold_right Nat.mul 1%nat (a_shape a)) 3); [auto|discriminate].
  - intros H. cbn. unfold reshape3, asize. rewrite H. reflexivity.
Qed.
Example C129_nonvacuous :
  let c := mkArr [3%nat] [1; 2; 3] in let h := [AsCenter (mkArr [3%nat] [4; 5; 6]); AsRadius (-1); AsCenter (mkArr [4%nat] [0; 0; 0; 0]); AsTol 2] in
  (exists f, make_sphere 1 c 1 = Ok f) /\ flat3 c (mkV 1 2 3) /\ Forall real_assign h /\ Forall flat_center h /\
  last_of asks_center (mkV 1 2 3) h (mkV 4 5 6) /\
  long_axes [1%nat; 3%nat; 1%nat] [3%nat] /\ thin_point (AsPoint (mkArr [1%nat; 3%nat; 1%nat] [7; 8; 9])).
Proof.
  cbv zeta. assert (L : long_axes [1%nat; 3%nat; 1%nat] [3%nat]) by (repeat constructor; lia).
  split.
  { eexists. unfold make_sphere. rewrite (proj2 (check_sphere_radius_Ok 1 1)), (proj2 (check_tol_Ok 1 1)) by (split; [lra|reflexivity]). reflexivity. }
  split; [split; reflexivity|]. split; [repeat constructor|]. split; [repeat constructor|].
  split; [|split; [exact L|exists [3%nat]; split; [exact L|cbn; lia]]].
  apply (last_keep asks_center _ [_; _; _] (AsTol 2)); [|reflexivity].
  apply (last_keep asks_center _ [_; _]); [|reflexivity].
  apply (last_keep asks_center _ [_]); [|reflexivity].
  eapply (last_set asks_center _ []); [constructor|reflexivity].
Qed.
