(** Surfaces with parameters that are not numbers (C130). *)
From Coq Require Import Reals List Bool Lra Lia.
From Verif.Model Require Import Base Vec Algebraic AlgNan.
From Verif.Spec Require Import Geometry AlgSpec AlgNanSpec.
From Verif.Proofs Require Import VecFacts VolumeFacts AlgFacts.
From Verif.Props Require Import AlgebraicProps.
Import ListNotations.
Open Scope R_scope.

(* ------------------------------------------------------------------ *)
(** * NaN spreads *)
Lemma nan_add_l b : xadd NaN b = NaN. Proof. reflexivity. Qed.
Lemma nan_add_r a : xadd a NaN = NaN. Proof. destruct a; reflexivity. Qed.
Lemma nan_mul_l b : xmul NaN b = NaN. Proof. reflexivity. Qed.
Lemma nan_mul_r a : xmul a NaN = NaN. Proof. destruct a; reflexivity. Qed.
Lemma nan_sub_l b : xsub NaN b = NaN. Proof. reflexivity. Qed.
Lemma nan_sub_r a : xsub a NaN = NaN. Proof. apply nan_add_r. Qed.
Lemma nan_lt_l b : xlt NaN b = false. Proof. reflexivity. Qed.
Lemma nan_lt_r a : xlt a NaN = false. Proof. destruct a; reflexivity. Qed.
Lemma nan_div_l b : xdiv NaN b = NaN. Proof. reflexivity. Qed.
Lemma nan_div_r a : xdiv a NaN = NaN. Proof. destruct a; reflexivity. Qed.
Ltac nan := cbn [xx xy xz]; repeat first [rewrite nan_add_l | rewrite nan_add_r | rewrite nan_mul_l | rewrite nan_mul_r | rewrite nan_sub_l | rewrite nan_sub_r
  | rewrite nan_div_l | rewrite nan_div_r | rewrite nan_lt_l | rewrite nan_lt_r]; try reflexivity.
Definition has_nan (v : xvec) : Prop := In NaN (entries v).
Lemma has_nan_cases v : has_nan v -> xx v = NaN \/ xy v = NaN \/ xz v = NaN.
Proof. intros [H|[H|[H|[]]]]; auto. Qed.
Lemma xdot_nan_l a b : has_nan a -> xdot a b = NaN.
Proof. intros H. apply has_nan_cases in H as [H|[H|H]]; unfold xdot; rewrite H; nan. Qed.
Lemma xdot_nan_r a b : has_nan b -> xdot a b = NaN.
Proof. intros H. apply has_nan_cases in H as [H|[H|H]]; unfold xdot; rewrite H; nan. Qed.
Lemma xnorm_nan a : has_nan a -> xnorm a = NaN.
Proof. intros H. unfold xnorm. rewrite xdot_nan_l by auto. reflexivity. Qed.
Lemma xvsub_nan_l a b : has_nan a -> has_nan (xvsub a b).
Proof. intros H. apply has_nan_cases in H as [H|[H|H]]; unfold has_nan, xvsub, entries; rewrite H; nan; cbn; auto. Qed.
Lemma xvsub_nan_r a b : has_nan b -> has_nan (xvsub a b).
Proof. intros H. apply has_nan_cases in H as [H|[H|H]]; unfold has_nan, xvsub, entries; rewrite H; nan; cbn; auto. Qed.
Lemma xcross_nan_l a b : has_nan a -> has_nan (xcross a b).
Proof. intros H. apply has_nan_cases in H as [H|[H|H]]; unfold has_nan, xcross, entries; rewrite H; nan; cbn; auto. Qed.
Lemma xcross_nan_r a b : has_nan b -> has_nan (xcross a b).
Proof. intros H. apply has_nan_cases in H as [H|[H|H]]; unfold has_nan, xcross, entries; rewrite H; nan; cbn; auto. Qed.
Lemma xover_nan a n : has_nan a -> has_nan (xover a n).
Proof. intros H. apply has_nan_cases in H as [H|[H|H]]; unfold has_nan, xover, entries; rewrite H; nan; cbn; auto. Qed.
Lemma square_not_nan a : a <> NaN -> xmul a a = PInf \/ exists r, 0 <= r /\ xmul a a = Fin r.
Proof. intros H. destruct a; cbn; auto; [|congruence]. right. exists (r * r). split; [nra|reflexivity]. Qed.
(** an infinite entry: the norm is infinite (or NaN), and the entry over it is NaN *)
Lemma xnorm_inf a : (exists x, In x (entries a) /\ infinite x) -> xnorm a = PInf \/ xnorm a = NaN.
Proof.
  intros (x & I & F). destruct a as [x0 x1 x2]. cbn in I. unfold xnorm, xdot. cbn [xx xy xz].
  assert (S : forall z, infinite z -> xmul z z = PInf) by (intros z [->| ->]; reflexivity).
  assert (D : forall z, xmul z z = NaN \/ xmul z z = PInf \/ exists r, xmul z z = Fin r).
  { intros []; cbn; eauto. }
  destruct I as [->|[->|[->|[]]]]; rewrite (S _ F).
  - destruct (D x1) as [->|[->|[r ->]]], (D x2) as [->|[->|[r' ->]]]; cbn; auto.
  - destruct (D x0) as [->|[->|[r ->]]], (D x2) as [->|[->|[r' ->]]]; cbn; auto.
  - destruct (D x0) as [->|[->|[r ->]]], (D x1) as [->|[->|[r' ->]]]; cbn; auto.
Qed.
Lemma xover_inf a : (exists x, In x (entries a) /\ infinite x) -> has_nan (xover a (xnorm a)).
Proof.
  intros H. destruct (xnorm_inf a H) as [N|N]; rewrite N.
  - destruct H as (x & I & F). destruct a as [x0 x1 x2]. unfold has_nan, xover, entries in *. cbn in *. destruct I as [->|[->|[->|[]]]]; destruct F as [->| ->]; cbn; auto.
  - unfold has_nan, xover, entries. cbn. rewrite nan_div_r. auto.
Qed.
Definition stored (a : xalg) : list xnum :=
  match a with XSphere r c t => r :: t :: entries c | XPlane n x t => t :: entries n ++ entries x | XCyl a x r l t => r :: l :: t :: entries a ++ entries x end.
Lemma stored_nan_empty a p : In NaN (stored a) -> x_interior a p = false.
Proof.
  intros H. destruct a as [r c t|n x t|a x r l t]; cbn [stored] in H; cbn [x_interior].
  - destruct H as [->|[->|H]]; [nan|nan|]. rewrite xdot_nan_l by (apply xvsub_nan_r; exact H). reflexivity.
  - destruct H as [->|H]; [nan|]. apply in_app_or in H as [H|H].
    + rewrite xdot_nan_r by exact H. reflexivity.
    + rewrite (xdot_nan_l x n) by exact H. nan.
  - destruct H as [->|[->|[->|H]]]; [nan|nan; apply andb_false_r|nan|]. apply in_app_or in H as [H|H].
    + rewrite (xnorm_nan (xcross (xvsub p x) a)) by (apply xcross_nan_r; exact H). reflexivity.
    + rewrite (xnorm_nan (xcross (xvsub p x) a)) by (apply xcross_nan_l, xvsub_nan_r; exact H). reflexivity.
Qed.

(* ------------------------------------------------------------------ *)
(** * C130 *)
(** an object made with a NaN anywhere contains no point, nor does one whose direction has
    an infinite component *)
Theorem C130_empty_partial : forall k a, construct k = Ok a -> In NaN (given k) -> forall p, x_interior a p = false.
Proof.
  intros k a H I p. apply stored_nan_empty. destruct k as [r c t|n x t|d x r l t]; cbn [construct given] in *.
  - unfold x_sphere, x_sphere_radius, x_tol in H. destruct (xgt r _); [|discriminate]. cbn [bind] in H. destruct (xgt t _); [|discriminate]. inversion H. exact I.
  - unfold x_plane, x_normal, x_tol in H. destruct (xgt (xnorm n) _) eqn:G; [|discriminate]. cbn [bind] in H. destruct (xgt t _); [|discriminate]. inversion H; subst a. cbn [stored].
    destruct I as [I|I]; [left; exact I|right]. apply in_app_or in I as [I|I]; apply in_or_app; [left|right; exact I]. apply xover_nan. exact I.
  - unfold x_cylinder, x_axis, x_cyl_len, x_tol in H. destruct (xle _ _); [discriminate|]. cbn [bind] in H. destruct (xlt r _); [discriminate|]. cbn [bind] in H.
    destruct (xlt l _); [discriminate|]. cbn [bind] in H. destruct (xgt t _); [|discriminate]. inversion H; subst a. cbn [stored].
    destruct I as [I|[I|[I|I]]]; [left; exact I|right; left; exact I|right; right; left; exact I|right; right; right].
    apply in_app_or in I as [I|I]; apply in_or_app; [left|right; exact I]. apply xover_nan. exact I.
Qed.
Theorem C130_infinite_direction_partial : forall k a, construct k = Ok a ->
  (match k with CallSphere _ _ _ => False | CallPlane n _ _ => exists x, In x (entries n) /\ infinite x | CallCyl d _ _ _ _ => exists x, In x (entries d) /\ infinite x end) ->
  forall p, x_interior a p = false.
Proof.
  intros k a H I p. apply stored_nan_empty. destruct k as [r c t|n x t|d x r l t]; cbn [construct] in *; [contradiction| |].
  - unfold x_plane, x_normal, x_tol in H. destruct (xgt (xnorm n) _) eqn:G; [|discriminate]. cbn [bind] in H. destruct (xgt t _); [|discriminate]. inversion H; subst a. cbn [stored].
    right. apply in_or_app. left. apply xover_inf. exact I.
  - unfold x_cylinder, x_axis, x_cyl_len, x_tol in H. destruct (xle _ _); [discriminate|]. cbn [bind] in H. destruct (xlt r _); [discriminate|]. cbn [bind] in H.
    destruct (xlt l _); [discriminate|]. cbn [bind] in H. destruct (xgt t _); [|discriminate]. inversion H; subst a. cbn [stored].
    right; right; right. apply in_or_app. left. apply xover_inf. exact I.
Qed.
(** NaN is refused as a tolerance, as the radius of a sphere and in the normal of a plane *)
Theorem C130_refused_partial : 
  (forall c t, x_sphere NaN c t = Err ValueError) /\
  (forall r c, exists e, x_sphere r c NaN = Err e) /\ (forall n x, exists e, x_plane n x NaN = Err e) /\ (forall a x r l, exists e, x_cylinder a x r l NaN = Err e) /\
  (forall n x t, In NaN (entries n) -> x_plane n x t = Err ValueError).
Proof.
  repeat split.
  - intros r c. unfold x_sphere. destruct (x_sphere_radius r); cbn; eauto.
  - intros n x. unfold x_plane. destruct (x_normal n); cbn; eauto.
  - intros a x r l. unfold x_cylinder. destruct (x_axis a); cbn [bind]; [|eauto]. destruct (x_cyl_len r); cbn [bind]; [|eauto]. destruct (x_cyl_len l); cbn; eauto.
  - intros n x t H. unfold x_plane, x_normal. rewrite xnorm_nan by exact H. reflexivity.
Qed.
(** but accepted as the centre of a sphere, as the point of a plane and as any parameter
    of a cylinder but its tolerance *)
Lemma axis_ok_unit : x_axis (pt (mkV 0 0 1)) = Ok (xover (pt (mkV 0 0 1)) (xnorm (pt (mkV 0 0 1)))).
Proof.
  unfold x_axis. replace (xnorm (pt (mkV 0 0 1))) with (Fin 1).
  - cbn [xle]. destruct (Rleb 1 eps) eqn:E; [|reflexivity]. apply Rleb_iff in E. pose proof eps_small. lra.
  - unfold xnorm, xdot. cbn. f_equal. symmetry. replace (0 * 0 + 0 * 0 + 1 * 1) with 1 by ring. apply sqrt_1.
Qed.
Theorem C130_accepted_refuted : forall v, In NaN (entries v) ->
  (exists a, x_sphere (Fin 1) v (Fin 1) = Ok a) /\ (exists a, x_plane (pt (mkV 0 0 1)) v (Fin 1) = Ok a) /\
  (exists a, x_cylinder v (pt v0) (Fin 1) (Fin 1) (Fin 1) = Ok a) /\ (exists a, x_cylinder (pt (mkV 0 0 1)) v (Fin 1) (Fin 1) (Fin 1) = Ok a) /\
  (exists a, x_cylinder (pt (mkV 0 0 1)) (pt v0) NaN (Fin 1) (Fin 1) = Ok a) /\ (exists a, x_cylinder (pt (mkV 0 0 1)) (pt v0) (Fin 1) NaN (Fin 1) = Ok a).
Proof.
  intros v H. pose proof eps_small as ES.
  assert (T : x_tol (Fin 1) = Ok (Fin 1)) by (unfold x_tol; cbn; rewrite (proj2 (Rltb_iff 0 1)) by lra; reflexivity).
  assert (L : x_cyl_len (Fin 1) = Ok (Fin 1)) by (unfold x_cyl_len; cbn; rewrite (proj2 (Rltb_false 1 eps)) by lra; reflexivity).
  repeat split.
  - unfold x_sphere, x_sphere_radius. cbn. rewrite (proj2 (Rltb_iff 0 1)) by lra. cbn [bind]. rewrite T. cbn. eauto.
  - unfold x_plane, x_normal. replace (xnorm (pt (mkV 0 0 1))) with (Fin 1).
    + cbn. rewrite (proj2 (Rltb_iff eps 1)) by lra. cbn [bind]. rewrite T. cbn. eauto.
    + unfold xnorm, xdot. cbn. f_equal. symmetry. replace (0 * 0 + 0 * 0 + 1 * 1) with 1 by ring. apply sqrt_1.
  - unfold x_cylinder, x_axis. rewrite xnorm_nan by exact H. cbn [xle bind]. rewrite L, T. cbn. eauto.
  - unfold x_cylinder. rewrite axis_ok_unit. cbn [bind]. rewrite L. cbn [bind]. rewrite T. cbn. eauto.
  - unfold x_cylinder. rewrite axis_ok_unit. cbn [bind]. rewrite L. cbn [x_cyl_len xlt bind]. rewrite T. cbn. eauto.
  - unfold x_cylinder. rewrite axis_ok_unit. cbn [bind]. rewrite L. cbn [x_cyl_len xlt bind]. rewrite T. cbn. eauto.
Qed.

(** finite parameters: the object of real numbers *)
Lemma pt_sub p q : xvsub (pt p) (pt q) = pt (vsub p q).
Proof. unfold xvsub, pt, xsub. cbn. destruct p, q; cbn. reflexivity. Qed.
Lemma pt_dot p q : xdot (pt p) (pt q) = Fin (dot p q). Proof. destruct p, q. reflexivity. Qed.
Lemma pt_norm p : xnorm (pt p) = Fin (norm p). Proof. unfold xnorm. rewrite pt_dot. reflexivity. Qed.
Lemma pt_cross p q : xcross (pt p) (pt q) = pt (cross p q). Proof. destruct p, q. reflexivity. Qed.
Lemma pt_over p n : n <> 0 -> xover (pt p) (Fin n) = pt (vscale (/ n) p).
Proof. intros H. destruct p. unfold xover, pt, vscale. cbn. f_equal; f_equal; unfold Rdiv; ring. Qed.
Theorem C130_finite : forall k r, real_call k r ->
  match r with
  | Err e => construct k = Err e
  | Ok s => exists a, construct k = Ok a /\ forall p, x_interior a (pt p) = alg_interior s p
  end.
Proof.
  intros k r [(ra & c & t & -> & ->)|[(n & x & t & -> & ->)|(d & x & ra & l & t & -> & ->)]]; cbn [construct].
  - unfold x_sphere, new_sphere, x_sphere_radius, check_sphere_radius, x_tol, check_tol. cbn [xgt xlt].
    destruct (Rltb 0 ra); [|reflexivity]. cbn [bind]. destruct (Rltb 0 t); [|reflexivity]. cbn [bind].
    eexists. split; [reflexivity|]. intros p. cbn [x_interior alg_interior]. rewrite pt_sub, pt_dot. reflexivity.
  - unfold x_plane, new_plane, x_normal, check_normal, x_tol, check_tol. rewrite pt_norm. cbn [xgt xlt].
    destruct (Rltb eps (norm n)) eqn:E; [|reflexivity]. cbn [bind]. destruct (Rltb 0 t); [|reflexivity]. cbn [bind].
    apply Rltb_iff in E. pose proof eps_pos. rewrite pt_over by lra.
    eexists. split; [reflexivity|]. intros p. cbn [x_interior alg_interior]. rewrite !pt_dot. reflexivity.
  - unfold x_cylinder, new_cylinder, x_axis, check_axis, x_cyl_len, check_cyl_len, x_tol, check_tol. rewrite pt_norm. cbn [xgt xle xlt].
    destruct (Rleb (norm d) eps) eqn:E; [reflexivity|]. cbn [bind]. destruct (Rltb ra eps); [reflexivity|]. cbn [bind]. destruct (Rltb l eps); [reflexivity|]. cbn [bind].
    destruct (Rltb 0 t); [|reflexivity]. cbn [bind].
    assert (NZ : norm d <> 0).
    { intros Z. rewrite Z in E. rewrite (proj2 (Rleb_iff 0 eps)) in E; [discriminate|pose proof eps_pos; lra]. }
    rewrite pt_over by auto. eexists. split; [reflexivity|]. intros p. cbn [x_interior alg_interior]. rewrite pt_sub, pt_cross, pt_norm, pt_dot. reflexivity.
Qed.
(** an infinite radius or tolerance: all of space about a finite centre, nothing about any other *)
Theorem C130_infinite_sphere : forall r c t a, construct (CallSphere r c t) = Ok a -> r = PInf \/ t = PInf ->
  (Forall finite (entries c) -> forall p, x_interior a (pt p) = true) /\
  (~ Forall finite (entries c) -> forall p, x_interior a p = false).
Proof.
  intros r c t a H I. cbn in H. unfold x_sphere, x_sphere_radius, x_tol in H. destruct (xgt r _) eqn:Gr; [|discriminate]. cbn [bind] in H.
  destruct (xgt t _) eqn:Gt; [|discriminate]. inversion H; subst a. cbn [x_interior].
  assert (S : xmul (xadd r t) (xadd r t) = PInf).
  { destruct I as [->| ->]; [destruct t|destruct r]; cbn in *; try discriminate; reflexivity. }
  rewrite S. split.
  - intros F p. destruct c as [c0 c1 c2]. unfold entries in F. cbn in F. inversion F as [|? ? [a0 ->] F1]; subst. inversion F1 as [|? ? [a1 ->] F2]; subst. inversion F2 as [|? ? [a2 ->] _]; subst.
    reflexivity.
  - intros F p.
    assert (K : forall u v, ~ finite v -> xsub u v = NaN \/ infinite (xsub u v)).
    { unfold infinite. intros u v Hv. destruct v; [exfalso; apply Hv; exists r0; reflexivity|destruct u; cbn; auto|destruct u; cbn; auto|destruct u; cbn; auto]. }
    assert (D : forall z, xmul z z = NaN \/ xmul z z = PInf \/ exists q, xmul z z = Fin q) by (intros []; cbn; eauto).
    assert (Sq : forall z, z = NaN \/ infinite z -> xmul z z = NaN \/ xmul z z = PInf) by (intros z [->|[->| ->]]; cbn; auto).
    assert (Fd : forall v, finite v \/ ~ finite v) by (intros []; [left; eexists; reflexivity|right; intros [? ?]; discriminate ..]).
    destruct c as [c0 c1 c2]. unfold entries in F. cbn [xx xy xz] in F. unfold xdot, xvsub. cbn [xx xy xz].
    destruct (Fd c0) as [F0|F0]; [destruct (Fd c1) as [F1|F1]; [destruct (Fd c2) as [F2|F2]; [exfalso; apply F; repeat constructor; auto|]|]|].
    + destruct (Sq _ (K (xz p) c2 F2)) as [->| ->]; destruct (D (xsub (xx p) c0)) as [->|[->|[q ->]]], (D (xsub (xy p) c1)) as [->|[->|[q' ->]]]; reflexivity.
    + destruct (Sq _ (K (xy p) c1 F1)) as [->| ->]; destruct (D (xsub (xx p) c0)) as [->|[->|[q ->]]], (D (xsub (xz p) c2)) as [->|[->|[q' ->]]]; reflexivity.
    + destruct (Sq _ (K (xx p) c0 F0)) as [->| ->]; destruct (D (xsub (xy p) c1)) as [->|[->|[q ->]]], (D (xsub (xz p) c2)) as [->|[->|[q' ->]]]; reflexivity.
Qed.
Example C130_nonvacuous : exists a b, construct (CallCyl (pt (mkV 0 0 1)) (pt v0) NaN (Fin 1) (Fin 1)) = Ok a /\
  In NaN (given (CallCyl (pt (mkV 0 0 1)) (pt v0) NaN (Fin 1) (Fin 1))) /\
  construct (CallPlane (mkX PInf (Fin 0) (Fin 0)) (pt v0) (Fin 1)) = Ok b /\
  exists s, construct (CallSphere PInf (pt v0) (Fin 1)) = Ok s.
Proof.
  destruct (C130_accepted_refuted (mkX NaN (Fin 0) (Fin 0)) ltac:(left; reflexivity)) as (_ & _ & _ & _ & [a A] & _).
  exists a. eexists. split; [exact A|]. split; [left; reflexivity|].
  assert (T : x_tol (Fin 1) = Ok (Fin 1)) by (unfold x_tol; cbn; rewrite (proj2 (Rltb_iff 0 1)) by lra; reflexivity).
  split.
  - cbn [construct]. unfold x_plane, x_normal. cbn. rewrite T. reflexivity.
  - eexists. cbn [construct]. unfold x_sphere. cbn. rewrite T. reflexivity.
Qed.
