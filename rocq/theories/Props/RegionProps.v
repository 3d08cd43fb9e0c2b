(** The vertices returned for a region bounded by planes: C25. *)
From Coq Require Import Reals List ZArith Bool Lra Lia.
From Verif.Model Require Import Base Vec Algebraic Transform.
From Verif.Spec Require Import Geometry AlgSpec.
From Verif.Proofs Require Import VecFacts HullFacts.
From Verif.Props Require Import TransformProps RestProps.
Import ListNotations.
Open Scope R_scope.

(** the points behind every plane *)
Definition region (planes : list plane) (p : vec) : Prop :=
  Forall (fun pl => dot (vsub p (p_point pl)) (p_normal pl) <= 0) planes.
(** A solver for half-space intersections: for rows (n, d) of a bounded system
    n.q + d <= 0 the answer, if there is one, is a set of points whose hull is the
    solution set. *)
Definition solves (rows : list (vec * R * R)) (q : vec) : Prop :=
  Forall (fun row => let '(n, d, _) := row in dot n q + d <= 0) rows.
Definition exact_intersection (hs : list (vec * R * R) -> vec -> option (list vec)) : Prop :=
  forall rows x vs, (exists b, forall q, solves rows q -> norm q <= b) -> hs rows x = Some vs ->
    forall q, solves rows q <-> in_hull vs q.

Lemma solves_shift planes q :
  solves (map (bb_row (bb_shift planes)) planes) q <-> region planes (vsub q (bb_shift planes)).
Proof.
  unfold solves, region. rewrite Forall_map. generalize (bb_shift planes) as s. intros s.
  assert (E : forall pl, dot (p_normal pl) q + - dot (p_normal pl) (vadd (p_point pl) s) =
                         dot (vsub (vsub q s) (p_point pl)) (p_normal pl)).
  { intros pl. vring. }
  split; intros H; (eapply Forall_impl; [|exact H]); intros pl; cbn [bb_row]; rewrite E; auto.
Qed.
Lemma in_hull_shift vs s p : in_hull (map (fun v => vsub v s) vs) p <-> in_hull vs (vadd p s).
Proof.
  pose proof (in_hull_image (TTranslation (vopp s) false false) (TTranslation s false false) vs (vadd p s)) as H.
  cbn [apply_pt] in H.
  replace (vadd (vadd p s) (vopp s)) with p in H by vring.
  rewrite <- H by (intros; vring). erewrite map_ext; [reflexivity|]. intros; vring.
Qed.

(** When get_bounding_box of planes answers with status 0 and the region is bounded, the
    points it returns are the corners of the region: a point is behind every plane
    exactly if it lies in their convex hull. *)
Theorem C25_vertices_partial : forall lp hs planes vs,
  exact_intersection hs -> (forall rows, lp rows <> LPfail 0) ->
  (exists b, forall p, region planes p -> norm p <= b) ->
  bounding_box_planes lp hs planes = (vs, 0%Z) ->
  forall p, region planes p <-> in_hull vs p.
Proof.
  intros lp hs planes vs HX HL [b HB] H p. unfold bounding_box_planes in H.
  destruct (lp _) as [x|st] eqn:EL; [|inversion H; subst; exfalso; eapply HL; eauto].
  destruct (hs _ x) as [us|] eqn:EH; [|discriminate]. inversion H; subst vs; clear H.
  rewrite in_hull_shift. rewrite <- (HX _ _ _) by (try exact EH; exists (b + norm (bb_shift planes));
    intros q Hq; apply solves_shift in Hq; apply HB in Hq;
    pose proof (norm_triangle (vsub q (bb_shift planes)) (bb_shift planes)) as T;
    replace (vadd (vsub q (bb_shift planes)) (bb_shift planes)) with q in T by vring; lra).
  rewrite solves_shift. replace (vsub (vadd p (bb_shift planes)) (bb_shift planes)) with p by vring. tauto.
Qed.
(** The cube of side 2 about (-1, 0, 0), with a solver that knows it. *)
Definition cube_planes : list plane :=
  [mkPlane (mkV 1 0 0) (mkV 0 0 0) default_tol; mkPlane (mkV (-1) 0 0) (mkV (-2) 0 0) default_tol;
   mkPlane (mkV 0 1 0) (mkV 0 1 0) default_tol; mkPlane (mkV 0 (-1) 0) (mkV 0 (-1) 0) default_tol;
   mkPlane (mkV 0 0 1) (mkV 0 0 1) default_tol; mkPlane (mkV 0 0 (-1)) (mkV 0 0 (-1)) default_tol].
Definition cube_corners : list vec := corners (mkV (-2) (-1) (-1)) (mkV 2 0 0) (mkV 0 2 0) (mkV 0 0 2).
Definition row_dec (a b : vec * R * R) : {a = b} + {a <> b}.
Proof. decide equality; [apply Req_EM_T|]. decide equality; [apply Req_EM_T|]. decide equality; apply Req_EM_T. Defined.
Definition cube_rows : list (vec * R * R) := map (bb_row (bb_shift cube_planes)) cube_planes.
Definition cube_solver (rows : list (vec * R * R)) (x : vec) : option (list vec) :=
  if list_eq_dec row_dec rows cube_rows
  then Some (map (fun v => vadd v (bb_shift cube_planes)) cube_corners) else None.
Lemma cube_region p : region cube_planes p <-> in_hull cube_corners p.
Proof.
  unfold cube_corners. rewrite parallelepiped_hull. destruct p as [x y z]. split.
  - intros H. unfold region, cube_planes in H.
    repeat match goal with H : Forall _ (_ :: _) |- _ => inversion_clear H end.
    repeat match goal with H : dot _ _ <= 0 |- _ => unfold dot, vsub in H; cbn in H end.
    exists ((x + 2) / 2), ((y + 1) / 2), ((z + 1) / 2). split; [lra|]. split; [lra|]. split; [lra|].
    apply vec_eq; cbn; lra.
  - intros (a & b & c & Ha & Hb & Hc & E). injection E as -> -> ->.
    unfold region, cube_planes. repeat (apply Forall_cons; [unfold dot, vsub; cbn; lra|]). apply Forall_nil.
Qed.
Example C25_vertices_nonvacuous :
  exact_intersection cube_solver /\ (exists b, forall p, region cube_planes p -> norm p <= b) /\
  exists vs, bounding_box_planes (fun _ => LPok (mkV 1 1 1)) cube_solver cube_planes = (vs, 0%Z) /\ length vs = 8%nat.
Proof.
  split; [|split].
  - intros rows x vs _ H q. unfold cube_solver in H. destruct (list_eq_dec row_dec rows cube_rows) as [->|]; [|discriminate].
    injection H as <-. unfold cube_rows. rewrite solves_shift, cube_region.
    set (s := bb_shift cube_planes). pose proof (in_hull_shift (map (fun v => vadd v s) cube_corners) s (vsub q s)) as E.
    replace (vadd (vsub q s) s) with q in E by vring. rewrite <- E. rewrite map_map. rewrite (map_ext _ (fun v => v)) by (intros; vring). rewrite map_id. tauto.
  - exists 10. intros [x y z] H. unfold region, cube_planes in H.
    repeat match goal with H : Forall _ (_ :: _) |- _ => inversion_clear H end.
    repeat match goal with H : dot _ _ <= 0 |- _ => unfold dot, vsub in H; cbn in H end.
    unfold norm. replace 10 with (sqrt (10 * 10)) by (apply sqrt_square; lra). apply sqrt_le_1_alt. unfold dot. cbn. nra.
  - eexists. unfold bounding_box_planes. fold cube_rows. cbn beta iota zeta.
    unfold cube_solver. destruct (list_eq_dec row_dec cube_rows cube_rows) as [_|N]; [|exfalso; apply N; reflexivity].
    split; [reflexivity|]. rewrite !map_length. reflexivity.
Qed.
