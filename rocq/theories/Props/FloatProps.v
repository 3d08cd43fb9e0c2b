(** The interior tests in binary64 arithmetic: C106. *)
From Coq Require Import Reals List Bool ZArith Lra Lia Psatz.
From Flocq Require Import Core.
From Verif.Model Require Import Base Vec Algebraic Generator Volume Float.
From Verif.Spec Require Import AlgSpec FloatSpec.
From Verif.Proofs Require Import VecFacts VolumeFacts FloatFacts FloatCyl.
Import ListNotations.
Open Scope R_scope.

(** The ball test decides as exact arithmetic would, except within a relative
    distance of 2^-50 from the padded sphere. *)
Theorem C106_sphere_band : forall s p, / 2 ^ 400 <= s_radius s + s_tol s ->
  let rho := s_radius s + s_tol s in
  (dist p (s_center s) <= rho * (1 - / 2 ^ 50) -> f_sphere_interior s p = true) /\
  (rho * (1 + / 2 ^ 50) <= dist p (s_center s) -> f_sphere_interior s p = false).
Proof.
  intros s p H. assert (E : / 2 ^ 50 = 8 * ulp1) by (rewrite half50, ulp1_val; lra). rewrite E. apply f_sphere_band. exact H.
Qed.

(** The half-space test decides as exact arithmetic would, except within a few
    rounding errors of the terms of the two dot products. *)
Theorem C106_plane_band : forall dot1 dot2 pl p, accurate dot1 -> accurate dot2 ->
  let terms v := Rabs (vx v * vx (p_normal pl)) + Rabs (vy v * vy (p_normal pl)) + Rabs (vz v * vz (p_normal pl)) in
  6 * ulp1 * (terms p + terms (p_point pl)) + 32 * tiny
    < Rabs (dot (vsub p (p_point pl)) (p_normal pl) - p_tol pl) ->
  (f_plane_interior dot1 dot2 pl p = true <-> dot (vsub p (p_point pl)) (p_normal pl) < p_tol pl).
Proof.
  intros dot1 dot2 pl p H1 H2 terms H. pose proof (f_plane_err dot1 dot2 pl p H1 H2) as E.
  change (weight p (p_normal pl)) with (terms p) in E. change (weight (p_point pl) (p_normal pl)) with (terms (p_point pl)) in E.
  unfold f_plane_interior. rewrite Rltb_iff.
  replace (sdist_from_plane pl p) with (dot (vsub p (p_point pl)) (p_normal pl)) in E by (unfold sdist_from_plane, dot; vunfold; ring).
  apply Rabs_le_inv in E. unfold Rabs in H. destruct (Rcase_abs _) in H; split; intros; lra.
Qed.

Lemma within_mono : forall t t' a p, t <= t' -> within t a p -> within t' a p.
Proof.
  intros t t' a p L. destruct a as [s|pl|c]; cbn [within]; [lra|lra|].
  intros (k & H1 & H2 & H3). exists k. split; [exact H1|]. split; lra.
Qed.
(** Coordinates up to a million: no surface loses a point of its body (enlarged by half its
    tolerance), and none takes a point that is more than twice its tolerance away. *)
Theorem C106_surface : forall dot1 dot2 a p, accurate dot1 -> accurate dot2 -> moderate a -> vmid p ->
  (within (pad_of a / 2) a p -> f_alg_interior dot1 dot2 a p = true) /\
  (~ within (2 * pad_of a) a p -> f_alg_interior dot1 dot2 a p = false).
Proof.
  intros dot1 dot2 a p H1 H2 HM HP. destruct a as [s|pl|c]; cbn [f_alg_interior].
  - destruct HM as (MT & _ & MR). cbn [pad_of within] in *. rewrite big_val in *.
    assert (B : / 2 ^ 400 <= s_radius s + s_tol s).
    { apply Rle_trans with (/ 2 ^ 20). apply Rinv_le; [apply pow_lt; lra|apply Rle_pow; [lra|lia]]. replace (2 ^ 20) with 1048576 by lra. lra. }
    destruct (f_sphere_band s p B) as [S1 S2]. pose proof ulp1_val as U.
    assert (UR : 8 * ulp1 * (s_radius s + s_tol s) <= s_tol s / 2) by (rewrite U; lra). split.
    + intros H. apply S1. lra.
    + intros H. apply S2. lra.
  - destruct HM as (MT & (C1 & C2 & C3) & ML). destruct HP as (P1 & P2 & P3). cbn [pad_of within] in *. unfold mid in *. rewrite big_val in *. rewrite half50 in ML. apply Rabs_le_inv in ML.
    destruct (comp_norm (p_normal pl)) as (N1 & N2 & N3).
    assert (NN : forall x, x <= norm (p_normal pl) -> x <= 2) by (intros; lra). apply NN in N1, N2, N3.
    assert (W : forall v, Rabs (vx v) <= 1048576 -> Rabs (vy v) <= 1048576 -> Rabs (vz v) <= 1048576 -> weight v (p_normal pl) <= 6291456).
    { intros v V1 V2 V3. unfold weight. pose proof (mul_abs_le _ _ _ _ V1 N1). pose proof (mul_abs_le _ _ _ _ V2 N2). pose proof (mul_abs_le _ _ _ _ V3 N3). lra. }
    pose proof (W p P1 P2 P3) as W1. pose proof (W (p_point pl) C1 C2 C3) as W2.
    pose proof (f_plane_err dot1 dot2 pl p H1 H2) as E.
    replace (sdist_from_plane pl p) with (dot (vsub p (p_point pl)) (p_normal pl)) in E by (unfold sdist_from_plane, dot; vunfold; ring).
    pose proof (tiny_le 60 ltac:(lia)) as T. replace (2 ^ 60) with 1152921504606846976 in T by lra. rewrite ulp1_val in E. apply Rabs_le_inv in E.
    unfold f_plane_interior. split; intros H; [apply Rltb_iff|apply Rltb_false]; lra.
  - apply cyl_moderate; auto.
Qed.

(** Volumes: every point common to all bodies (and found in the triangulation, if there
    is one) is interior; a point farther than twice the tolerance from one of them is
    not. *)
Theorem C106_volume : forall w dot1 dot2 l p, accurate dot1 -> accurate dot2 ->
  Forall moderate (l_alg l) -> vmid p ->
  (Forall (fun a => within (pad_of a / 2) a p) (l_alg l) ->
   f_leaf_inside w dot1 dot2 l p = match l_tri l with Some t => w_find w t (l_tol l) p | None => true end) /\
  (Exists (fun a => ~ within (2 * pad_of a) a p) (l_alg l) -> f_leaf_inside w dot1 dot2 l p = false).
Proof.
  intros w dot1 dot2 l p H1 H2 HM HP. unfold f_leaf_inside. generalize (match l_tri l with Some t => w_find w t (l_tol l) p | None => true end).
  revert HM. generalize (l_alg l). intros algs HM. induction HM as [|a t Ha Ht IH]; intros b; cbn [fold_left].
  - split; [reflexivity|intros H; inversion H].
  - destruct (C106_surface dot1 dot2 a p H1 H2 Ha HP) as [S1 S2]. split.
    + intros H. inversion H; subst. rewrite S1 by auto. rewrite andb_true_r. apply IH; auto.
    + intros H. inversion H; subst.
      * rewrite S2 by auto. rewrite andb_false_r. clear. induction t; cbn; auto.
      * apply IH; auto.
Qed.
(** In particular rounding changes no answer outside the padding. *)
Theorem C106_agrees : forall w dot1 dot2 l p, accurate dot1 -> accurate dot2 ->
  Forall moderate (l_alg l) -> vmid p ->
  Forall (fun a => within (pad_of a / 2) a p \/ ~ within (2 * pad_of a) a p) (l_alg l) ->
  f_leaf_inside w dot1 dot2 l p = leaf_inside w l p.
Proof.
  intros w dot1 dot2 l p H1 H2 HM HP HC. unfold f_leaf_inside, leaf_inside.
  replace (match l_tri l with Some t => true && w_find w t (l_tol l) p | None => true end)
    with (match l_tri l with Some t => w_find w t (l_tol l) p | None => true end) by (destruct (l_tri l); reflexivity).
  generalize (match l_tri l with Some t => w_find w t (l_tol l) p | None => true end). revert HM HC.
  generalize (l_alg l). intros algs HM HC. induction HM as [|a t Ha Ht IH]; intros b; cbn [fold_left]; [reflexivity|].
  inversion HC as [|? ? Da Dt]; subst. rewrite IH by auto. f_equal. f_equal.
  destruct (C106_surface dot1 dot2 a p H1 H2 Ha HP) as [S1 S2].
  assert (X : (within (pad_of a / 2) a p -> alg_interior a p = true) /\ (~ within (2 * pad_of a) a p -> alg_interior a p = false)).
  { destruct a as [s|pl|c]; cbn [alg_interior].
    - destruct Ha as (MT & _ & MR). cbn [within pad_of] in *. rewrite big_val in MT. unfold sphere_interior.
      change (vx (vsub p (s_center s)) * vx (vsub p (s_center s)) + vy (vsub p (s_center s)) * vy (vsub p (s_center s)) + vz (vsub p (s_center s)) * vz (vsub p (s_center s)))
        with (dot (vsub p (s_center s)) (vsub p (s_center s))). rewrite <- norm_sq. unfold dist. pose proof (norm_pos (vsub p (s_center s))).
      split; intros K; [apply Rltb_iff|apply Rltb_false]; nra.
    - destruct Ha as (MT & _). cbn [within pad_of] in *. rewrite big_val in MT. unfold plane_interior.
      replace (sdist_from_plane pl p) with (dot (vsub p (p_point pl)) (p_normal pl)) by (unfold sdist_from_plane, dot; vunfold; ring).
      split; intros K; [apply Rltb_iff|apply Rltb_false]; lra.
    - apply cyl_exact; auto. }
  destruct Da as [Da|Da]; [rewrite S1 by auto; symmetry; apply X; auto|rewrite S2 by auto; symmetry; apply X; auto].
Qed.
(** Two half spaces on either side of one plane leave no gap between them. *)
Theorem C106_no_gap : forall dot1 dot2 pl pl' p, accurate dot1 -> accurate dot2 ->
  moderate (APlane pl) -> moderate (APlane pl') -> vmid p ->
  p_point pl' = p_point pl -> p_normal pl' = vopp (p_normal pl) ->
  f_plane_interior dot1 dot2 pl p = true \/ f_plane_interior dot1 dot2 pl' p = true.
Proof.
  intros dot1 dot2 pl pl' p H1 H2 M1 M2 HP EP EN.
  destruct (Rle_dec (dot (vsub p (p_point pl)) (p_normal pl)) 0) as [L|L].
  - left. apply (C106_surface dot1 dot2 (APlane pl) p); auto. destruct M1 as [MT _]. rewrite big_val in MT. cbn in *. lra.
  - right. apply (C106_surface dot1 dot2 (APlane pl') p); auto. destruct M2 as [MT _]. rewrite big_val in MT. cbn in *. rewrite EP, EN.
    replace (dot (vsub p (p_point pl)) (vopp (p_normal pl))) with (- dot (vsub p (p_point pl)) (p_normal pl)) by (unfold dot; vunfold; ring). lra.
Qed.
(** The plain left-to-right dot product is accurate, and the default tolerance is
    moderate. *)
Theorem C106_accurate : accurate fdot.
Proof. exact fdot_accurate. Qed.
Example C106_nonvacuous : forall w,
  let s := mkSphere 3 (mkV 1 2 3) default_tol in
  let pl := mkPlane (mkV 0 0 1) (mkV 0 0 2) default_tol in
  let c := mkCyl (mkV 1 0 0) (mkV 0 0 0) 5 20 default_tol in
  let l := mkLeaf PNone None None [ASphere s; APlane pl; ACyl c] None 0 default_vtol None in
  Forall moderate (l_alg l) /\ vmid (mkV 1 2 (1/2)) /\
  Forall (fun a => within 0 a (mkV 1 2 (1/2))) (l_alg l) /\
  f_leaf_inside w fdot fdot l (mkV 1 2 (1/2)) = true /\
  Exists (fun a => ~ within (2 * pad_of a) a (mkV 1 2 (5/2))) (l_alg l) /\
  f_leaf_inside w fdot fdot l (mkV 1 2 (5/2)) = false.
Proof.
  intros w s pl c l.
  assert (D : / big <= default_tol <= 1) by (rewrite big_val; unfold default_tol; lra).
  assert (MID : forall x y z, -10 <= x <= 10 -> -10 <= y <= 10 -> -10 <= z <= 10 -> vmid (mkV x y z)).
  { intros x y z Hx Hy Hz. unfold vmid, mid. rewrite big_val. cbn. repeat split; apply Rabs_le; lra. }
  assert (NV : forall v n, 0 <= n -> dot v v = n * n -> norm v = n).
  { intros v n Hn E. unfold norm. rewrite E. apply sqrt_square. exact Hn. }
  assert (LEN : forall v, dot v v = 1 -> Rabs (norm v - 1) <= / 2 ^ 50).
  { intros v E. rewrite (NV v 1) by lra. rewrite Rminus_diag_eq, Rabs_R0 by reflexivity. rewrite half50. lra. }
  assert (M : Forall moderate (l_alg l)).
  { cbn [l_alg l]. apply Forall_cons; [|apply Forall_cons; [|apply Forall_cons; [|apply Forall_nil]]]; unfold moderate; cbn [pad_of s pl c s_tol p_tol c_tol]; (split; [exact D|]).
    - split; [apply MID; lra|]. cbn [s_radius s]. rewrite big_val. lra.
    - split; [apply MID; lra|]. apply LEN. unfold dot; cbn. ring.
    - split; [apply MID; lra|]. split; [apply LEN; unfold dot; cbn; ring|]. cbn [c_radius c_length c]. rewrite big_val. lra. }
  assert (P1 : vmid (mkV 1 2 (1/2))) by (apply MID; lra). assert (P2 : vmid (mkV 1 2 (5/2))) by (apply MID; lra).
  assert (W : Forall (fun a => within 0 a (mkV 1 2 (1/2))) (l_alg l)).
  { cbn [l_alg l]. apply Forall_cons; [|apply Forall_cons; [|apply Forall_cons; [|apply Forall_nil]]]; cbn [within].
    - unfold dist. rewrite (NV _ (5/2)); [unfold s; cbn; lra|lra|]. unfold dot, s; cbn. lra.
    - unfold dot; cbn. lra.
    - exists 1. unfold dist. split; [unfold dot; cbn; ring|]. split.
      + apply Rsqr_incr_0; [|apply norm_pos|cbn; lra]. unfold Rsqr. rewrite norm_sq. unfold dot; cbn. lra.
      + rewrite (NV _ 1); [cbn; lra|lra|]. unfold dot; cbn. ring. }
  assert (X : Exists (fun a => ~ within (2 * pad_of a) a (mkV 1 2 (5/2))) (l_alg l)).
  { cbn [l_alg l]. right. left. cbn [within pad_of]. unfold dot; cbn. unfold default_tol. lra. }
  destruct (C106_volume w fdot fdot l (mkV 1 2 (1/2)) C106_accurate C106_accurate M P1) as [A _].
  destruct (C106_volume w fdot fdot l (mkV 1 2 (5/2)) C106_accurate C106_accurate M P2) as [_ B].
  split; [exact M|]. split; [exact P1|]. split; [exact W|]. split; [|split; [exact X|apply B, X]].
  rewrite A; [reflexivity|]. rewrite Forall_forall in *. intros a Ha. apply within_mono with 0; [|apply W, Ha].
  specialize (M a Ha). destruct M as [MT _]. rewrite big_val in MT. lra.
Qed.
