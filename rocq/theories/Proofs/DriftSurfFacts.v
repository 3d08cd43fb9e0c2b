(** Directions of surfaces moved in binary64 arithmetic. *)
From Coq Require Import Reals List Bool ZArith Lra Lia Psatz.
From Flocq Require Import Core.
From Verif.Model Require Import Base Vec Algebraic Transform Float FloatRot FloatMove.
From Verif.Spec Require Import Geometry AlgSpec FloatSpec DriftSpec.
From Verif.Proofs Require Import VecFacts AlgFacts VolumeFacts FloatFacts DriftFacts.
Import ListNotations.
Open Scope R_scope.

Definition unitv (v : vec) : vec := vscale (/ norm v) v.
Lemma unitv_norm v : 0 < norm v -> norm (unitv v) = 1.
Proof. intros H. unfold unitv. rewrite norm_scale, Rabs_pos_eq by (apply Rlt_le, Rinv_0_lt_compat; auto). field. lra. Qed.
Lemma unit_gap a b : 0 < norm a -> 0 < norm b ->
  dist (unitv a) (unitv b) * dist (unitv a) (unitv b) * (norm a * norm b) <= dist a b * dist a b.
Proof.
  intros HA HB. unfold dist. rewrite !norm_sq.
  replace (dot (vsub (unitv a) (unitv b)) (vsub (unitv a) (unitv b))) with (dot (unitv a) (unitv a) + dot (unitv b) (unitv b) - 2 * (/ norm a * / norm b * dot a b)) by (unfold unitv; vring).
  replace (dot (vsub a b) (vsub a b)) with (dot a a + dot b b - 2 * dot a b) by vring.
  rewrite <- (norm_sq (unitv a)), <- (norm_sq (unitv b)), !unitv_norm by auto. rewrite <- (norm_sq a), <- (norm_sq b).
  replace ((1 * 1 + 1 * 1 - 2 * (/ norm a * / norm b * dot a b)) * (norm a * norm b)) with (2 * (norm a * norm b) - 2 * dot a b) by (field; lra).
  pose proof (Rle_0_sqr (norm a - norm b)). unfold Rsqr in *. lra.
Qed.
Lemma unit_lip a b c : 0 < c -> c <= norm a -> c <= norm b -> dist (unitv a) (unitv b) <= / c * dist a b.
Proof.
  intros HC HA HB. pose proof (unit_gap a b ltac:(lra) ltac:(lra)) as G.
  assert (P : 0 <= dist (unitv a) (unitv b)) by apply norm_pos. assert (P2 : 0 <= dist a b) by apply norm_pos.
  set (x := dist (unitv a) (unitv b)) in *. set (y := dist a b) in *. clearbody x y.
  apply Rmult_le_reg_l with c; auto. rewrite <- Rmult_assoc, Rinv_r, Rmult_1_l by lra.
  apply Rsqr_incr_0_var; auto. unfold Rsqr. assert (c * c <= norm a * norm b) by (apply Rmult_le_compat; lra).
  assert (0 <= x * x) by nra. apply Rle_trans with (x * x * (norm a * norm b)); auto. nra.
Qed.

Section D.
Variable dotm : vec -> vec -> R.
Hypothesis ACC : accurate dotm.

Lemma dir_err y : / 2 <= norm y <= 2 -> exists w, f_direction dotm y = Ok w /\ dist w (unitv y) <= 6 * ulp1.
Proof.
  intros HN. pose proof ulp1_pos as U0. pose proof ulp1_val as UV.
  assert (T : tiny <= / 1000 * (/ 1000 * ulp1)).
  { pose proof (tiny_le 90 ltac:(lia)) as T. assert (E : / 2 ^ 90 = / 1237940039285380274899124224) by (f_equal; lra). rewrite E in T. rewrite UV. lra. }
  assert (TP : 0 <= tiny) by (unfold tiny; apply Rlt_le, Rinv_0_lt_compat, pow_lt; lra).
  set (N := norm y) in *. assert (NN : N * N = dot y y) by apply norm_sq.
  assert (S : Rabs (dotm y y - N * N) <= 41 / 10 * ulp1 * (N * N)).
  { rewrite NN. eapply Rle_trans; [apply ACC|]. rewrite !(Rabs_pos_eq (_ * _)) by nra. fold (dot y y). rewrite <- NN.
    assert (/ 4 <= N * N) by nra. nra. }
  apply Rabs_le_inv in S. set (s := dotm y y) in *.
  assert (Q : (1 - 22 / 10 * ulp1) * N <= sqrt s <= (1 + 22 / 10 * ulp1) * N).
  { assert (0 <= N * N) by nra. split; [rewrite <- (sqrt_square ((1 - 22 / 10 * ulp1) * N)) by (rewrite UV; nra)|rewrite <- (sqrt_square ((1 + 22 / 10 * ulp1) * N)) by (rewrite UV; nra)]; apply sqrt_le_1_alt;
      rewrite UV in *; nra. }
  unfold f_direction. fold s. set (l := b64 (sqrt s)).
  assert (LE : Rabs (l - N) <= 33 / 10 * ulp1 * N).
  { pose proof (b64_err (sqrt s)) as E. fold l in E. rewrite (Rabs_pos_eq (sqrt s)) in E by apply sqrt_pos. apply Rabs_le. apply Rabs_le_inv in E. rewrite UV in *. lra. }
  apply Rabs_le_inv in LE. assert (L0 : 2 / 5 <= l) by (rewrite UV in *; lra).
  assert (EL : Rltb eps l = true). { apply Rltb_iff. unfold eps. assert (/ 2 ^ 52 <= / 2 ^ 2) by (apply Rinv_le; [apply pow_lt; lra|apply Rle_pow; [lra|lia]]). lra. }
  rewrite EL. eexists. split; [reflexivity|].
  assert (K : Rabs (N / l - 1) <= 34 / 10 * ulp1).
  { assert (E : l * (N / l) = N) by (field; lra). set (k := N / l) in *. clearbody k. apply Rabs_le. rewrite UV in *. split; nra. }
  set (k := N / l) in *.
  assert (C : forall x, Rabs (b64 (x / l) - / N * x) <= 45 / 10 * ulp1 * Rabs (/ N * x) + tiny).
  { intros x. replace (x / l) with (/ N * x * k) by (unfold k; field; lra). set (z := / N * x).
    pose proof (b64_err (z * k)) as E.
    assert (A1 : Rabs (z * k - z) <= 34 / 10 * ulp1 * Rabs z).
    { replace (z * k - z) with (z * (k - 1)) by ring. rewrite Rabs_mult. rewrite Rmult_comm. apply Rmult_le_compat_r; [apply Rabs_pos|exact K]. }
    assert (A2 : Rabs (z * k) <= 1.01 * Rabs z).
    { rewrite Rabs_mult, Rmult_comm. apply Rmult_le_compat_r; [apply Rabs_pos|]. apply Rabs_le. apply Rabs_le_inv in K. rewrite UV in K. lra. }
    assert (A3 : ulp1 * Rabs (z * k) <= ulp1 * (1.01 * Rabs z)) by (apply Rmult_le_compat_l; lra).
    pose proof (Rabs_pos z). assert (0 <= ulp1 * Rabs z) by nra.
    replace (b64 (z * k) - z) with (b64 (z * k) - z * k + (z * k - z)) by ring. eapply Rle_trans; [apply Rabs_triang|]. lra. }
  unfold dist. set (u := unitv y). assert (NU : norm u = 1) by (apply unitv_norm; fold N; lra).
  destruct (comp_norm u) as (u1 & u2 & u3). rewrite NU in *.
  assert (U2 : dot u u = 1) by (rewrite <- norm_sq, NU; ring).
  set (v := vsub (f_vdiv y l) u).
  assert (V1 : Rabs (vx v) <= 45 / 10 * ulp1 * Rabs (vx u) + tiny) by apply C.
  assert (V2 : Rabs (vy v) <= 45 / 10 * ulp1 * Rabs (vy u) + tiny) by apply C.
  assert (V3 : Rabs (vz v) <= 45 / 10 * ulp1 * Rabs (vz u) + tiny) by apply C.
  apply Rsqr_incr_0_var; [|lra]. unfold Rsqr. rewrite norm_sq.
  assert (SQ : forall a b, Rabs a <= 45 / 10 * ulp1 * Rabs b + tiny -> Rabs b <= 1 -> a * a <= (45 / 10 * ulp1) * (45 / 10 * ulp1) * (b * b) + ulp1 * ulp1).
  { intros a b H1 H2. assert (AA : a * a = Rabs a * Rabs a) by (unfold Rabs; destruct (Rcase_abs a); ring). assert (BB : b * b = Rabs b * Rabs b) by (unfold Rabs; destruct (Rcase_abs b); ring).
    rewrite AA, BB. pose proof (Rabs_pos a). pose proof (Rabs_pos b). set (x := Rabs a) in *. set (z := Rabs b) in *. clearbody x z.
    assert (x * x <= (45 / 10 * ulp1 * z + tiny) * (45 / 10 * ulp1 * z + tiny)) by (apply Rmult_le_compat; lra).
    assert (ulp1 * z <= ulp1) by nra. assert (0 <= ulp1 * z) by nra.
    assert (tiny * (ulp1 * z) <= / 1000 * ulp1 * ulp1) by (assert (tiny * (ulp1 * z) <= (/ 1000 * ulp1) * ulp1) by (apply Rmult_le_compat; lra); lra).
    assert (tiny * tiny <= / 1000 * ulp1 * ulp1) by (assert (tiny * tiny <= (/ 1000 * ulp1) * ulp1) by (apply Rmult_le_compat; lra); lra). 
    assert (0 <= ulp1 * ulp1) by nra. nra. }
  pose proof (SQ _ _ V1 u1) as Q1. pose proof (SQ _ _ V2 u2) as Q2. pose proof (SQ _ _ V3 u3) as Q3.
  unfold dot in U2 |- *. assert (0 <= ulp1 * ulp1) by nra.
  assert (E : 45 / 10 * ulp1 * (45 / 10 * ulp1) * (vx u * vx u + vy u * vy u + vz u * vz u) = 81 / 4 * (ulp1 * ulp1)) by (rewrite U2; field). lra.
Qed.

Definition near_unit (n : vec) : Prop := Rabs (norm n - 1) <= / 2 ^ 50.
Lemma dir_step d m q x : 0 <= d <= / 4 ->
  (forall v, (1 - d) * norm v <= norm (mv m v)) -> (forall v, norm (mv m v) <= (1 + d) * norm v) ->
  near_unit q -> near_unit x ->
  exists w z, f_direction dotm (f_mv dotm m q) = Ok w /\ check_normal (mv m x) = Ok z /\ check_axis (mv m x) = Ok z /\
    near_unit w /\ near_unit z /\ dist w z <= / 2 ^ 39 + (1 + (3 * d + / 2 ^ 40)) * dist q x.
Proof.
  intros D LO UP HQ HX. pose proof ulp1_pos as U0. pose proof ulp1_val as UV.
  assert (E50 : / 2 ^ 50 = 8 * ulp1) by (rewrite UV; lra). assert (E40 : / 2 ^ 40 = 8192 * ulp1) by (rewrite UV; lra). assert (E39 : / 2 ^ 39 = 16384 * ulp1) by (rewrite UV; lra).
  unfold near_unit in *. rewrite E50, E40, E39 in *. apply Rabs_le_inv in HQ, HX.
  assert (M2 : forall v, norm (mv m v) <= 2 * norm v) by (intros v; pose proof (UP v); pose proof (norm_pos v); nra).
  pose proof (matrix_step dotm ACC 1 m m None q ltac:(lra) M2 (close_refl m) I ltac:(rewrite UV in HQ; lra)) as ST.
  cbn [f_matrix_pt matrix_pt] in ST. rewrite Rmult_1_r, E40 in ST. set (y := f_mv dotm m q) in *.
  pose proof (LO q) as LQ. pose proof (UP q) as UQ. pose proof (LO x) as LX. pose proof (UP x) as UX.
  assert (NY1 : norm y <= norm (mv m q) + dist y (mv m q)). { replace y with (vadd (mv m q) (vsub y (mv m q))) at 1 by vring. apply norm_triangle. }
  assert (NY2 : norm (mv m q) <= norm y + dist y (mv m q)). { rewrite dist_sym. replace (mv m q) with (vadd y (vsub (mv m q) y)) at 1 by vring. apply norm_triangle. }
  set (lo := (1 - d) * (1 - 8 * ulp1)) in *.
  assert (LO0 : 7 / 10 <= lo) by (unfold lo; rewrite UV; nra).
  assert (Q1 : lo <= norm (mv m q)). { eapply Rle_trans; [|exact LQ]. apply Rmult_le_compat_l; lra. }
  assert (X1 : lo <= norm (mv m x)). { eapply Rle_trans; [|exact LX]. apply Rmult_le_compat_l; lra. }
  assert (Q2 : norm (mv m q) <= 1.3). { eapply Rle_trans; [exact UQ|]. rewrite UV in HQ. nra. }
  assert (Y1 : / 2 <= norm y <= 2) by (rewrite UV in *; lra).
  destruct (dir_err y Y1) as (w & W1 & W2). exists w, (unitv (mv m x)).
  assert (EPS : eps < norm (mv m x)). { unfold eps. assert (/ 2 ^ 52 <= / 2 ^ 2) by (apply Rinv_le; [apply pow_lt; lra|apply Rle_pow; [lra|lia]]). lra. }
  split; [exact W1|]. split; [|split; [|split; [|split]]].
  - unfold check_normal. replace (Rltb eps (norm (mv m x))) with true by (symmetry; apply Rltb_iff; exact EPS). reflexivity.
  - unfold check_axis. replace (Rleb (norm (mv m x)) eps) with false; [reflexivity|]. symmetry. apply not_true_iff_false. rewrite Rleb_iff. lra.
  - assert (NU : norm (unitv y) = 1) by (apply unitv_norm; lra).
    assert (A : norm w <= norm (unitv y) + dist w (unitv y)). { replace w with (vadd (unitv y) (vsub w (unitv y))) at 1 by vring. apply norm_triangle. }
    assert (B : norm (unitv y) <= norm w + dist w (unitv y)). { rewrite dist_sym. replace (unitv y) with (vadd w (vsub (unitv y) w)) at 1 by vring. apply norm_triangle. }
    apply Rabs_le. lra.
  - rewrite unitv_norm by lra. apply Rabs_le. lra.
  - pose proof (unit_lip y (mv m q) (2 / 3) ltac:(lra) ltac:(rewrite UV in *; lra) ltac:(lra)) as L1.
    pose proof (unit_lip (mv m q) (mv m x) lo ltac:(lra) Q1 X1) as L2.
    assert (L3 : dist (mv m q) (mv m x) <= (1 + d) * dist q x) by (unfold dist; rewrite <- mv_sub; apply UP).
    pose proof (dist_triangle w (unitv y) (unitv (mv m x))). pose proof (dist_triangle (unitv y) (unitv (mv m q)) (unitv (mv m x))).
    assert (P : 0 <= dist q x) by apply norm_pos.
    assert (G : / lo * (1 + d) <= 1 + (3 * d + 8192 * ulp1)).
    { apply Rmult_le_reg_l with lo; [lra|]. rewrite <- Rmult_assoc, Rinv_r, Rmult_1_l by lra. unfold lo. rewrite UV.
      assert (0 <= d * d) by nra. nra. }
    assert (L4 : / lo * dist (mv m q) (mv m x) <= (1 + (3 * d + 8192 * ulp1)) * dist q x).
    { apply Rle_trans with (/ lo * ((1 + d) * dist q x)); [apply Rmult_le_compat_l; [apply Rlt_le, Rinv_0_lt_compat; lra|exact L3]|].
      rewrite <- Rmult_assoc. apply Rmult_le_compat_r; lra. }
    replace (/ (2 / 3)) with (3 / 2) in L1 by field. lra.
Qed.
End D.
