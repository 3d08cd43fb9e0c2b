(** Error bounds for the binary64 operations of Model/Float.v. *)
From Coq Require Import Reals List Bool ZArith Lra Lia Psatz.
From Flocq Require Import Core Relative.
From Verif.Model Require Import Base Vec Algebraic Volume Float.
From Verif.Spec Require Import FloatSpec.
From Verif.Proofs Require Import VecFacts.
Import ListNotations.
Open Scope R_scope.

Lemma bpow_neg : forall n, bpow radix2 (- Z.of_nat n) = / 2 ^ n.
Proof. intros n. rewrite bpow_opp. f_equal. rewrite bpow_powerRZ, <- pow_powerRZ. reflexivity. Qed.

Lemma ulp1_pos : 0 < ulp1.
Proof. unfold ulp1. apply Rinv_0_lt_compat, pow_lt. lra. Qed.
Lemma ulp1_val : ulp1 = / 9007199254740992.
Proof. unfold ulp1. f_equal. lra. Qed.
Lemma tiny_pos : 0 < tiny.
Proof. unfold tiny. apply Rinv_0_lt_compat, pow_lt. lra. Qed.
Lemma tiny_le n : (n <= 1075)%nat -> tiny <= / 2 ^ n.
Proof. intros H. unfold tiny. apply Rinv_le; [apply pow_lt; lra|]. apply Rle_pow; [lra|exact H]. Qed.
Lemma tiny_split n m : (n + m <= 1075)%nat -> tiny <= / 2 ^ n * / 2 ^ m.
Proof. intros H. rewrite <- Rinv_mult, <- pow_add. apply tiny_le; auto. Qed.

(** one rounding *)
Lemma b64_err : forall x, Rabs (b64 x - x) <= ulp1 * Rabs x + tiny.
Proof.
  intros x. destruct (error_N_FLT radix2 (-1074) 53 eq_refl (fun t => negb (Z.even t)) x) as (e & n & He & Hn & _ & E).
  unfold b64. rewrite E. replace (x * (1 + e) + n - x) with (x * e + n) by ring.
  eapply Rle_trans; [apply Rabs_triang|]. rewrite Rabs_mult.
  assert (A : / 2 * bpow radix2 (- (53) + 1) = ulp1).
  { change (- (53) + 1)%Z with (- Z.of_nat 52)%Z. rewrite bpow_neg. unfold ulp1. rewrite <- Rinv_mult. f_equal. }
  assert (B : / 2 * bpow radix2 (-1074) = tiny).
  { change (-1074)%Z with (- Z.of_nat 1074)%Z. rewrite bpow_neg. unfold tiny. rewrite <- Rinv_mult. f_equal. }
  rewrite A in He. rewrite B in Hn. pose proof (Rabs_pos x). pose proof (Rabs_pos e). nra.
Qed.
Lemma b64_bounds : forall x, 0 <= x -> (1 - ulp1) * x - tiny <= b64 x <= (1 + ulp1) * x + tiny.
Proof.
  intros x H. pose proof (b64_err x) as E. rewrite (Rabs_pos_eq x H) in E. apply Rabs_le_inv in E. lra.
Qed.
Lemma b64_pos : forall x, 0 <= x -> 0 <= b64 x.
Proof.
  intros x H. unfold b64. rewrite <- (round_0 radix2 (FLT_exp (-1074) 53) ZnearestE).
  apply round_le; [apply FLT_exp_valid; reflexivity|apply valid_rnd_N|exact H].
Qed.
Lemma b64_le : forall x y, x <= y -> b64 x <= b64 y.
Proof. intros. unfold b64. apply round_le; [apply FLT_exp_valid; reflexivity|apply valid_rnd_N|auto]. Qed.

(** the rounded sum of three squares *)
Lemma fsumsq_bounds : forall d,
  (1 - 4 * ulp1) * dot d d - 8 * tiny <= fsumsq d <= (1 + 4 * ulp1) * dot d d + 8 * tiny.
Proof.
  intros d. unfold fsumsq, dot. set (a := vx d * vx d). set (b := vy d * vy d). set (c := vz d * vz d).
  assert (Ha : 0 <= a) by (unfold a; nra). assert (Hb : 0 <= b) by (unfold b; nra). assert (Hc : 0 <= c) by (unfold c; nra).
  pose proof (b64_bounds a Ha). pose proof (b64_bounds b Hb). pose proof (b64_bounds c Hc).
  pose proof (b64_pos a Ha). pose proof (b64_pos b Hb). pose proof (b64_pos c Hc).
  pose proof (b64_bounds (b64 a + b64 b) ltac:(lra)). pose proof (b64_pos (b64 a + b64 b) ltac:(lra)).
  pose proof (b64_bounds (b64 (b64 a + b64 b) + b64 c) ltac:(lra)).
  pose proof ulp1_pos as U0. pose proof ulp1_val. pose proof tiny_pos.
  set (A := b64 a) in *. set (B := b64 b) in *. set (C := b64 c) in *. set (S := b64 (A + B)) in *. set (T := b64 (S + C)) in *.
  clearbody a b c A B C S T. set (u := ulp1) in *. set (h := tiny) in *. assert (U : u <= / 1000) by lra. clearbody u h.
  assert (P1 : forall x y, x <= y -> (1 + u) * x <= (1 + u) * y) by (intros; apply Rmult_le_compat_l; lra).
  assert (P2 : forall x y, x <= y -> (1 - u) * x <= (1 - u) * y) by (intros; apply Rmult_le_compat_l; lra).
  assert (X1 : S <= (1 + u) * ((1 + u) * (a + b) + 2 * h) + h).
  { pose proof (P1 (A + B) ((1 + u) * (a + b) + 2 * h) ltac:(lra)). lra. }
  assert (X2 : (1 - u) * ((1 - u) * (a + b) - 2 * h) - h <= S).
  { pose proof (P2 ((1 - u) * (a + b) - 2 * h) (A + B) ltac:(lra)). lra. }
  assert (Y1 : T <= (1 + u) * ((1 + u) * ((1 + u) * (a + b) + 2 * h) + h + (1 + u) * c + h) + h).
  { pose proof (P1 (S + C) ((1 + u) * ((1 + u) * (a + b) + 2 * h) + h + (1 + u) * c + h) ltac:(lra)). lra. }
  assert (Y2 : (1 - u) * ((1 - u) * ((1 - u) * (a + b) - 2 * h) - h + (1 - u) * c - h) - h <= T).
  { pose proof (P2 ((1 - u) * ((1 - u) * (a + b) - 2 * h) - h + (1 - u) * c - h) (S + C) ltac:(lra)). lra. }
  assert (Z1 : (1 + u) * (1 + u) * (1 + u) <= 1 + 4 * u) by (clear - U0 U; nra).
  assert (Z2 : 1 - 4 * u <= (1 - u) * (1 - u) * (1 - u)) by (clear - U0 U; nra).
  assert (Z3 : (1 + u) * (1 + u) <= 1 + 4 * u) by (clear - U0 U; nra).
  assert (Z4 : 1 - 4 * u <= (1 - u) * (1 - u)) by (clear - U0 U; nra).
  split.
  - assert ((1 - 4 * u) * (a + b) <= (1 - u) * (1 - u) * (1 - u) * (a + b)) by (apply Rmult_le_compat_r; lra).
    assert ((1 - 4 * u) * c <= (1 - u) * (1 - u) * c) by (apply Rmult_le_compat_r; lra).
    assert ((1-u) * (1-u) * h <= 1 * h) by (apply Rmult_le_compat_r; [lra|]; clear - U0 U; nra). assert ((1-u) * h <= 1 * h) by (apply Rmult_le_compat_r; lra). lra.
  - assert ((1 + u) * (1 + u) * (1 + u) * (a + b) <= (1 + 4 * u) * (a + b)) by (apply Rmult_le_compat_r; lra).
    assert ((1 + u) * (1 + u) * c <= (1 + 4 * u) * c) by (apply Rmult_le_compat_r; lra).
    assert ((1+u) * (1+u) * h <= (1 + 4 * u) * h) by (apply Rmult_le_compat_r; lra). assert ((1+u) * h <= (1 + 4 * u) * h) by (apply Rmult_le_compat_r; lra).
    assert (u * h <= / 1000 * h) by (apply Rmult_le_compat_r; lra). lra.
Qed.

(** a componentwise error is an error of the length *)
Lemma norm_err : forall d e a k, 0 <= a -> 0 <= k ->
  Rabs (vx e) <= a * Rabs (vx d) + k -> Rabs (vy e) <= a * Rabs (vy d) + k -> Rabs (vz e) <= a * Rabs (vz d) + k ->
  norm e <= a * norm d + 2 * k.
Proof.
  intros d e a k Ha Hk Hx Hy Hz. pose proof (norm_pos d) as ND. pose proof (norm_pos e) as NE. pose proof (norm_sq d) as SD. pose proof (norm_sq e) as SE.
  assert (AD : 0 <= a * norm d) by (apply Rmult_le_pos; auto).
  apply Rsqr_incr_0; [|auto|lra]. unfold Rsqr. rewrite SE.
  assert (Q : forall x, x * x = Rabs x * Rabs x) by (intros x; rewrite <- Rabs_mult; symmetry; apply Rabs_pos_eq; nra).
  unfold dot in *. rewrite (Q (vx d)), (Q (vy d)), (Q (vz d)) in SD. rewrite (Q (vx e)), (Q (vy e)), (Q (vz e)).
  pose proof (Rabs_pos (vx d)). pose proof (Rabs_pos (vy d)). pose proof (Rabs_pos (vz d)).
  pose proof (Rabs_pos (vx e)). pose proof (Rabs_pos (vy e)). pose proof (Rabs_pos (vz e)).
  set (X := Rabs (vx d)) in *. set (Y := Rabs (vy d)) in *. set (Z := Rabs (vz d)) in *. set (N := norm d) in *.
  set (x := Rabs (vx e)) in *. set (y := Rabs (vy e)) in *. set (z := Rabs (vz e)) in *. clearbody X Y Z N x y z.
  assert (B : X + Y + Z <= 2 * N).
  { apply Rsqr_incr_0; [|lra|lra]. unfold Rsqr. replace (2 * N * (2 * N)) with (4 * (N * N)) by ring. rewrite SD.
    pose proof (Rle_0_sqr (X - Y)) as Q1. pose proof (Rle_0_sqr (X - Z)) as Q2. pose proof (Rle_0_sqr (Y - Z)) as Q3. unfold Rsqr in *.
    pose proof (Rle_0_sqr X). pose proof (Rle_0_sqr Y). pose proof (Rle_0_sqr Z). unfold Rsqr in *. lra. }
  assert (x * x <= (a * X + k) * (a * X + k)) by (apply Rmult_le_compat; auto).
  assert (y * y <= (a * Y + k) * (a * Y + k)) by (apply Rmult_le_compat; auto).
  assert (z * z <= (a * Z + k) * (a * Z + k)) by (apply Rmult_le_compat; auto).
  assert (0 <= a * k) by (apply Rmult_le_pos; auto).
  assert (a * k * (X + Y + Z) <= a * k * (2 * N)) by (apply Rmult_le_compat_l; auto).
  assert (a * a * (N * N) = a * a * (X * X + Y * Y + Z * Z)) by (rewrite SD; reflexivity).
  assert (0 <= k * k) by (apply Rmult_le_pos; auto). lra.
Qed.
Lemma norm_diff : forall a b, Rabs (norm a - norm b) <= norm (vsub a b).
Proof.
  intros a b. apply Rabs_le.
  pose proof (norm_triangle (vsub a b) b) as H1. pose proof (norm_triangle (vsub b a) a) as H2.
  replace (vadd (vsub a b) b) with a in H1 by (apply vec_eq; vunfold; ring).
  replace (vadd (vsub b a) a) with b in H2 by (apply vec_eq; vunfold; ring).
  replace (norm (vsub b a)) with (norm (vsub a b)) in H2 by apply dist_sym. lra.
Qed.
Lemma fsub_norm : forall p c, Rabs (norm (fsub p c) - dist p c) <= ulp1 * dist p c + 2 * tiny.
Proof.
  intros p c. unfold dist. eapply Rle_trans; [apply norm_diff|].
  apply norm_err; [apply Rlt_le, ulp1_pos|apply Rlt_le, tiny_pos|..]; cbn; apply b64_err.
Qed.

(** ** the ball *)
Lemma f_sphere_band : forall s p, / 2 ^ 400 <= s_radius s + s_tol s ->
  let rho := s_radius s + s_tol s in
  (dist p (s_center s) <= rho * (1 - 8 * ulp1) -> f_sphere_interior s p = true) /\
  (rho * (1 + 8 * ulp1) <= dist p (s_center s) -> f_sphere_interior s p = false).
Proof.
  intros s p HR rho. fold rho in HR.
  assert (P400 : 0 < / 2 ^ 400) by (apply Rinv_0_lt_compat, pow_lt; lra). assert (R0 : 0 < rho) by lra.
  assert (H1 : tiny <= ulp1 * ulp1 * rho).
  { eapply Rle_trans; [apply (tiny_split 106 400); lia|]. replace (/ 2 ^ 106) with (ulp1 * ulp1).
    - apply Rmult_le_compat_l; [apply Rmult_le_pos; apply Rlt_le, ulp1_pos|exact HR].
    - unfold ulp1. rewrite <- Rinv_mult, <- pow_add. reflexivity. }
  assert (H2 : tiny <= ulp1 * ulp1 * (rho * rho)).
  { eapply Rle_trans; [apply (tiny_split 106 800); lia|]. replace (/ 2 ^ 106) with (ulp1 * ulp1).
    - apply Rmult_le_compat_l; [apply Rmult_le_pos; apply Rlt_le, ulp1_pos|].
      replace (/ 2 ^ 800) with (/ 2 ^ 400 * / 2 ^ 400) by (rewrite <- Rinv_mult, <- pow_add; reflexivity).
      apply Rmult_le_compat; lra.
    - unfold ulp1. rewrite <- Rinv_mult, <- pow_add. reflexivity. }
  pose proof (fsub_norm p (s_center s)) as HN. apply Rabs_le_inv in HN.
  pose proof (fsumsq_bounds (fsub p (s_center s))) as HS. rewrite <- norm_sq in HS.
  pose proof (norm_pos (fsub p (s_center s))) as NP. pose proof (norm_pos (vsub p (s_center s))) as DP. fold (dist p (s_center s)) in DP.
  pose proof (b64_bounds rho (Rlt_le _ _ R0)) as HP. pose proof (b64_pos rho (Rlt_le _ _ R0)) as PP.
  pose proof (b64_bounds (b64 rho * b64 rho) ltac:(apply Rmult_le_pos; auto)) as HQ.
  unfold f_sphere_interior. fold rho.
  set (D := dist p (s_center s)) in *. set (N := norm (fsub p (s_center s))) in *.
  set (S := fsumsq (fsub p (s_center s))) in *. set (P := b64 rho) in *. set (Q := b64 (P * P)) in *.
  pose proof ulp1_pos as U0. pose proof ulp1_val as UV. pose proof tiny_pos as T0. set (u := ulp1) in *. set (h := tiny) in *.
  assert (U : u <= / 1000000) by lra. clear UV. clearbody D N S P Q u h rho. clear HR P400.
  assert (UR : u * u * rho <= / 1000000 * (u * rho)) by (rewrite Rmult_assoc; apply Rmult_le_compat_r; [apply Rmult_le_pos; lra|exact U]).
  assert (UR0 : 0 < u * rho) by (apply Rmult_lt_0_compat; auto).
  assert (R2 : 0 < rho * rho) by (apply Rmult_lt_0_compat; auto).
  assert (UR2 : u * u * (rho * rho) <= / 1000000 * (u * (rho * rho))) by (rewrite Rmult_assoc; apply Rmult_le_compat_r; [apply Rmult_le_pos; lra|exact U]).
  assert (UR20 : 0 < u * (rho * rho)) by (apply Rmult_lt_0_compat; auto).
  (* the square of the padded radius *)
  assert (QL : (1 - 4 * u) * (rho * rho) <= Q).
  { assert (A : (1 - 11/10 * u) * rho <= P) by nra.
    assert (B : (1 - 11/10 * u) * rho * ((1 - 11/10 * u) * rho) <= P * P) by (apply Rmult_le_compat; nra).
    assert (C : (1 - u) * ((1 - 11/10 * u) * rho * ((1 - 11/10 * u) * rho)) <= (1 - u) * (P * P)) by (apply Rmult_le_compat_l; lra).
    assert (E : (1 - 7/2 * u) * (rho * rho) <= (1 - u) * ((1 - 11/10 * u) * (1 - 11/10 * u)) * (rho * rho)) by (apply Rmult_le_compat_r; [lra|]; clear - U0 U; nra).
    lra. }
  assert (QU : Q <= (1 + 4 * u) * (rho * rho)).
  { assert (A : P <= (1 + 11/10 * u) * rho) by nra.
    assert (B : P * P <= (1 + 11/10 * u) * rho * ((1 + 11/10 * u) * rho)) by (apply Rmult_le_compat; nra).
    assert (C : (1 + u) * (P * P) <= (1 + u) * ((1 + 11/10 * u) * rho * ((1 + 11/10 * u) * rho))) by (apply Rmult_le_compat_l; lra).
    assert (E : (1 + u) * ((1 + 11/10 * u) * (1 + 11/10 * u)) * (rho * rho) <= (1 + 7/2 * u) * (rho * rho)) by (apply Rmult_le_compat_r; [lra|]; clear - U0 U; nra).
    lra. }
  split; intros HD.
  - apply Rltb_iff.
    assert (A : N <= (1 - 6 * u) * rho).
    { assert ((1 + u) * D <= (1 + u) * (rho * (1 - 8 * u))) by (apply Rmult_le_compat_l; lra). nra. }
    assert (B : N * N <= (1 - 6 * u) * rho * ((1 - 6 * u) * rho)) by (apply Rmult_le_compat; auto).
    assert (C : (1 + 4 * u) * (N * N) <= (1 + 4 * u) * ((1 - 6 * u) * rho * ((1 - 6 * u) * rho))) by (apply Rmult_le_compat_l; lra).
    assert (E : (1 + 4 * u) * ((1 - 6 * u) * (1 - 6 * u)) * (rho * rho) <= (1 - 7 * u) * (rho * rho)) by (apply Rmult_le_compat_r; [lra|]; clear - U0 U; nra).
    lra.
  - apply Rltb_false.
    assert (A : (1 + 6 * u) * rho <= N).
    { assert ((1 - u) * (rho * (1 + 8 * u)) <= (1 - u) * D) by (apply Rmult_le_compat_l; lra). nra. }
    assert (B : (1 + 6 * u) * rho * ((1 + 6 * u) * rho) <= N * N) by (apply Rmult_le_compat; nra).
    assert (C : (1 - 4 * u) * ((1 + 6 * u) * rho * ((1 + 6 * u) * rho)) <= (1 - 4 * u) * (N * N)) by (apply Rmult_le_compat_l; lra).
    assert (E : (1 + 7 * u) * (rho * rho) <= (1 - 4 * u) * ((1 + 6 * u) * (1 + 6 * u)) * (rho * rho)) by (apply Rmult_le_compat_r; [lra|]; clear - U0 U; nra).
    lra.
Qed.

(** the left to right dot product is accurate *)
Lemma fdot_accurate : accurate fdot.
Proof.
  intros p q. unfold fdot, dot. set (a := vx p * vx q). set (b := vy p * vy q). set (c := vz p * vz q).
  pose proof (b64_err a) as EA. pose proof (b64_err b) as EB. pose proof (b64_err c) as EC.
  pose proof (b64_err (b64 a + b64 b)) as ES. pose proof (b64_err (b64 (b64 a + b64 b) + b64 c)) as ET.
  set (A := b64 a) in *. set (B := b64 b) in *. set (C := b64 c) in *. set (S := b64 (A + B)) in *. set (T := b64 (S + C)) in *.
  clearbody a b c A B C S T. pose proof ulp1_pos as U0. pose proof ulp1_val as UV. pose proof tiny_pos as T0. set (u := ulp1) in *. set (h := tiny) in *.
  assert (U : u <= / 1000000) by lra. clear UV. clearbody u h.
  pose proof (Rabs_pos a). pose proof (Rabs_pos b). pose proof (Rabs_pos c).
  assert (FA : Rabs A <= Rabs (A - a) + Rabs a) by (replace A with (A - a + a) at 1 by ring; apply Rabs_triang).
  assert (FB : Rabs B <= Rabs (B - b) + Rabs b) by (replace B with (B - b + b) at 1 by ring; apply Rabs_triang).
  assert (FC : Rabs C <= Rabs (C - c) + Rabs c) by (replace C with (C - c + c) at 1 by ring; apply Rabs_triang).
  assert (FS : Rabs S <= Rabs (S - (A + B)) + Rabs (A + B)) by (replace S with (S - (A + B) + (A + B)) at 1 by ring; apply Rabs_triang).
  pose proof (Rabs_triang A B) as FAB. pose proof (Rabs_triang S C) as FSC.
  assert (K : Rabs (T - (a + b + c)) <= Rabs (T - (S + C)) + Rabs (S - (A + B)) + Rabs (A - a) + Rabs (B - b) + Rabs (C - c)).
  { replace (T - (a + b + c)) with ((T - (S + C)) + ((S - (A + B)) + ((A - a) + ((B - b) + (C - c))))) by ring.
    pose proof (Rabs_triang (T - (S + C)) ((S - (A + B)) + ((A - a) + ((B - b) + (C - c))))).
    pose proof (Rabs_triang (S - (A + B)) ((A - a) + ((B - b) + (C - c)))).
    pose proof (Rabs_triang (A - a) ((B - b) + (C - c))). pose proof (Rabs_triang (B - b) (C - c)). lra. }
  set (x := Rabs a) in *. set (y := Rabs b) in *. set (z := Rabs c) in *. set (m := Rabs (A + B)) in *. set (n := Rabs (S + C)) in *.
  clearbody x y z.
  assert (M1 : m <= (1 + u) * (x + y) + 2 * h) by lra. assert (N1 : n <= (1 + u) * m + h + (1 + u) * z + h) by lra.
  clearbody m n.
  assert (M2 : u * m <= u * ((1 + u) * (x + y) + 2 * h)) by (apply Rmult_le_compat_l; lra).
  assert (N2 : u * n <= u * ((1 + u) * m + h + (1 + u) * z + h)) by (apply Rmult_le_compat_l; lra).
  assert (N3 : (1 + u) * (u * m) <= (1 + u) * (u * ((1 + u) * (x + y) + 2 * h))) by (apply Rmult_le_compat_l; lra).
  assert (L : Rabs (T - (a + b + c)) <= u * ((1+u)*(1+u) + (1+u) + 1) * (x + y) + u * ((1 + u) + 1) * z + (5 + u * (2 + 2*(1+u) + 2)) * h) by lra.
  assert (G1 : u * ((1+u)*(1+u) + (1+u) + 1) * (x + y) <= 4 * u * (x + y)) by (apply Rmult_le_compat_r; [lra|]; clear - U0 U; nra).
  assert (G2 : u * ((1 + u) + 1) * z <= 4 * u * z) by (apply Rmult_le_compat_r; [lra|]; clear - U0 U; nra).
  assert (G3 : (5 + u * (2 + 2*(1+u) + 2)) * h <= 8 * h) by (apply Rmult_le_compat_r; [lra|]; clear - U0 U; nra).
  lra.
Qed.

(** ** the half space *)
Lemma abs_mul_dot : forall a b, Rabs (dot a b) <= Rabs (vx a * vx b) + Rabs (vy a * vy b) + Rabs (vz a * vz b).
Proof.
  intros a b. unfold dot. pose proof (Rabs_triang (vx a * vx b + vy a * vy b) (vz a * vz b)).
  pose proof (Rabs_triang (vx a * vx b) (vy a * vy b)). lra.
Qed.
Definition weight (a b : vec) : R := Rabs (vx a * vx b) + Rabs (vy a * vy b) + Rabs (vz a * vz b).
Lemma weight_pos : forall a b, 0 <= weight a b.
Proof. intros. unfold weight. pose proof (Rabs_pos (vx a * vx b)). pose proof (Rabs_pos (vy a * vy b)). pose proof (Rabs_pos (vz a * vz b)). lra. Qed.
Lemma f_plane_err : forall dot1 dot2 pl p, accurate dot1 -> accurate dot2 ->
  Rabs (b64 (dot1 p (p_normal pl) - dot2 (p_point pl) (p_normal pl)) - sdist_from_plane pl p) <=
  6 * ulp1 * (weight p (p_normal pl) + weight (p_point pl) (p_normal pl)) + 32 * tiny.
Proof.
  intros d1 d2 pl p H1 H2. specialize (H1 p (p_normal pl)). specialize (H2 (p_point pl) (p_normal pl)).
  fold (weight p (p_normal pl)) in H1. fold (weight (p_point pl) (p_normal pl)) in H2. unfold sdist_from_plane.
  pose proof (abs_mul_dot p (p_normal pl)) as A1. pose proof (abs_mul_dot (p_point pl) (p_normal pl)) as A2.
  fold (weight p (p_normal pl)) in A1. fold (weight (p_point pl) (p_normal pl)) in A2.
  pose proof (b64_err (d1 p (p_normal pl) - d2 (p_point pl) (p_normal pl))) as E.
  pose proof (weight_pos p (p_normal pl)) as W1. pose proof (weight_pos (p_point pl) (p_normal pl)) as W2.
  set (X := d1 p (p_normal pl)) in *. set (Y := d2 (p_point pl) (p_normal pl)) in *. set (V := b64 (X - Y)) in *.
  set (x := dot p (p_normal pl)) in *. set (y := dot (p_point pl) (p_normal pl)) in *. set (w := weight p (p_normal pl)) in *.
  set (w' := weight (p_point pl) (p_normal pl)) in *. clearbody X Y V x y w w'.
  pose proof ulp1_pos as U0. pose proof ulp1_val as UV. pose proof tiny_pos as T0. set (u := ulp1) in *. set (h := tiny) in *.
  assert (U : u <= / 1000000) by lra. clear UV. clearbody u h.
  assert (K : Rabs (X - Y) <= Rabs (X - x) + Rabs (Y - y) + Rabs x + Rabs y).
  { replace (X - Y) with ((X - x) + ((- (Y - y)) + (x + (- y)))) by ring.
    pose proof (Rabs_triang (X - x) ((- (Y - y)) + (x + (- y)))). pose proof (Rabs_triang (- (Y - y)) (x + (- y))).
    pose proof (Rabs_triang x (- y)). rewrite !Rabs_Ropp in *. lra. }
  assert (L : Rabs (V - (x - y)) <= Rabs (V - (X - Y)) + (Rabs (X - x) + Rabs (Y - y))).
  { replace (V - (x - y)) with ((V - (X - Y)) + ((X - x) + (- (Y - y)))) by ring.
    pose proof (Rabs_triang (V - (X - Y)) ((X - x) + (- (Y - y)))). pose proof (Rabs_triang (X - x) (- (Y - y))).
    rewrite !Rabs_Ropp in *. lra. }
  assert (M : u * Rabs (X - Y) <= u * (4 * u * (w + w') + 16 * h + (w + w'))) by (apply Rmult_le_compat_l; lra).
  assert (G1 : (5 * u + 4 * u * u) * (w + w') <= 6 * u * (w + w')) by (apply Rmult_le_compat_r; [lra|]; clear - U0 U; nra).
  assert (G2 : (17 + 16 * u) * h <= 32 * h) by (apply Rmult_le_compat_r; lra). lra.
Qed.

(** ** numbers of moderate size *)
Definition e28 : R := / 268435456.
Lemma b64_abs : forall x, Rabs x <= 16777216 -> Rabs (b64 x - x) <= e28.
Proof.
  intros x H. pose proof (b64_err x) as E. pose proof ulp1_val as UV. pose proof (tiny_le 30 ltac:(lia)) as T.
  assert (ulp1 * Rabs x <= ulp1 * 16777216) by (apply Rmult_le_compat_l; [apply Rlt_le, ulp1_pos|auto]).
  unfold e28. replace (2 ^ 30) with 1073741824 in T by lra. lra.
Qed.
Lemma big_val : big = 1048576. Proof. unfold big. lra. Qed.
Lemma half50 : / 2 ^ 50 = / 1125899906842624. Proof. f_equal. lra. Qed.
Lemma comp_norm : forall a, Rabs (vx a) <= norm a /\ Rabs (vy a) <= norm a /\ Rabs (vz a) <= norm a.
Proof.
  intros a. pose proof (norm_pos a). pose proof (norm_sq a) as S. unfold dot in S.
  pose proof (Rle_0_sqr (vx a)). pose proof (Rle_0_sqr (vy a)). pose proof (Rle_0_sqr (vz a)). unfold Rsqr in *.
  repeat split; (apply Rsqr_incr_0; [|apply Rabs_pos|auto]; unfold Rsqr; rewrite <- Rabs_mult, Rabs_pos_eq; lra).
Qed.
Lemma mul_abs_le : forall x y a b, Rabs x <= a -> Rabs y <= b -> Rabs (x * y) <= a * b.
Proof. intros. rewrite Rabs_mult. apply Rmult_le_compat; auto; apply Rabs_pos. Qed.
