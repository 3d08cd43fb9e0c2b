(** Error bounds for the cylinder test. *)
From Coq Require Import Reals List Bool ZArith Lra Lia Psatz.
From Flocq Require Import Core.
From Verif.Model Require Import Base Vec Algebraic Volume Float.
From Verif.Spec Require Import FloatSpec.
From Verif.Proofs Require Import VecFacts FloatFacts.
Import ListNotations.
Open Scope R_scope.

Lemma e28_pos : 0 < e28. Proof. unfold e28. lra. Qed.

(** a rounded product of a rounded coordinate *)
Lemma b64_prod : forall x x' a, Rabs x <= 2097152 -> Rabs (x' - x) <= e28 -> Rabs a <= 2 ->
  Rabs (b64 (x' * a) - x * a) <= 3 * e28 /\ Rabs (x * a) <= 4194304.
Proof.
  intros x x' a Hx Hd Ha. pose proof e28_pos as E0.
  assert (X' : Rabs x' <= 2097153).
  { replace x' with ((x' - x) + x) by ring. pose proof (Rabs_triang (x' - x) x). unfold e28 in *. lra. }
  pose proof (mul_abs_le x' a _ _ X' Ha) as P. pose proof (b64_abs (x' * a) ltac:(lra)) as B.
  pose proof (mul_abs_le (x' - x) a _ _ Hd Ha) as D. split.
  - replace (b64 (x' * a) - x * a) with ((b64 (x' * a) - x' * a) + (x' - x) * a) by ring.
    pose proof (Rabs_triang (b64 (x' * a) - x' * a) ((x' - x) * a)). lra.
  - pose proof (mul_abs_le x a _ _ Hx Ha). lra.
Qed.
Lemma b64_diff_prod : forall x x' a y y' b, Rabs x <= 2097152 -> Rabs (x' - x) <= e28 -> Rabs a <= 2 ->
  Rabs y <= 2097152 -> Rabs (y' - y) <= e28 -> Rabs b <= 2 ->
  Rabs (b64 (b64 (x' * a) - b64 (y' * b)) - (x * a - y * b)) <= 7 * e28.
Proof.
  intros x x' a y y' b H1 H2 H3 H4 H5 H6.
  destruct (b64_prod x x' a H1 H2 H3) as [A1 A2]. destruct (b64_prod y y' b H4 H5 H6) as [B1 B2].
  set (P := b64 (x' * a)) in *. set (Q := b64 (y' * b)) in *.
  assert (K : Rabs (P - Q - (x * a - y * b)) <= 6 * e28).
  { replace (P - Q - (x * a - y * b)) with ((P - x * a) + - (Q - y * b)) by ring.
    pose proof (Rabs_triang (P - x * a) (- (Q - y * b))). rewrite Rabs_Ropp in *. lra. }
  assert (M : Rabs (P - Q) <= 16777216).
  { replace (P - Q) with ((P - Q - (x * a - y * b)) + (x * a + - (y * b))) by ring.
    pose proof (Rabs_triang (P - Q - (x * a - y * b)) (x * a + - (y * b))). pose proof (Rabs_triang (x * a) (- (y * b))).
    rewrite Rabs_Ropp in *. unfold e28 in *. lra. }
  pose proof (b64_abs _ M) as B.
  replace (b64 (P - Q) - (x * a - y * b)) with ((b64 (P - Q) - (P - Q)) + (P - Q - (x * a - y * b))) by ring.
  pose proof (Rabs_triang (b64 (P - Q) - (P - Q)) (P - Q - (x * a - y * b))). lra.
Qed.

(** the square root of the rounded sum of squares *)
Lemma fnorm_err : forall d, norm d <= 4194305 -> Rabs (fnorm d - norm d) <= 2 * e28.
Proof.
  intros d HN. pose proof (fsumsq_bounds d) as S. rewrite <- norm_sq in S. pose proof (norm_pos d) as N0.
  unfold fnorm. set (N := norm d) in *. set (Q := fsumsq d) in *. clearbody N Q.
  pose proof ulp1_pos as U0. pose proof ulp1_val as UV. pose proof tiny_pos as T0.
  assert (T : 8 * tiny <= / 4 * (e28 * e28)).
  { pose proof (tiny_le 100 ltac:(lia)) as T. replace (2 ^ 100) with 1267650600228229401496703205376 in T by lra. unfold e28. lra. }
  set (h := tiny) in *. clearbody h. pose proof e28_pos as E0.
  assert (UN : 4 * ulp1 * N <= 3 / 5 * e28). { rewrite UV. unfold e28. lra. }
  assert (UNN : 4 * ulp1 * (N * N) <= 3 / 5 * e28 * N).
  { replace (4 * ulp1 * (N * N)) with (4 * ulp1 * N * N) by ring. apply Rmult_le_compat_r; lra. }
  assert (EE : 0 < e28 * e28) by (apply Rmult_lt_0_compat; auto).
  assert (EN : 0 <= e28 * N) by (apply Rmult_le_pos; lra).
  assert (R : N - e28 <= sqrt Q <= N + e28).
  { split.
    - destruct (Rle_dec N e28) as [L|L]; [pose proof (sqrt_pos Q); lra|].
      rewrite <- (sqrt_square (N - e28)) by lra. apply sqrt_le_1_alt.
      assert (e28 * e28 <= e28 * N) by (apply Rmult_le_compat_l; lra). lra.
    - rewrite <- (sqrt_square (N + e28)) by lra. apply sqrt_le_1_alt. lra. }
  assert (M : Rabs (sqrt Q) <= 16777216) by (rewrite Rabs_pos_eq by apply sqrt_pos; unfold e28 in R; lra).
  pose proof (b64_abs _ M) as B. apply Rabs_le_inv in B. apply Rabs_le. lra.
Qed.

Section Cyl.
Context (c : cylinder) (p : vec) (M : moderate (ACyl c)) (P : vmid p).
Let d := vsub p (c_point c).
Let a := c_axis c.

Lemma axis_len : 1 - / 1125899906842624 <= norm a <= 1 + / 1125899906842624.
Proof. destruct M as (_ & _ & H & _). rewrite half50 in H. apply Rabs_le_inv in H. unfold a. lra. Qed.
Lemma axis_comp : Rabs (vx a) <= 2 /\ Rabs (vy a) <= 2 /\ Rabs (vz a) <= 2.
Proof. pose proof axis_len. pose proof (comp_norm a). lra. Qed.
Lemma d_comp : (Rabs (vx d) <= 2097152 /\ Rabs (vy d) <= 2097152 /\ Rabs (vz d) <= 2097152) /\
  (let q := fsub p (c_point c) in
   Rabs (vx q - vx d) <= e28 /\ Rabs (vy q - vy d) <= e28 /\ Rabs (vz q - vz d) <= e28).
Proof.
  destruct M as (_ & (C1 & C2 & C3) & _). destruct P as (P1 & P2 & P3). unfold mid in *. rewrite big_val in *.
  assert (K : forall x y, Rabs x <= 1048576 -> Rabs y <= 1048576 -> Rabs (x - y) <= 2097152).
  { intros x y Hx Hy. unfold Rminus. pose proof (Rabs_triang x (- y)). rewrite Rabs_Ropp in *. lra. }
  cbn. split; repeat split; try (apply K; auto); apply b64_abs; pose proof (K _ _ P1 C1); pose proof (K _ _ P2 C2); pose proof (K _ _ P3 C3); lra.
Qed.
Lemma cross_err : Rabs (fnorm (fcross (fsub p (c_point c)) a) - norm (cross d a)) <= 16 * e28.
Proof.
  destruct axis_comp as (A1 & A2 & A3). destruct d_comp as ((D1 & D2 & D3) & E1 & E2 & E3). pose proof e28_pos as E0.
  set (q := fsub p (c_point c)) in *. cbn zeta in *.
  assert (K : Rabs (norm (fcross q a) - norm (cross d a)) <= 14 * e28).
  { eapply Rle_trans; [apply norm_diff|].
    pose proof (norm_err v0 (vsub (fcross q a) (cross d a)) 0 (7 * e28) ltac:(lra) ltac:(lra)) as N.
    replace (0 * norm v0 + 2 * (7 * e28)) with (14 * e28) in N by ring. apply N; rewrite Rmult_0_l, Rplus_0_l; cbn; apply b64_diff_prod; auto. }
  assert (L : norm (cross d a) <= 4194304).
  { pose proof (norm_pos (cross d a)). pose proof (norm_sq (cross d a)) as S. rewrite lagrange, <- !norm_sq in S.
    pose proof (norm_pos d). pose proof axis_len as AL. pose proof (norm_pos a).
    assert (ND : norm d <= 4194304 * (1 - / 100)).
    { pose proof (norm_err v0 d 0 2097152 ltac:(lra) ltac:(lra)) as N. rewrite !Rmult_0_l, !Rplus_0_l in N.
      pose proof (norm_sq d) as SD. unfold dot in SD.
      assert (SQ : forall x, Rabs x <= 2097152 -> x * x <= 2097152 * 2097152).
      { intros x Hx. apply Rabs_le_inv in Hx. nra. }
      pose proof (SQ _ D1). pose proof (SQ _ D2). pose proof (SQ _ D3).
      apply Rsqr_incr_0; [|auto|lra]. unfold Rsqr. rewrite SD. lra. }
    assert (B : norm (cross d a) <= norm d * norm a).
    { apply Rsqr_incr_0; [|auto|apply Rmult_le_pos; auto]. unfold Rsqr. rewrite S.
      pose proof (Rle_0_sqr (dot d a)). unfold Rsqr in *. lra. }
    assert (norm d * norm a <= 4194304 * (1 - / 100) * (1 + / 1125899906842624)) by (apply Rmult_le_compat; lra). lra. }
  apply Rabs_le_inv in K.
  assert (F : norm (fcross q a) <= 4194305) by (unfold e28 in *; lra).
  pose proof (fnorm_err _ F) as G. apply Rabs_le_inv in G. apply Rabs_le. lra.
Qed.
Lemma along_err : forall dot1, accurate dot1 -> Rabs (Rabs (dot1 (fsub p (c_point c)) a) - Rabs (dot d a)) <= 8 * e28.
Proof.
  intros dot1 HA. destruct axis_comp as (A1 & A2 & A3). destruct d_comp as ((D1 & D2 & D3) & E1 & E2 & E3). pose proof e28_pos as E0.
  set (q := fsub p (c_point c)) in *. cbn zeta in *. specialize (HA q a).
  assert (Q : forall x x', Rabs x <= 2097152 -> Rabs (x' - x) <= e28 -> Rabs x' <= 2097153).
  { intros x x' Hx Hd. replace x' with ((x' - x) + x) by ring. pose proof (Rabs_triang (x' - x) x). unfold e28 in *. lra. }
  pose proof (mul_abs_le _ _ _ _ (Q _ _ D1 E1) A1) as W1. pose proof (mul_abs_le _ _ _ _ (Q _ _ D2 E2) A2) as W2. pose proof (mul_abs_le _ _ _ _ (Q _ _ D3 E3) A3) as W3.
  assert (B : Rabs (dot1 q a - dot q a) <= 2 * e28).
  { eapply Rle_trans; [apply HA|]. pose proof (tiny_le 40 ltac:(lia)) as T. replace (2 ^ 40) with 1099511627776 in T by lra. rewrite ulp1_val. unfold e28. lra. }
  pose proof (mul_abs_le _ _ _ _ E1 A1) as V1. pose proof (mul_abs_le _ _ _ _ E2 A2) as V2. pose proof (mul_abs_le _ _ _ _ E3 A3) as V3.
  assert (C : Rabs (dot q a - dot d a) <= 6 * e28).
  { replace (dot q a - dot d a) with ((vx q - vx d) * vx a + (vy q - vy d) * vy a + (vz q - vz d) * vz a) by (unfold dot; ring).
    pose proof (Rabs_triang ((vx q - vx d) * vx a + (vy q - vy d) * vy a) ((vz q - vz d) * vz a)).
    pose proof (Rabs_triang ((vx q - vx d) * vx a) ((vy q - vy d) * vy a)). lra. }
  eapply Rle_trans; [apply Rabs_triang_inv2|].
  replace (dot1 q a - dot d a) with ((dot1 q a - dot q a) + (dot q a - dot d a)) by ring.
  pose proof (Rabs_triang (dot1 q a - dot q a) (dot q a - dot d a)). lra.
Qed.

(** the distances from the axis and along it *)
Lemma foot_dists : forall k, let q := vadd (c_point c) (vscale k a) in dot (vsub p q) a = 0 ->
  norm (cross d a) = dist p q * norm a /\ Rabs (dot d a) = dist q (c_point c) * norm a.
Proof.
  intros k q H. assert (Ed : d = vadd (vsub p q) (vscale k a)) by (unfold d, q; apply vec_eq; vunfold; ring). split.
  - assert (Ec : cross d a = cross (vsub p q) a) by (rewrite Ed; apply vec_eq; vunfold; ring). rewrite Ec.
    apply Rsqr_inj; [apply norm_pos|apply Rmult_le_pos; apply norm_pos|]. unfold Rsqr. rewrite norm_sq, lagrange, H. unfold dist.
    replace (norm (vsub p q) * norm a * (norm (vsub p q) * norm a)) with ((norm (vsub p q) * norm (vsub p q)) * (norm a * norm a)) by ring.
    rewrite !norm_sq. ring.
  - unfold dist. replace (vsub q (c_point c)) with (vscale k a) by (unfold q; apply vec_eq; vunfold; ring).
    rewrite norm_scale. replace (dot d a) with (k * dot a a) by (replace (dot d a) with (dot (vsub p q) a + k * dot a a) by (rewrite Ed; unfold dot; vunfold; ring); lra).
    rewrite Rabs_mult, (Rabs_pos_eq (dot a a)) by apply dot_pos. rewrite <- norm_sq. ring.
Qed.
Lemma cyl_geom :
  (within (c_tol c / 2) (ACyl c) p -> norm (cross d a) <= c_radius c + c_tol c / 2 + e28 /\ Rabs (dot d a) <= c_length c / 2 + c_tol c / 2 + e28) /\
  (~ within (2 * c_tol c) (ACyl c) p ->
     c_radius c + 2 * c_tol c - e28 <= norm (cross d a) \/ c_length c / 2 + 2 * c_tol c - e28 <= Rabs (dot d a)).
Proof.
  pose proof axis_len as AL. pose proof e28_pos as E0.
  destruct M as (MT & _ & _ & MR & ML). cbn [pad_of] in MT. rewrite big_val in *.
  assert (SC : forall x m, 0 <= x -> x <= 1048579 -> 1 - / 1125899906842624 <= m <= 1 + / 1125899906842624 -> x - e28 <= x * m <= x + e28).
  { intros x m H0 H1 H2. assert (x * (1 - / 1125899906842624) <= x * m <= x * (1 + / 1125899906842624)) by (split; apply Rmult_le_compat_l; lra).
    unfold e28. lra. }
  split.
  - intros (k & H1 & H2 & H3). fold a in H1, H2, H3. destruct (foot_dists k H1) as [F1 F2]. rewrite F1, F2.
    set (x := dist p _) in *. set (y := dist _ (c_point c)) in *.
    assert (X0 : 0 <= x) by apply norm_pos. assert (Y0 : 0 <= y) by apply norm_pos.
    pose proof (SC x (norm a) X0 ltac:(lra) AL). pose proof (SC y (norm a) Y0 ltac:(lra) AL). lra.
  - intros H.
    assert (AA : dot a a <> 0). { rewrite <- norm_sq. assert (0 < norm a) by lra. apply Rgt_not_eq, Rmult_lt_0_compat; lra. }
    set (k := dot d a / dot a a). set (q := vadd (c_point c) (vscale k a)).
    assert (PQ : dot (vsub p q) a = 0).
    { replace (dot (vsub p q) a) with (dot d a - k * dot a a) by (unfold q, d, dot; vunfold; ring). unfold k. field. exact AA. }
    destruct (foot_dists k PQ) as [F1 F2]. fold q in F1, F2. rewrite F1, F2.
    assert (MM : forall x B, 0 <= B -> B <= 1048579 -> B < x -> B - e28 <= x * norm a).
    { intros x B HB HB2 Hx. pose proof (SC B (norm a) HB HB2 AL). assert (B * norm a <= x * norm a) by (apply Rmult_le_compat_r; lra). lra. }
    destruct (Rlt_le_dec (c_radius c + 2 * c_tol c) (dist p q)) as [L|L]; [left; apply MM; lra|].
    destruct (Rlt_le_dec (c_length c / 2 + 2 * c_tol c) (dist q (c_point c))) as [L'|L']; [right; apply MM; lra|].
    exfalso. apply H. exists k. auto.
Qed.
Lemma cyl_moderate : forall dot1, accurate dot1 ->
  (within (c_tol c / 2) (ACyl c) p -> f_cyl_interior dot1 c p = true) /\
  (~ within (2 * c_tol c) (ACyl c) p -> f_cyl_interior dot1 c p = false).
Proof.
  intros dot1 HA. pose proof cross_err as EC. pose proof (along_err dot1 HA) as EL. apply Rabs_le_inv in EC. apply Rabs_le_inv in EL.
  pose proof e28_pos as E0. destruct cyl_geom as [GI GO].
  destruct M as (MT & _ & _ & MR & ML). cbn [pad_of] in MT. rewrite big_val in *.
  assert (TE : 256 * e28 <= c_tol c) by (unfold e28; lra).
  pose proof (b64_abs (c_radius c + c_tol c) ltac:(rewrite Rabs_pos_eq; lra)) as BR. apply Rabs_le_inv in BR.
  pose proof (b64_abs (c_length c / 2) ltac:(rewrite Rabs_pos_eq; lra)) as BL. apply Rabs_le_inv in BL.
  assert (BL0 : 0 <= b64 (c_length c / 2)) by (apply b64_pos; lra).
  pose proof (b64_abs (b64 (c_length c / 2) + c_tol c) ltac:(rewrite Rabs_pos_eq; unfold e28 in BL; lra)) as BT. apply Rabs_le_inv in BT.
  unfold f_cyl_interior. fold a. cbn zeta. split.
  - intros H. destruct (GI H). apply andb_true_iff. split; apply Rltb_iff; lra.
  - intros H. apply andb_false_iff. destruct (GO H); [left|right]; apply Rltb_false; lra.
Qed.
Lemma cyl_exact :
  (within (c_tol c / 2) (ACyl c) p -> cyl_interior c p = true) /\ (~ within (2 * c_tol c) (ACyl c) p -> cyl_interior c p = false).
Proof.
  pose proof e28_pos as E0. destruct cyl_geom as [GI GO]. destruct M as (MT & _). cbn [pad_of] in MT. rewrite big_val in *.
  assert (TE : 256 * e28 <= c_tol c) by (unfold e28; lra). unfold cyl_interior. fold a. cbn zeta. fold d. split.
  - intros H. destruct (GI H). apply andb_true_iff. split; apply Rltb_iff; lra.
  - intros H. apply andb_false_iff. destruct (GO H); [left|right]; apply Rltb_false; lra.
Qed.
End Cyl.
