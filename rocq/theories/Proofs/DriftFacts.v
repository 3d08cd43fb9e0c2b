(** One rounded step of applyTransformation. *)
From Coq Require Import Reals List Bool ZArith Lra Lia Psatz.
From Flocq Require Import Core.
From Verif.Model Require Import Base Vec Algebraic Transform Float FloatRot FloatMove.
From Verif.Spec Require Import Geometry FloatSpec DriftSpec.
From Verif.Proofs Require Import VecFacts AlgFacts FloatFacts.
Import ListNotations.
Open Scope R_scope.

Lemma prod_le a b A B : Rabs a <= A -> Rabs b <= B -> Rabs (a * b) <= A * B.
Proof. intros. rewrite Rabs_mult. apply Rmult_le_compat; auto using Rabs_pos. Qed.
Lemma norm_sum a : norm a <= Rabs (vx a) + Rabs (vy a) + Rabs (vz a).
Proof.
  replace a with (vadd (vadd (mkV (vx a) 0 0) (mkV 0 (vy a) 0)) (mkV 0 0 (vz a))) at 1 by vring.
  assert (X : forall x, sqrt (x * x) = Rabs x) by (intros; apply sqrt_Rsqr_abs).
  assert (N1 : norm (mkV (vx a) 0 0) = Rabs (vx a)) by (unfold norm, dot; cbn; rewrite <- X; f_equal; ring).
  assert (N2 : norm (mkV 0 (vy a) 0) = Rabs (vy a)) by (unfold norm, dot; cbn; rewrite <- X; f_equal; ring).
  assert (N3 : norm (mkV 0 0 (vz a)) = Rabs (vz a)) by (unfold norm, dot; cbn; rewrite <- X; f_equal; ring).
  eapply Rle_trans; [apply norm_triangle|]. rewrite N3. apply Rplus_le_compat_r.
  eapply Rle_trans; [apply norm_triangle|]. lra.
Qed.
Lemma tiny_small B : 1 <= B -> tiny <= / 1000 * (ulp1 * B).
Proof.
  intros H. pose proof (tiny_le 64 ltac:(lia)) as T. assert (E : / 2 ^ 64 <= / 1000 * ulp1) by (rewrite ulp1_val; lra).
  pose proof ulp1_pos. nra.
Qed.
Lemma round_le x K B : 1 <= B -> 1 <= K -> Rabs x <= K * B -> Rabs (b64 x - x) <= (K + / 1000) * (ulp1 * B).
Proof.
  intros HB HK H. pose proof (b64_err x) as E. pose proof (tiny_small B HB). pose proof ulp1_pos.
  assert (ulp1 * Rabs x <= ulp1 * (K * B)) by (apply Rmult_le_compat_l; lra). lra.
Qed.
Lemma refl_norm n x : n <> v0 -> norm (mv (reflection_matrix n) x) = norm x.
Proof.
  intros H. assert (D : dot n n <> 0) by (intros E; apply H, dot_zero, E).
  unfold norm. f_equal. unfold reflection_matrix. set (c := 2 / dot n n).
  assert (C : c * dot n n = 2) by (unfold c; field; auto). clearbody c.
  replace (dot (mv (msub mI (mscale c (outer n n))) x) (mv (msub mI (mscale c (outer n n))) x))
    with (dot x x + c * dot n x * dot n x * (c * dot n n - 2)) by vring. rewrite C. ring.
Qed.

Section Step.
Variable dotm : vec -> vec -> R.
Hypothesis ACC : accurate dotm.

Lemma row_err B r r' d d' : 1 <= B ->
  (Rabs (vx r) <= 2 /\ Rabs (vy r) <= 2 /\ Rabs (vz r) <= 2) ->
  (Rabs (vx r' - vx r) <= 128 * ulp1 /\ Rabs (vy r' - vy r) <= 128 * ulp1 /\ Rabs (vz r' - vz r) <= 128 * ulp1) ->
  (Rabs (vx d') <= 4 * B /\ Rabs (vy d') <= 4 * B /\ Rabs (vz d') <= 4 * B) ->
  (Rabs (vx d' - vx d) <= 4 * (ulp1 * B) /\ Rabs (vy d' - vy d) <= 4 * (ulp1 * B) /\ Rabs (vz d' - vz d) <= 4 * (ulp1 * B)) ->
  Rabs (dotm r' d' - dot r d) <= 1705 * (ulp1 * B).
Proof.
  intros HB (R1 & R2 & R3) (E1 & E2 & E3) (D1 & D2 & D3) (F1 & F2 & F3).
  pose proof ulp1_pos as U0. pose proof ulp1_val as UV. pose proof (tiny_small B HB) as T. assert (UB0 : 0 <= ulp1 * B) by nra.
  assert (G : forall a b, Rabs b <= 2 -> Rabs (a - b) <= 128 * ulp1 -> Rabs a <= 3).
  { intros a b Hb Hab. apply Rabs_le_inv in Hb. apply Rabs_le_inv in Hab. apply Rabs_le. lra. }
  pose proof (ACC r' d') as A.
  pose proof (prod_le _ _ _ _ (G _ _ R1 E1) D1) as P1. pose proof (prod_le _ _ _ _ (G _ _ R2 E2) D2) as P2. pose proof (prod_le _ _ _ _ (G _ _ R3 E3) D3) as P3.
  pose proof (prod_le _ _ _ _ E1 D1) as Q1. pose proof (prod_le _ _ _ _ E2 D2) as Q2. pose proof (prod_le _ _ _ _ E3 D3) as Q3.
  pose proof (prod_le _ _ _ _ R1 F1) as S1. pose proof (prod_le _ _ _ _ R2 F2) as S2. pose proof (prod_le _ _ _ _ R3 F3) as S3.
  assert (A' : Rabs (dotm r' d' - dot r' d') <= 145 * (ulp1 * B)).
  { eapply Rle_trans; [exact A|].
    assert (4 * ulp1 * (Rabs (vx r' * vx d') + Rabs (vy r' * vy d') + Rabs (vz r' * vz d')) <= 4 * ulp1 * (36 * B)) by (apply Rmult_le_compat_l; lra). lra. }
  assert (M : dot r' d' - dot r d = (vx r' - vx r) * vx d' + (vy r' - vy r) * vy d' + (vz r' - vz r) * vz d' +
     (vx r * (vx d' - vx d) + vy r * (vy d' - vy d) + vz r * (vz d' - vz d))) by (unfold dot; ring).
  replace (dotm r' d' - dot r d) with ((dotm r' d' - dot r' d') + (dot r' d' - dot r d)) by ring. rewrite M.
  apply Rabs_le_inv in A'. apply Rabs_le_inv in Q1. apply Rabs_le_inv in Q2. apply Rabs_le_inv in Q3.
  apply Rabs_le_inv in S1. apply Rabs_le_inv in S2. apply Rabs_le_inv in S3. apply Rabs_le. lra.
Qed.

(** entries of the matrix in use and of the one meant *)
Definition close_row (r r' : vec) : Prop :=
  Rabs (vx r' - vx r) <= 128 * ulp1 /\ Rabs (vy r' - vy r) <= 128 * ulp1 /\ Rabs (vz r' - vz r) <= 128 * ulp1.
Definition close (m m' : mat) : Prop := close_row (r0 m) (r0 m') /\ close_row (r1 m) (r1 m') /\ close_row (r2 m) (r2 m').
Lemma close_refl m : close m m.
Proof. pose proof ulp1_pos. unfold close, close_row. repeat split; (match goal with |- Rabs (?x - ?x) <= _ => replace (x - x) with 0 by ring end; rewrite Rabs_R0; lra). Qed.

Lemma entries m : (forall x, norm (mv m x) <= 2 * norm x) ->
  let ok r := Rabs (vx r) <= 2 /\ Rabs (vy r) <= 2 /\ Rabs (vz r) <= 2 in ok (r0 m) /\ ok (r1 m) /\ ok (r2 m).
Proof.
  intros H ok.
  assert (N1 : norm (mkV 1 0 0) = 1) by (unfold norm, dot; cbn; replace (1 * 1 + 0 * 0 + 0 * 0) with 1 by ring; apply sqrt_1).
  assert (N2 : norm (mkV 0 1 0) = 1) by (unfold norm, dot; cbn; replace (0 * 0 + 1 * 1 + 0 * 0) with 1 by ring; apply sqrt_1).
  assert (N3 : norm (mkV 0 0 1) = 1) by (unfold norm, dot; cbn; replace (0 * 0 + 0 * 0 + 1 * 1) with 1 by ring; apply sqrt_1).
  pose proof (H (mkV 1 0 0)) as H1. pose proof (H (mkV 0 1 0)) as H2. pose proof (H (mkV 0 0 1)) as H3.
  rewrite N1 in H1. rewrite N2 in H2. rewrite N3 in H3.
  destruct (comp_norm (mv m (mkV 1 0 0))) as (A1 & A2 & A3). destruct (comp_norm (mv m (mkV 0 1 0))) as (B1 & B2 & B3).
  destruct (comp_norm (mv m (mkV 0 0 1))) as (C1 & C2 & C3).
  unfold mv, dot in A1, A2, A3, B1, B2, B3, C1, C2, C3. cbn [vx vy vz] in A1, A2, A3, B1, B2, B3, C1, C2, C3.
  assert (X : forall a b c, a * 1 + b * 0 + c * 0 = a) by (intros; ring). assert (Y : forall a b c, a * 0 + b * 1 + c * 0 = b) by (intros; ring).
  assert (Z : forall a b c, a * 0 + b * 0 + c * 1 = c) by (intros; ring).
  rewrite !X in A1, A2, A3. rewrite !Y in B1, B2, B3. rewrite !Z in C1, C2, C3.
  unfold norm, dot, mv in *. cbn [vx vy vz] in *. unfold dot in *. cbn [vx vy vz] in *.
  rewrite !X in *. rewrite !Y in *. rewrite !Z in *.
  unfold ok. repeat split; lra.
Qed.

Lemma matrix_step B m m' o q : 1 <= B -> (forall x, norm (mv m x) <= 2 * norm x) -> close m m' ->
  origin_within B o -> norm q <= 2 * B ->
  dist (f_matrix_pt dotm m' o q) (matrix_pt m o q) <= / 2 ^ 40 * B.
Proof.
  intros HB HM (C0 & C1 & C2) HO HQ. destruct (entries m HM) as (M0 & M1 & M2).
  pose proof ulp1_pos as U0. pose proof ulp1_val as UV.
  assert (UB : / 2 ^ 40 * B = 8192 * (ulp1 * B)) by (rewrite UV; lra).
  assert (US : ulp1 * B <= / 1000000 * B) by (apply Rmult_le_compat_r; lra).
  destruct (comp_norm q) as (q1 & q2 & q3). assert (UB0 : 0 <= ulp1 * B) by nra.
  rewrite UB. destruct o as [o|]; cbn [origin_within] in HO.
  - destruct (comp_norm o) as (o1 & o2 & o3).
    set (d := vsub q o). set (d' := fsub q o).
    assert (ND : norm d <= 3 * B).
    { unfold d. replace (vsub q o) with (vadd q (vopp o)) by vring. eapply Rle_trans; [apply norm_triangle|]. rewrite norm_opp. lra. }
    destruct (comp_norm d) as (d1 & d2 & d3).
    assert (K : forall x, Rabs x <= 3 * B -> Rabs (b64 x - x) <= 4 * (ulp1 * B) /\ Rabs (b64 x) <= 4 * B).
    { intros x Hx. pose proof (round_le x 3 B HB ltac:(lra) Hx) as E. split; [lra|]. apply Rabs_le_inv in E. apply Rabs_le_inv in Hx. apply Rabs_le. lra. }
    destruct (K (vx d) ltac:(lra)) as [K1 L1]. destruct (K (vy d) ltac:(lra)) as [K2 L2]. destruct (K (vz d) ltac:(lra)) as [K3 L3].
    assert (Rr : forall r r', (Rabs (vx r) <= 2 /\ Rabs (vy r) <= 2 /\ Rabs (vz r) <= 2) -> close_row r r' -> Rabs (dotm r' d' - dot r d) <= 1705 * (ulp1 * B)).
    { intros r r' H1 H2. apply row_err; auto; unfold d', fsub; cbn [vx vy vz]; auto. }
    pose proof (Rr _ _ M0 C0) as E0. pose proof (Rr _ _ M1 C1) as E1. pose proof (Rr _ _ M2 C2) as E2.
    pose proof (HM d) as NM. destruct (comp_norm (mv m d)) as (m1 & m2 & m3). unfold mv in m1, m2, m3. cbn [vx vy vz] in m1, m2, m3. fold (mv m d) in m1, m2, m3.
    assert (S : forall y y' c, Rabs y <= norm (mv m d) -> Rabs c <= norm o -> Rabs (y' - y) <= 1705 * (ulp1 * B) ->
                Rabs (b64 (y' + c) - (y + c)) <= 1714 * (ulp1 * B)).
    { intros y y' c Hy Hc Hd. apply Rabs_le_inv in Hd. assert (Y : Rabs y <= 6 * B) by lra. assert (C : Rabs c <= B) by lra.
      apply Rabs_le_inv in Y. apply Rabs_le_inv in C.
      assert (Z : Rabs (y' + c) <= 8 * B) by (apply Rabs_le; lra).
      pose proof (round_le _ 8 B HB ltac:(lra) Z) as E. apply Rabs_le_inv in E. apply Rabs_le. lra. }
    pose proof (S _ _ _ m1 o1 E0) as F0. pose proof (S _ _ _ m2 o2 E1) as F1. pose proof (S _ _ _ m3 o3 E2) as F2.
    unfold dist. eapply Rle_trans; [apply norm_sum|]. unfold f_matrix_pt, matrix_pt, vsub at 1 3 5, fadd, f_mv, vadd, mv. cbn [vx vy vz].
    fold d d'. lra.
  - assert (Rr : forall r r', (Rabs (vx r) <= 2 /\ Rabs (vy r) <= 2 /\ Rabs (vz r) <= 2) -> close_row r r' -> Rabs (dotm r' q - dot r q) <= 1705 * (ulp1 * B)).
    { intros r r' H1 H2. apply row_err; auto; [repeat split; lra|].
      assert (X : forall x, Rabs (x - x) <= 4 * (ulp1 * B)) by (intros x; replace (x - x) with 0 by ring; rewrite Rabs_R0; nra). auto. }
    pose proof (Rr _ _ M0 C0) as E0. pose proof (Rr _ _ M1 C1) as E1. pose proof (Rr _ _ M2 C2) as E2.
    unfold dist. eapply Rle_trans; [apply norm_sum|]. unfold f_matrix_pt, matrix_pt, vsub, f_mv, mv. cbn [vx vy vz]. nra.
Qed.

Lemma refl_entry s c nn e a b : Rabs (nn - 1) <= 17 * ulp1 -> Rabs (s - nn) <= 5 * ulp1 -> c = b64 (2 / s) ->
  Rabs e <= 1 -> Rabs a <= 1 + 8 * ulp1 -> Rabs b <= 1 + 8 * ulp1 ->
  Rabs (b64 (e - b64 (c * b64 (a * b))) - (e - 2 / nn * (a * b))) <= 128 * ulp1.
Proof.
  intros H1 H2 HC He Ha Hb. pose proof ulp1_pos as U0. pose proof ulp1_val as UV.
  assert (Ro : forall x K, 1 <= K -> Rabs x <= K -> Rabs (b64 x - x) <= (K + / 1000) * ulp1).
  { intros x K HK Hx. pose proof (round_le x K 1 ltac:(lra) HK ltac:(lra)). lra. }
  apply Rabs_le_inv in H1. apply Rabs_le_inv in H2.
  assert (Bs : 1 - 22 * ulp1 <= s <= 1 + 22 * ulp1) by lra.
  assert (D : Rabs (2 / s - 2 / nn) <= 11 * ulp1).
  { replace (2 / s - 2 / nn) with ((nn - s) * (2 * (/ s * / nn))) by (field; split; lra).
    replace (11 * ulp1) with (5 * ulp1 * (11 / 5)) by field. apply prod_le; [apply Rabs_le; lra|].
    assert (I1 : 0 < / s <= 104 / 100) by (split; [apply Rinv_0_lt_compat; lra|]; apply Rmult_le_reg_l with s; [lra|]; rewrite Rinv_r by lra; lra).
    assert (I2 : 0 < / nn <= 104 / 100) by (split; [apply Rinv_0_lt_compat; lra|]; apply Rmult_le_reg_l with nn; [lra|]; rewrite Rinv_r by lra; lra).
    apply Rabs_le. nra. }
  assert (N : 2 - 100 * ulp1 <= 2 / nn <= 2 + 100 * ulp1).
  { assert (X : nn * (2 / nn) = 2) by (field; lra). set (z := 2 / nn) in *. clearbody z. split; apply Rmult_le_reg_l with nn; try lra; rewrite X; rewrite UV in *; nra. }
  apply Rabs_le_inv in D.
  assert (C0 : Rabs (2 / s) <= 21 / 10) by (apply Rabs_le; lra).
  pose proof (Ro (2 / s) (21 / 10) ltac:(lra) C0) as C1. rewrite <- HC in C1. apply Rabs_le_inv in C1.
  assert (C2 : Rabs (c - 2 / nn) <= 14 * ulp1) by (apply Rabs_le; lra).
  assert (P : Rabs (a * b) <= (1 + 8 * ulp1) * (1 + 8 * ulp1)) by (apply prod_le; auto).
  assert (P' : Rabs (a * b) <= 11 / 10) by (rewrite UV in *; lra).
  pose proof (Ro (a * b) (11 / 10) ltac:(lra) P') as P1.
  set (ab := a * b) in *. set (w := b64 ab) in *.
  assert (W : Rabs w <= 12 / 10). { apply Rabs_le_inv in P'. apply Rabs_le_inv in P1. apply Rabs_le. lra. }
  assert (Q1 : Rabs ((c - 2 / nn) * w) <= 14 * ulp1 * (12 / 10)) by (apply prod_le; auto).
  assert (N' : Rabs (2 / nn) <= 21 / 10) by (apply Rabs_le; lra).
  assert (Q2 : Rabs (2 / nn * (w - ab)) <= 21 / 10 * ((11 / 10 + / 1000) * ulp1)) by (apply prod_le; auto).
  assert (Cb : Rabs c <= 22 / 10) by (apply Rabs_le; apply Rabs_le_inv in C0; lra).
  assert (Q3 : Rabs (c * w) <= 22 / 10 * (12 / 10)) by (apply prod_le; auto).
  assert (Q3' : Rabs (c * w) <= 3) by lra.
  pose proof (Ro (c * w) 3 ltac:(lra) Q3') as R1. set (v := b64 (c * w)) in *.
  assert (V : Rabs (e - v) <= 5). { apply Rabs_le_inv in R1. apply Rabs_le_inv in Q3. apply Rabs_le_inv in He. apply Rabs_le. lra. }
  pose proof (Ro (e - v) 5 ltac:(lra) V) as R2.
  replace (b64 (e - v) - (e - 2 / nn * ab)) with
    ((b64 (e - v) - (e - v)) - (v - c * w) - (c - 2 / nn) * w - 2 / nn * (w - ab)) by ring.
  apply Rabs_le_inv in R1. apply Rabs_le_inv in R2. apply Rabs_le_inv in Q1. apply Rabs_le_inv in Q2. apply Rabs_le. lra.
Qed.
Lemma refl_close n : Rabs (norm n - 1) <= / 2 ^ 50 -> close (reflection_matrix n) (f_reflection_matrix dotm n).
Proof.
  intros H. pose proof ulp1_pos as U0. pose proof ulp1_val as UV. assert (E50 : / 2 ^ 50 = 8 * ulp1) by (rewrite UV; lra). rewrite E50 in H.
  apply Rabs_le_inv in H. destruct (comp_norm n) as (n1 & n2 & n3).
  assert (NN : Rabs (dot n n - 1) <= 17 * ulp1) by (rewrite <- norm_sq; apply Rabs_le; rewrite UV in *; split; nra).
  assert (S : Rabs (dotm n n - dot n n) <= 5 * ulp1).
  { eapply Rle_trans; [apply ACC|]. rewrite !(Rabs_pos_eq (_ * _)) by nra. fold (dot n n). pose proof (tiny_small 1 ltac:(lra)).
    apply Rabs_le_inv in NN. assert (4 * ulp1 * dot n n <= 4 * ulp1 * (101 / 100)) by (apply Rmult_le_compat_l; rewrite UV in *; lra). lra. }
  assert (K : forall e a b, Rabs e <= 1 -> Rabs a <= norm n -> Rabs b <= norm n ->
     Rabs (b64 (e - b64 (b64 (2 / dotm n n) * b64 (a * b))) - (e - 2 / dot n n * (a * b))) <= 128 * ulp1).
  { intros e a b He Ha Hb. apply (refl_entry (dotm n n) _ (dot n n)); auto; lra. }
  assert (E1 : Rabs 1 <= 1) by (rewrite Rabs_R1; lra). assert (E0 : Rabs 0 <= 1) by (rewrite Rabs_R0; lra).
  unfold close, close_row, f_reflection_matrix, reflection_matrix, fsub, f_vscale, msub, mscale, outer, vsub, vscale, mI. cbn [r0 r1 r2 vx vy vz].
  repeat split; apply K; auto.
Qed.

Lemma normal_nonzero n : Rabs (norm n - 1) <= / 2 ^ 50 -> n <> v0.
Proof. intros H ->. rewrite norm_v0 in H. replace (0 - 1) with (-1) in H by ring. rewrite Rabs_left in H by lra. pose proof (Rinv_le 2 (2 ^ 50)). lra. Qed.

(** one rounded step *)
Lemma step_err d B t q : 0 <= d <= 1 -> 1 <= B -> tame d B t -> norm q <= 2 * B ->
  dist (f_apply_pt dotm t q) (apply_pt t q) <= / 2 ^ 40 * B.
Proof.
  intros [D0 D1] HB HT HQ. destruct t as [s lk bo|m o lk bo|o lk bo|pl lk bo|ts]; cbn [tame f_apply_pt apply_pt] in *.
  - destruct (comp_norm q) as (q1 & q2 & q3). destruct (comp_norm s) as (s1 & s2 & s3).
    assert (K : forall a b, Rabs a <= norm q -> Rabs b <= norm s -> Rabs (b64 (a + b) - (a + b)) <= 4 * (ulp1 * B)).
    { intros a b Ha Hb. pose proof (Rabs_triang a b). pose proof (round_le (a + b) 3 B HB ltac:(lra) ltac:(lra)). pose proof ulp1_pos. nra. }
    unfold dist. eapply Rle_trans; [apply norm_sum|]. unfold fadd, vadd, vsub. cbn [vx vy vz].
    pose proof (K _ _ q1 s1). pose proof (K _ _ q2 s2). pose proof (K _ _ q3 s3). pose proof ulp1_pos. rewrite ulp1_val in *. nra.
  - destruct HT as [HM HO]. apply matrix_step; auto using close_refl. intros x. eapply Rle_trans; [apply HM|]. apply Rmult_le_compat_r; [apply norm_pos|lra].
  - apply matrix_step; auto using close_refl. intros x. replace (mv (mscale (-1) mI) x) with (vopp x) by vring. rewrite norm_opp. pose proof (norm_pos x). lra.
  - destruct HT as [HN HP]. apply matrix_step; auto using refl_close. intros x. rewrite refl_norm by (apply normal_nonzero; auto). pose proof (norm_pos x). lra.
  - destruct HT.
Qed.
End Step.

(** exact steps stretch little *)
Lemma step_stretch d B t p q : 0 <= d -> tame d B t -> dist (apply_pt t p) (apply_pt t q) <= (1 + d) * dist p q.
Proof.
  intros D0 HT. assert (W : forall x, norm x <= (1 + d) * norm x) by (intros x; pose proof (norm_pos x); nra).
  destruct t as [s lk bo|m o lk bo|o lk bo|pl lk bo|ts]; cbn [tame apply_pt] in *; unfold dist.
  - replace (vsub (vadd p s) (vadd q s)) with (vsub p q) by vring. apply W.
  - rewrite matrix_pt_sub. apply HT.
  - rewrite matrix_pt_sub. replace (mv (mscale (-1) mI) (vsub p q)) with (vopp (vsub p q)) by vring. rewrite norm_opp. apply W.
  - rewrite matrix_pt_sub. rewrite refl_norm by (apply normal_nonzero, HT). apply W.
  - destruct HT.
Qed.
Lemma dist_triangle a b c : dist a c <= dist a b + dist b c.
Proof. unfold dist. replace (vsub a c) with (vadd (vsub a b) (vsub b c)) by vring. apply norm_triangle. Qed.
