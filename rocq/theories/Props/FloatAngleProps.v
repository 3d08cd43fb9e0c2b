(** C146, C147: angles and the independence of basis vectors in double precision. *)
From Coq Require Import Reals List Bool ZArith Lra Lia Psatz.
From Flocq Require Import Core.
From Verif.Model Require Import Base Vec Angle Voxel Float FloatRot FloatAngle.
From Verif.Spec Require Import Geometry FloatSpec FloatRotSpec.
From Verif.Proofs Require Import VecFacts FloatFacts FloatRotFacts FloatRotErr FloatRotCase.
From Verif.Props Require Import TransformProps FloatRotProps.
Import ListNotations.
Open Scope R_scope.

Lemma cos_gap x y : 0 <= y <= x -> x <= PI -> (x - y) * (x - y) / 18 <= Rabs (cos x - cos y).
Proof.
  intros [Hy Hx] HP. set (h := (x - y) / 2). pose proof PI_4 as P4. pose proof PI_RGT_0 as P0.
  assert (J : forall z, 0 <= z <= PI / 2 -> z / 3 <= sin z).
  { intros z [Z0 Z1]. destruct (sin_bound z 0 Z0 ltac:(lra)) as [B _]. unfold sin_approx, sin_term in B. cbn in B. assert (Z2 : z <= 2) by lra. assert (z * z <= 4) by nra. nra. }
  assert (H0 : 0 <= h <= PI / 2) by (unfold h; lra).
  assert (S1 : h / 3 <= sin h) by (apply J; auto).
  assert (S2 : sin h <= sin ((x + y) / 2)).
  { destruct (Rle_dec ((x + y) / 2) (PI / 2)) as [L|L].
    - apply sin_incr_1; unfold h in *; lra.
    - rewrite <- (sin_PI_x ((x + y) / 2)). apply sin_incr_1; unfold h in *; lra. }
  rewrite form2. fold h. rewrite !Rabs_mult. replace (Rabs (-2)) with 2 by (rewrite Rabs_left by lra; lra).
  rewrite (Rabs_pos_eq (sin h)), (Rabs_pos_eq (sin ((x + y) / 2))) by lra.
  assert (E : x - y = 2 * h) by (unfold h; lra). rewrite E. nra.
Qed.
Lemma acos_holder a b e : -1 <= a <= 1 -> -1 <= b <= 1 -> 0 <= e -> 18 * Rabs (a - b) <= e * e -> Rabs (acos a - acos b) <= e.
Proof.
  intros Ha Hb He H. pose proof (acos_bound a) as Ba. pose proof (acos_bound b) as Bb.
  assert (K : forall x y, -1 <= x <= 1 -> -1 <= y <= 1 -> 18 * Rabs (x - y) <= e * e -> acos y <= acos x -> acos x - acos y <= e).
  { intros x y Hx Hy HH L. pose proof (acos_bound x). pose proof (acos_bound y).
    pose proof (cos_gap (acos x) (acos y) ltac:(lra) ltac:(lra)) as G. rewrite !cos_acos in G by lra.
    assert (Q : (acos x - acos y) * (acos x - acos y) <= e * e) by lra. nra. }
  destruct (Rle_dec (acos b) (acos a)) as [L|L].
  - rewrite Rabs_pos_eq by lra. apply K; auto.
  - rewrite Rabs_left by lra. rewrite Rabs_minus_sym in H. pose proof (K b a Hb Ha H ltac:(lra)). lra.
Qed.
(** cosines of well separated directions stay away from 1 *)
Lemma cosine_away L v w s : sound_lib L -> sizable v -> sizable w -> / 2 ^ 13 <= s <= 1 -> s * (norm v * norm w) <= norm (cross v w) ->
  exists q, f_cosine L v w = Some q /\ -1 + / 8192 * / 8192 * / 4 <= q <= 1 - / 8192 * / 8192 * / 4.
Proof.
  intros HL Zv Zw Hs H. assert (E13 : / 2 ^ 13 = / 8192) by (f_equal; lra). rewrite E13 in Hs. pose proof p400_pos as P0.
  assert (Pv : 0 < norm v) by (unfold sizable in Zv; lra). assert (Pw : 0 < norm w) by (unfold sizable in Zw; lra).
  assert (PP : 0 < norm v * norm w) by (apply Rmult_lt_0_compat; auto).
  set (x := cross v w) in *. set (C := dot v w / (norm v * norm w)). set (Sn := norm x / (norm v * norm w)).
  assert (HSn : s <= Sn). { unfold Sn. apply Rmult_le_reg_r with (norm v * norm w); auto. unfold Rdiv. rewrite Rmult_assoc, Rinv_l by lra. lra. }
  assert (SC : Sn * Sn = 1 - C * C).
  { unfold Sn, C. pose proof (lagrange v w) as LG. fold x in LG. rewrite <- !VecFacts.norm_sq in LG.
    apply Rmult_eq_reg_r with ((norm v * norm w) * (norm v * norm w)); [|nra].
    transitivity (norm x * norm x); [field; lra|]. rewrite LG. field. lra. }
  pose proof (cosine_eq L v w HL Zv Zw) as Q. pose proof (cosine_err L v w HL Zv Zw) as QE. eexists. split; [exact Q|]. set (q := b64 (_ / _)) in *. fold C in QE.
  apply Rabs_le_inv in QE. assert (C * C <= 1 - / 8192 * / 8192) by nra. assert (-1 + / 8192 * / 8192 * / 2 <= C <= 1 - / 8192 * / 8192 * / 2) by nra. lra.
Qed.

(** * C146: vangle *)
(** The angle, when it is a number, is the true one up to 2^-20. *)
Theorem C146_close_partial : forall L v w t, sound_lib L -> sizable v -> sizable w -> f_vangle L v w = Some t ->
  Rabs (t - acos (dot v w / (norm v * norm w))) <= / 2 ^ 20.
Proof.
  intros L v w t HL Zv Zw H. unfold f_vangle in H. rewrite (cosine_eq L v w HL Zv Zw) in H. pose proof (cosine_err L v w HL Zv Zw) as QE.
  set (q := b64 (_ / _)) in *. assert (BQ : -1 <= q <= 1).
  { destruct (Rlt_dec q (-1)) as [A|A]; [rewrite (sl_nan L HL) in H by auto; discriminate|]. destruct (Rlt_dec 1 q) as [B|B]; [rewrite (sl_nan L HL) in H by auto; discriminate|]. lra. }
  destruct (sl_acos L HL q BQ) as (t' & E & TE). rewrite E in H. injection H as ->. rewrite half50 in TE.
  assert (BC : -1 <= dot v w / (norm v * norm w) <= 1). { unfold sizable in *. pose proof p400_pos. apply cos_angle_range; lra. }
  assert (E21 : / 2 ^ 20 = / 1048576) by (f_equal; lra). rewrite E21.
  pose proof (acos_holder q (dot v w / (norm v * norm w)) (/ 1100000) BQ BC ltac:(lra) ltac:(lra)) as D.
  pose proof (near_trans _ _ _ _ _ TE D). lra.
Qed.
(** It is a number, and accurate to 2^-44 / s, for directions at an angle of sine at least s. *)
Theorem C146_accurate_partial : forall L v w s, sound_lib L -> sizable v -> sizable w -> / 2 ^ 13 <= s <= 1 -> s * (norm v * norm w) <= norm (cross v w) ->
  exists t, f_vangle L v w = Some t /\ Rabs (t - acos (dot v w / (norm v * norm w))) <= / 2 ^ 44 / s.
Proof.
  intros L v w s HL Zv Zw Hs H. destruct (cosine_away L v w s HL Zv Zw Hs H) as (q & Q & BQ).
  unfold f_vangle. rewrite Q. destruct (sl_acos L HL q ltac:(lra)) as (t & E & TE). exists t. split; [exact E|]. rewrite half50 in TE.
  pose proof (cosine_eq L v w HL Zv Zw) as Q2. rewrite Q in Q2. injection Q2 as Q2. pose proof (cosine_err L v w HL Zv Zw) as QE. rewrite <- Q2 in QE. clear Q Q2.
  assert (E13 : / 2 ^ 13 = / 8192) by (f_equal; lra). rewrite E13 in Hs. pose proof p400_pos as P0.
  assert (Pv : 0 < norm v) by (unfold sizable in Zv; lra). assert (Pw : 0 < norm w) by (unfold sizable in Zw; lra).
  assert (PP : 0 < norm v * norm w) by (apply Rmult_lt_0_compat; auto).
  set (x := cross v w) in *. set (C := dot v w / (norm v * norm w)) in *. set (Sn := norm x / (norm v * norm w)).
  assert (HSn : s <= Sn). { unfold Sn. apply Rmult_le_reg_r with (norm v * norm w); auto. unfold Rdiv. rewrite Rmult_assoc, Rinv_l by lra. lra. }
  assert (SC : Sn * Sn = 1 - C * C).
  { unfold Sn, C. pose proof (lagrange v w) as LG. fold x in LG. rewrite <- !VecFacts.norm_sq in LG.
    apply Rmult_eq_reg_r with ((norm v * norm w) * (norm v * norm w)); [|nra].
    transitivity (norm x * norm x); [field; lra|]. rewrite LG. field. lra. }
  assert (CC : C * C <= 1 - s * s) by nra.
  assert (BC : -1 + / 8192 * / 8192 * / 2 <= C <= 1 - / 8192 * / 8192 * / 2) by nra.
  assert (D : Rabs (acos q - acos C) <= / 35184372088832 * / s).
  { assert (M : forall y, Rmin C q <= y <= Rmax C q -> 0 < s / 2 /\ -1 < y < 1 /\ s / 2 <= sqrt (1 - y ^ 2)).
    { intros y [Y1 Y2]. assert (YC : Rabs (y - C) <= / 70368744177664).
      { eapply Rle_trans; [|exact QE]. unfold Rmin, Rmax in *. destruct (Rle_dec C q); [rewrite !Rabs_pos_eq by lra; lra|]. rewrite Rabs_minus_sym, (Rabs_minus_sym q). rewrite !Rabs_pos_eq by lra. lra. }
      apply Rabs_le_inv in YC. split; [lra|]. split; [lra|]. rewrite <- (sqrt_square (s / 2)) by lra. apply sqrt_le_1_alt.
      assert (y * y <= C * C + / 70368744177664 * 3) by nra. nra. }
    destruct (MVT_abs acos (fun y => -1 / sqrt (1 - y ^ 2)) C q) as (c & E1 & BC1).
    { intros y By. destruct (M y By) as (_ & B & _). replace (-1 / sqrt (1 - y ^ 2)) with (- 1 / sqrt (1 - y²)) by (unfold Rsqr; f_equal; f_equal; ring). apply derive_pt_eq_1 with (derivable_pt_acos y B). rewrite derive_pt_acos. reflexivity. }
    rewrite E1. destruct (M c BC1) as (S0 & _ & S1).
    assert (I : Rabs (-1 / sqrt (1 - c ^ 2)) <= 2 * / s).
    { unfold Rdiv. rewrite Rabs_mult. replace (Rabs (-1)) with 1 by (rewrite Rabs_left by lra; lra). rewrite Rmult_1_l.
      rewrite Rabs_pos_eq by (apply Rlt_le, Rinv_0_lt_compat; lra). replace (2 * / s) with (/ (s / 2)) by (field; lra). apply Rinv_le; lra. }
    pose proof (Rmult_le_compat _ _ _ _ (Rabs_pos _) (Rabs_pos _) I QE). lra. }
  pose proof (near_trans _ _ _ _ _ TE D) as T. eapply Rle_trans; [exact T|].
  assert (E44 : / 2 ^ 44 = / 17592186044416) by (f_equal; lra). rewrite E44. unfold Rdiv. assert (1 <= / s) by (rewrite <- Rinv_1; apply Rinv_le; lra). lra.
Qed.
(** The angle between [1 1 1] and itself, or [1 1 2] and itself, is NaN, and that between
    [1 1 0] and itself is not zero. *)
Theorem C146_itself_refuted : forall L, sound_lib L ->
  f_vangle L (mkV 1 1 1) (mkV 1 1 1) = None /\ f_vangle L (mkV 1 1 2) (mkV 1 1 2) = None /\
  exists t, f_vangle L (mkV 1 1 0) (mkV 1 1 0) = Some t /\ / 2 ^ 41 <= t.
Proof.
  intros L HL. assert (WH : forall a b c, (Z.abs a <= 1 /\ Z.abs b <= 1 /\ Z.abs c <= 2)%Z -> whole (mkV (IZR a) (IZR b) (IZR c))).
  { intros a b c Hab. exists a, b, c. split; [reflexivity|]. cbn; lia. }
  pose proof (WH 1 1 1)%Z. pose proof (WH 1 1 2)%Z. pose proof (WH 1 1 0)%Z. 
  assert (SZ : forall x, 1 <= dot x x -> sizable x).
  { intros x Hx. unfold sizable. apply Rle_trans with 1; [|unfold norm; rewrite <- sqrt_1; apply sqrt_le_1_alt, Hx].
    rewrite <- Rinv_1. apply Rinv_le; [lra|]. apply pow_R1_Rle. lra. }
  assert (D1 : dot (mkV 1 1 1) (mkV 1 1 1) = 3) by (unfold dot; cbn; ring).
  assert (D2 : dot (mkV 1 1 2) (mkV 1 1 2) = 6) by (unfold dot; cbn; ring).
  assert (D3 : dot (mkV 1 1 0) (mkV 1 1 0) = 2) by (unfold dot; cbn; ring).
  assert (Z1 : sizable (mkV 1 1 1)) by (apply SZ; lra). assert (Z2 : sizable (mkV 1 1 2)) by (apply SZ; lra). assert (Z3 : sizable (mkV 1 1 0)) by (apply SZ; lra).
  unfold f_vangle. rewrite !cosine_eq by auto. unfold f_len. rewrite !(sl_whole L HL) by (auto; apply H || apply H0 || apply H1; lia).
  rewrite D1, D2, D3, cos_3, cos_6, cos_2. rewrite !(sl_nan L HL) by (right; lra). split; [reflexivity|]. split; [reflexivity|].
  destruct (sl_acos L HL (9007199254740990 / 9007199254740992) ltac:(lra)) as (t & E & TE). exists t. split; [exact E|].
  rewrite half50 in TE. apply Rabs_le_inv in TE.
  assert (E53 : / 2 ^ 53 = / 9007199254740992) by (f_equal; lra).
  pose proof (acos_big (9007199254740990 / 9007199254740992) ltac:(lra) ltac:(rewrite E53; lra)) as A. rewrite p40 in A.
  assert (E41 : / 2 ^ 41 = / 2199023255552) by (f_equal; lra). rewrite E41. lra.
Qed.
Example C146_nonvacuous : sound_lib plain_lib /\ sizable (mkV 1 1 1) /\
  / 2 * (norm (mkV 1 0 0) * norm (mkV 1 1 1)) <= norm (cross (mkV 1 0 0) (mkV 1 1 1)) /\
  exists t, f_vangle plain_lib (mkV 1 0 0) (mkV 1 1 1) = Some t.
Proof.
  destruct C145_nonvacuous as (A & _ & _ & _ & B & _ & _ & C). split; [exact A|]. split; [exact B|]. split; [exact C|].
  assert (S1 : sizable (mkV 1 0 0)).
  { unfold sizable, norm, dot. cbn [vx vy vz]. replace (1 * 1 + 0 * 0 + 0 * 0) with 1 by ring. rewrite sqrt_1. rewrite <- Rinv_1 at 1. apply Rinv_le; [lra|]. apply pow_R1_Rle. lra. }
  assert (E13 : / 2 ^ 13 = / 8192) by (f_equal; lra).
  destruct (C146_accurate_partial plain_lib _ _ (/ 2) A S1 B ltac:(rewrite E13; lra) C) as (t & E & _). exists t. exact E.
Qed.

(** * C147: Voxel bases *)
(** The same vector twice is accepted; exact arithmetic refuses it. *)
Theorem C147_collinear_refuted : forall L, sound_lib L -> let b := mkM (mkV 1 1 1) (mkV 1 1 1) (mkV 1 0 0) in
  f_check_bases L b = Ok b /\ check_bases b = Err AssertionError.
Proof.
  intros L HL b.
  assert (W : whole (mkV 1 1 1)) by (exists 1%Z, 1%Z, 1%Z; split; [reflexivity|cbn; lia]).
  destruct C145_nonvacuous as (_ & _ & _ & _ & Z1 & _ & _ & C).
  assert (Z0 : sizable (mkV 1 0 0)).
  { unfold sizable, norm, dot. cbn [vx vy vz]. replace (1 * 1 + 0 * 0 + 0 * 0) with 1 by ring. rewrite sqrt_1. rewrite <- Rinv_1 at 1. apply Rinv_le; [lra|]. apply pow_R1_Rle. lra. }
  split.
  - assert (K1 : f_collinear L (mkV 1 1 1) (mkV 1 1 1) = false).
    { unfold f_collinear. rewrite cosine_eq by auto. unfold f_len. rewrite !(sl_whole L HL) by auto.
      replace (dot (mkV 1 1 1) (mkV 1 1 1)) with 3 by (unfold dot; cbn; ring). rewrite cos_3. apply Reqb_false. rewrite Rabs_pos_eq; lra. }
    assert (K2 : f_collinear L (mkV 1 1 1) (mkV 1 0 0) = false).
    { assert (E13 : / 2 ^ 13 = / 8192) by (f_equal; lra).
      destruct (cosine_away L (mkV 1 1 1) (mkV 1 0 0) (/ 2) HL Z1 Z0) as (q & Q & BQ); [rewrite E13; lra| |].
      { rewrite Rmult_comm with (r1 := norm (mkV 1 1 1)). eapply Rle_trans; [exact C|]. apply Req_le. unfold norm. f_equal. unfold dot, cross. cbn. ring. }
      unfold f_collinear. rewrite Q. apply Reqb_false. unfold Rabs. destruct (Rcase_abs q); lra. }
    unfold f_check_bases, b. cbn [r0 r1 r2]. rewrite K1, K2. reflexivity.
  - unfold check_bases, b. cbn [r0 r1 r2]. unfold collinear.
    assert (E : dot (mkV 1 1 1) (mkV 1 1 1) / (norm (mkV 1 1 1) * norm (mkV 1 1 1)) = 1).
    { rewrite VecFacts.norm_sq. field. unfold dot; cbn; lra. }
    rewrite E, Rabs_R1, (proj2 (Reqb_iff 1 1) eq_refl), VecFacts.norm_sq, (proj2 (Reqb_false _ _)); [reflexivity|]. unfold dot; cbn; lra.
Qed.
(** Three vectors, every two of which make an angle of sine at least 2^-13, are accepted. *)
Theorem C147_independent_partial : forall L b, sound_lib L -> sizable (r0 b) -> sizable (r1 b) -> sizable (r2 b) ->
  (forall x y, In (x, y) [(r0 b, r1 b); (r0 b, r2 b); (r1 b, r2 b)] -> / 2 ^ 13 * (norm x * norm y) <= norm (cross x y)) ->
  f_check_bases L b = Ok b.
Proof.
  intros L b HL Z0 Z1 Z2 H.
  assert (K : forall x y, sizable x -> sizable y -> / 2 ^ 13 * (norm x * norm y) <= norm (cross x y) -> f_collinear L x y = false).
  { intros x y Zx Zy HH. assert (E13 : / 2 ^ 13 = / 8192) by (f_equal; lra).
    destruct (cosine_away L x y (/ 2 ^ 13) HL Zx Zy ltac:(rewrite E13; lra) HH) as (q & Q & BQ).
    unfold f_collinear. rewrite Q. apply Reqb_false. unfold Rabs. destruct (Rcase_abs q); lra. }
  unfold f_check_bases. rewrite !K; auto; apply H; cbn; auto.
Qed.
Lemma whole_collinear L v w n m : sound_lib L -> whole v -> whole w -> (0 < n <= 2 ^ 21)%Z -> (0 < m <= 2 ^ 21)%Z ->
  norm v = IZR n -> norm w = IZR m -> Rabs (dot v w) = IZR n * IZR m -> f_collinear L v w = true.
Proof.
  intros S Wv Ww Hn Hm Nv Nw D.
  assert (LV : f_len L v = IZR n). { unfold f_len. rewrite (sl_whole L S) by auto. fold (norm v). rewrite Nv. apply b64_Z. lia. }
  assert (LW : f_len L w = IZR m). { unfold f_len. rewrite (sl_whole L S) by auto. fold (norm w). rewrite Nw. apply b64_Z. lia. }
  assert (P : 0 < IZR (n * m)) by (apply IZR_lt; nia).
  unfold f_collinear, f_cosine. rewrite LV, LW, (sl_whole L S) by auto. rewrite <- mult_IZR in *. rewrite b64_Z by nia.
  rewrite (proj2 (Reqb_false _ _)) by lra.
  assert (E : Rabs (b64 (dot v w / IZR (n * m))) = 1).
  { unfold Rabs in D. destruct (Rcase_abs (dot v w)).
    - replace (dot v w / IZR (n * m)) with (IZR (-1)) by (replace (dot v w) with (- IZR (n * m)) by lra; field; lra). rewrite b64_Z by lia. rewrite Rabs_left; lra.
    - rewrite D. replace (IZR (n * m) / IZR (n * m)) with (IZR 1) by (field; lra). rewrite b64_Z by lia. apply Rabs_R1. }
  apply (proj2 (Reqb_iff _ _) E).
Qed.
(** Basis vectors two of which, whichever, are parallel or opposite whole-number vectors of
    whole-number length are refused. *)
Theorem C147_whole_partial : forall L b v w n m, sound_lib L -> In (v, w) [(r0 b, r1 b); (r0 b, r2 b); (r1 b, r2 b)] -> whole v -> whole w ->
  (0 < n <= 2 ^ 21)%Z -> (0 < m <= 2 ^ 21)%Z -> norm v = IZR n -> norm w = IZR m -> Rabs (dot v w) = IZR n * IZR m ->
  f_check_bases L b = Err AssertionError.
Proof.
  intros L b v w n m S I Wv Ww Hn Hm Nv Nw D. pose proof (whole_collinear L v w n m S Wv Ww Hn Hm Nv Nw D) as C. unfold f_check_bases.
  destruct I as [I|[I|[I|[]]]]; inversion I; subst; rewrite C; [|destruct (f_collinear L (r0 b) (r1 b))|destruct (f_collinear L (r0 b) (r1 b)), (f_collinear L (r0 b) (r2 b))]; reflexivity.
Qed.
Example C147_nonvacuous : let b := mkM (mkV 4 0 0) (mkV 0 4 0) (mkV 0 0 4) in
  sound_lib plain_lib /\ sizable (r0 b) /\ sizable (r1 b) /\ sizable (r2 b) /\
  (forall x y, In (x, y) [(r0 b, r1 b); (r0 b, r2 b); (r1 b, r2 b)] -> / 2 ^ 13 * (norm x * norm y) <= norm (cross x y)) /\
  whole (mkV 3 0 4) /\ norm (mkV 3 0 4) = 5 /\ norm (mkV (-6) 0 (-8)) = 10 /\ Rabs (dot (mkV 3 0 4) (mkV (-6) 0 (-8))) = 5 * 10.
Proof.
  intros b. assert (N : norm (mkV 4 0 0) = 4 /\ norm (mkV 0 4 0) = 4 /\ norm (mkV 0 0 4) = 4).
  { unfold norm, dot. cbn [vx vy vz]. repeat split; (replace (sqrt _) with (sqrt (4 * 4)) by (f_equal; ring)); apply sqrt_square; lra. }
  destruct N as (N0 & N1 & N2). assert (P : / 2 ^ 400 <= 4). { apply Rle_trans with 1; [|lra]. rewrite <- Rinv_1. apply Rinv_le; [lra|]. apply pow_R1_Rle. lra. }
  split; [apply plain_sound|]. unfold sizable. cbn [r0 r1 r2 b]. rewrite N0, N1, N2. do 3 (split; [exact P|]). split.
  { assert (E13 : / 2 ^ 13 = / 8192) by (f_equal; lra). rewrite E13.
    intros x y [H|[H|[H|[]]]]; injection H as <- <-; rewrite ?N0, ?N1, ?N2; unfold norm, dot, cross; cbn [vx vy vz]; (replace (sqrt _) with (sqrt (16 * 16)) by (f_equal; ring)); rewrite sqrt_square by lra; lra. }
  split; [exists 3%Z, 0%Z, 4%Z; split; [reflexivity|cbn; lia]|].
  split; [|split].
  - unfold norm, dot. cbn [vx vy vz]. replace (3 * 3 + 0 * 0 + 4 * 4) with (5 * 5) by ring. apply sqrt_square. lra.
  - unfold norm, dot. cbn [vx vy vz]. replace (-6 * -6 + 0 * 0 + -8 * -8) with (10 * 10) by ring. apply sqrt_square. lra.
  - unfold dot. cbn [vx vy vz]. rewrite Rabs_left; lra.
Qed.
