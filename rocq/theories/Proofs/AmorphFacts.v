(** Facts about voxels, periodic distances and the rejection loop. *)
From Coq Require Import Reals List ZArith Bool Lra Lia Psatz.
From Flocq Require Import Core.Raux Core.Generic_fmt Core.Round_NE.
From Verif.Model Require Import Base Vec Voxel Priority Measure Amorphous.
From Verif.Spec Require Import Geometry AmorphSpec.
From Verif.Proofs Require Import VecFacts.
Import ListNotations.
Open Scope R_scope.
Local Arguments IZR : simpl never.

(* -- one axis -- *)
Lemma block_range s c L : 0 < s -> 0 <= c < L -> (0 <= Zfloor (/ s * c) < Zceil (/ s * L))%Z.
Proof.
  intros Hs [H1 H2]. assert (0 < / s) by (apply Rinv_0_lt_compat; auto). split.
  - apply Zfloor_lub. apply Rmult_le_pos; lra.
  - apply lt_IZR. apply Rle_lt_trans with (/ s * c); [apply Zfloor_lb|].
    apply Rlt_le_trans with (/ s * L); [apply Rmult_lt_compat_l; auto|apply Zceil_ub].
Qed.
Lemma block_far s a b : 0 < s -> (2 <= Zfloor (/ s * a) - Zfloor (/ s * b))%Z -> s < a - b.
Proof.
  intros Hs H. pose proof (Zfloor_lb (/ s * a)). pose proof (Zfloor_ub (/ s * b)). apply IZR_le in H. rewrite minus_IZR in H.
  assert (1 < / s * a - / s * b) by lra. replace (a - b) with (s * (/ s * a - / s * b)) by (field; lra).
  rewrite <- (Rmult_1_r s) at 1. apply Rmult_lt_compat_l; lra.
Qed.
Lemma block_far_abs s a b : 0 < s -> (2 <= Z.abs (Zfloor (/ s * a) - Zfloor (/ s * b)))%Z -> s < Rabs (a - b).
Proof.
  intros Hs H. destruct (Z_le_dec 2 (Zfloor (/ s * a) - Zfloor (/ s * b))) as [L|L].
  - pose proof (block_far _ _ _ Hs L). rewrite Rabs_pos_eq; lra.
  - assert (L2 : (2 <= Zfloor (/ s * b) - Zfloor (/ s * a))%Z) by lia. pose proof (block_far _ _ _ Hs L2).
    rewrite Rabs_left; lra.
Qed.
(* squared coordinates against the distance *)
Lemma dist_sq p q : dist p q ^ 2 = (vx p - vx q) * (vx p - vx q) + (vy p - vy q) * (vy p - vy q) + (vz p - vz q) * (vz p - vz q).
Proof. unfold dist. replace (norm (vsub p q) ^ 2) with (norm (vsub p q) * norm (vsub p q)) by ring. rewrite norm_sq. vunfold. reflexivity. Qed.
Lemma dist_pos p q : 0 <= dist p q. Proof. apply norm_pos. Qed.
Lemma le_dist d p q : 0 <= d -> d * d <= dist p q ^ 2 -> d <= dist p q.
Proof. intros Hd H. pose proof (dist_pos p q). nra. Qed.
Lemma abs_sq x : Rabs x * Rabs x = x * x.
Proof. rewrite <- Rabs_mult. apply Rabs_pos_eq. nra. Qed.
Lemma axis_le_dist p q : Rabs (vx p - vx q) <= dist p q /\ Rabs (vy p - vy q) <= dist p q /\ Rabs (vz p - vz q) <= dist p q.
Proof.
  pose proof (dist_sq p q) as D. pose proof (dist_pos p q).
  repeat split; apply le_dist; try apply Rabs_pos; rewrite abs_sq, D; generalize (vx p - vx q) (vy p - vy q) (vz p - vz q); intros; nra.
Qed.

(* -- periodic distance -- *)
Lemma pmin_bounds L a b : 0 <= a < L -> 0 <= b < L ->
  let m := Rmin (Rabs (a - b)) (L - Rabs (a - b)) in 0 <= m <= Rabs (a - b).
Proof.
  intros Ha Hb. cbv zeta. pose proof (Rabs_pos (a - b)).
  assert (Rabs (a - b) < L) by (unfold Rabs; destruct (Rcase_abs _); lra).
  unfold Rmin. destruct (Rle_dec _ _); lra.
Qed.
Lemma sq_mono x y : 0 <= x <= y -> x * x <= y * y. Proof. nra. Qed.
Lemma p_dist_le L p q : in_box L p -> in_box L q -> p_dist L p q <= dist p q ^ 2.
Proof.
  intros (X & Y & Z) (X' & Y' & Z'). rewrite dist_sq. unfold p_dist, vabs, vsub. cbn.
  pose proof (sq_mono _ _ (pmin_bounds _ _ _ X X')). pose proof (sq_mono _ _ (pmin_bounds _ _ _ Y Y')).
  rewrite abs_sq in *. rewrite (Rmin_left (Rabs (vz p - vz q))) by lra. rewrite abs_sq. lra.
Qed.

(** The 1-D minimum image. *)
Lemma pmin_image L a b : 0 <= a < L -> 0 <= b < L ->
  let m := Rmin (Rabs (a - b)) (L - Rabs (a - b)) in
  (forall k, m <= Rabs (a + IZR k * L - b)) /\ (exists k, m = Rabs (a + IZR k * L - b)).
Proof.
  intros Ha Hb m. assert (HL : 0 < L) by lra. split.
  - intros k. unfold m. destruct (Z.eq_dec k 0) as [->|K].
    + rewrite Rmult_0_l, Rplus_0_r. apply Rmin_l.
    + apply Rle_trans with (L - Rabs (a - b)); [apply Rmin_r|].
      assert (L <= Rabs (IZR k * L)).
      { rewrite Rabs_mult, (Rabs_pos_eq L) by lra. rewrite <- (Rmult_1_l L) at 1. apply Rmult_le_compat_r; [lra|].
        rewrite <- abs_IZR. apply IZR_le. lia. }
      replace (a + IZR k * L - b) with (IZR k * L - (- (a - b))) by ring.
      pose proof (Rabs_triang_inv (IZR k * L) (- (a - b))). rewrite Rabs_Ropp in *. lra.
  - unfold m, Rmin. destruct (Rle_dec _ _).
    + exists 0%Z. rewrite Rmult_0_l, Rplus_0_r. reflexivity.
    + unfold Rabs at 1. destruct (Rcase_abs (a - b)).
      * exists 1%Z. rewrite Rmult_1_l, Rabs_pos_eq; lra.
      * exists (-1)%Z. rewrite Rabs_left1; lra.
Qed.
Lemma sdist_coord_image (per : bool) L a b : 0 <= a < L -> 0 <= b < L ->
  (forall k, (per = false -> k = 0%Z) -> sdist_coord per L a b * sdist_coord per L a b <= (a + IZR k * L - b) * (a + IZR k * L - b)) /\
  (exists k, (per = false -> k = 0%Z) /\ sdist_coord per L a b * sdist_coord per L a b = (a + IZR k * L - b) * (a + IZR k * L - b)).
Proof.
  intros Ha Hb. unfold sdist_coord. destruct per.
  - destruct (pmin_image L a b Ha Hb) as [M1 [k M2]]. pose proof (pmin_bounds L a b Ha Hb) as PB. cbv zeta in *. split.
    + intros j _. rewrite <- (abs_sq (a + IZR j * L - b)). apply sq_mono. split; [apply PB|apply M1].
    + exists k. split; [discriminate|]. rewrite M2, abs_sq. reflexivity.
  - rewrite abs_sq. split.
    + intros k Hk. rewrite (Hk eq_refl). rewrite Rmult_0_l, Rplus_0_r. lra.
    + exists 0%Z. split; auto. rewrite Rmult_0_l, Rplus_0_r. reflexivity.
Qed.
Definition sdist3 (px py pz : bool) (L p q : vec) : R :=
  let x := sdist_coord px (vx L) (vx p) (vx q) in
  let y := sdist_coord py (vy L) (vy p) (vy q) in
  let z := sdist_coord pz (vz L) (vz p) (vz q) in x * x + y * y + z * z.
Lemma sdist3_min_image px py pz L p q : in_box L p -> in_box L q -> min_image px py pz L p q (sdist3 px py pz L p q).
Proof.
  intros (X & Y & Z) (X' & Y' & Z').
  destruct (sdist_coord_image px _ _ _ X X') as [X1 [a [Xa X2]]].
  destruct (sdist_coord_image py _ _ _ Y Y') as [Y1 [b [Yb Y2]]].
  destruct (sdist_coord_image pz _ _ _ Z Z') as [Z1 [c [Zc Z2]]].
  unfold sdist3. split.
  - intros i j k (A1 & A2 & A3). rewrite dist_sq. cbn. specialize (X1 i A1). specialize (Y1 j A2). specialize (Z1 k A3). lra.
  - exists a, b, c. split; [repeat split; auto|]. rewrite dist_sq. cbn. lra.
Qed.
Lemma p_dist_sdist L p q : p_dist L p q = sdist3 true true false L p q.
Proof.
  unfold p_dist, sdist3, sdist_coord, vabs, vsub. cbn. rewrite (Rmin_left (Rabs (vz p - vz q))) by lra. reflexivity.
Qed.

(* -- voxel neighbourhoods of get_voxels -- *)
Lemma nbr_axis n b b' : (0 <= b < n)%Z -> (0 <= b' < n)%Z -> (Z.abs (b' - b) <= 1)%Z ->
  In b' [b; ((b + 1) mod n)%Z; ((b - 1) mod n)%Z].
Proof.
  intros H H' HA. destruct (Z.eq_dec b' b) as [->|]; [cbn; auto|].
  destruct (Z.eq_dec b' (b + 1)) as [->|]; [right; left; apply Z.mod_small; lia|].
  right; right; left. replace (b - 1)%Z with b' by lia. apply Z.mod_small; lia.
Qed.
Lemma nbr_axis_z n b b' : (0 <= b < n)%Z -> (0 <= b' < n)%Z -> (Z.abs (b' - b) <= 1)%Z ->
  In b' ([b] ++ (if 0 <? b then [b - 1] else []) ++ (if b <? n - 1 then [b + 1] else []))%Z.
Proof.
  intros H H' HA. destruct (Z.eq_dec b' b) as [->|]; [cbn; auto|]. rewrite !in_app_iff.
  destruct (Z.eq_dec b' (b + 1)) as [->|].
  - right; right. destruct (Z.ltb_spec b (n - 1)); [cbn; auto|lia].
  - right; left. destruct (Z.ltb_spec 0 b); [cbn; left; lia|lia].
Qed.
Lemma in_voxel_nbrs n0 n1 n2 i j k i' j' k' :
  In (i', j', k') (voxel_nbrs (n0, n1, n2) (i, j, k)) <->
  In i' [i; ((i + 1) mod n0)%Z; ((i - 1) mod n0)%Z] /\ In j' [j; ((j + 1) mod n1)%Z; ((j - 1) mod n1)%Z] /\
  In k' ([k] ++ (if 0 <? k then [k - 1] else []) ++ (if k <? n2 - 1 then [k + 1] else []))%Z.
Proof.
  unfold voxel_nbrs. rewrite in_flat_map. setoid_rewrite in_flat_map. setoid_rewrite in_map_iff. split.
  - intros (x & Hx & y & Hy & z & E & Hz). inversion E; subst. auto.
  - intros (A & B & C). exists i'. split; auto. exists j'. split; auto. exists k'. auto.
Qed.
(** Two points in voxels that are not neighbours are more than s apart along an axis. *)
Lemma not_nbr_far s L p q : 0 < s -> in_box L p -> in_box L q ->
  ~ In (block_of s p) (voxel_nbrs (num_blocks s L) (block_of s q)) ->
  s < Rabs (vx p - vx q) \/ s < Rabs (vy p - vy q) \/ s < Rabs (vz p - vz q).
Proof.
  intros Hs (X & Y & Z) (X' & Y' & Z') H.
  change (~ In (Zfloor (/ s * vx p), Zfloor (/ s * vy p), Zfloor (/ s * vz p))
      (voxel_nbrs (Zceil (/ s * vx L), Zceil (/ s * vy L), Zceil (/ s * vz L)) (Zfloor (/ s * vx q), Zfloor (/ s * vy q), Zfloor (/ s * vz q)))) in H.
  rewrite in_voxel_nbrs in H.
  destruct (Z_le_dec 2 (Z.abs (Zfloor (/ s * vx p) - Zfloor (/ s * vx q)))) as [F|F]; [left; apply block_far_abs; auto|].
  destruct (Z_le_dec 2 (Z.abs (Zfloor (/ s * vy p) - Zfloor (/ s * vy q)))) as [G|G]; [right; left; apply block_far_abs; auto|].
  destruct (Z_le_dec 2 (Z.abs (Zfloor (/ s * vz p) - Zfloor (/ s * vz q)))) as [I|I]; [right; right; apply block_far_abs; auto|].
  exfalso. apply H. split; [|split]; [apply nbr_axis|apply nbr_axis|apply nbr_axis_z]; try apply block_range; auto; lia.
Qed.
Lemma floor_scaled s a : 0 < s -> IZR (Zfloor (/ s * a)) * s <= a < IZR (Zfloor (/ s * a)) * s + s.
Proof.
  intros Hs. pose proof (Zfloor_lb (/ s * a)) as A1. pose proof (Zfloor_ub (/ s * a)) as A2.
  assert (E : / s * a * s = a) by (field; lra). revert A1 A2 E. generalize (/ s * a). intros t A1 A2 E. rewrite <- E.
  split; [apply Rmult_le_compat_r; lra|]. replace (IZR (Zfloor t) * s + s) with ((IZR (Zfloor t) + 1) * s) by ring.
  apply Rmult_lt_compat_r; lra.
Qed.
(** If the box lengths are whole multiples of s, not being (cyclic) neighbours means
    being further than s apart around the ring as well. *)
Lemma ring_far s L a b n : 0 < s -> L = IZR n * s -> 0 <= a < L -> 0 <= b < L ->
  ~ In (Zfloor (/ s * a)) [Zfloor (/ s * b); ((Zfloor (/ s * b) + 1) mod Zceil (/ s * L))%Z; ((Zfloor (/ s * b) - 1) mod Zceil (/ s * L))%Z] ->
  s < Rmin (Rabs (a - b)) (L - Rabs (a - b)).
Proof.
  intros Hs HL Ha Hb H.
  assert (EN : Zceil (/ s * L) = n). { rewrite HL. replace (/ s * (IZR n * s)) with (IZR n) by (field; lra). apply Zceil_IZR. }
  pose proof (block_range s a L Hs Ha) as Ra. pose proof (block_range s b L Hs Hb) as Rb. rewrite EN in *.
  set (i := Zfloor (/ s * a)) in *. set (j := Zfloor (/ s * b)) in *.
  pose proof (floor_scaled s a Hs) as Bi. pose proof (floor_scaled s b Hs) as Bj. fold i in Bi. fold j in Bj.
  assert (D : (2 <= Z.abs (i - j) <= n - 2)%Z).
  { split.
    - destruct (Z_le_dec 2 (Z.abs (i - j))); auto. exfalso. apply H, nbr_axis; auto; lia.
    - destruct (Z_le_dec (Z.abs (i - j)) (n - 2)); auto. exfalso. apply H.
      destruct (Z.eq_dec i 0) as [I0|I0].
      + assert (j = n - 1)%Z by lia. right; left. replace (j + 1)%Z with n by lia. rewrite Z_mod_same_full. lia.
      + assert (j = 0 /\ i = n - 1)%Z as [-> Ei] by lia. right; right; left.
        rewrite <- (Z_mod_plus_full (0 - 1) 1 n). replace (0 - 1 + 1 * n)%Z with i by lia. apply Z.mod_small. lia. }
  assert (s < Rabs (a - b)) by (apply block_far_abs; auto; fold i j; lia).
  assert (Rabs (a - b) < L - s).
  { rewrite HL. destruct D as [_ D]. apply IZR_le in D. rewrite abs_IZR, !minus_IZR in D.
    assert (Rabs (a - b) < Rabs (IZR i - IZR j) * s + s).
    { replace (Rabs (IZR i - IZR j) * s) with (Rabs (IZR i * s - IZR j * s)).
      - revert Bi Bj. unfold Rabs. destruct (Rcase_abs (a - b)), (Rcase_abs (IZR i * s - IZR j * s)); lra.
      - rewrite <- (Rabs_pos_eq s) at 3 by lra. rewrite <- Rabs_mult. f_equal. ring. }
    nra. }
  unfold Rmin. destruct (Rle_dec _ _); lra.
Qed.
