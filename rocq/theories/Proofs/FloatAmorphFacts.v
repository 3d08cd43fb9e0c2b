(** gen_p_substrate in double precision: one axis, one pair of atoms, and the loop. *)
From Coq Require Import Reals List ZArith Bool Lra Lia Psatz.
From Flocq Require Import Core Relative.
From Verif.Model Require Import Base Vec Amorphous Float FloatAmorph.
From Verif.Spec Require Import Geometry AmorphSpec FloatSpec FloatAmorphSpec.
From Verif.Proofs Require Import VecFacts PriorityFacts VolumeFacts AmorphFacts BatchFacts AmorphLoop FloatFacts FloatRotFacts.
Import ListNotations.
Open Scope R_scope.

Local Arguments IZR : simpl never.
Notation fmt := (generic_format radix2 (FLT_exp (-1074) 53)).

Lemma double_fmt x : double x -> fmt x.
Proof. intros H. unfold double in H. rewrite <- H. apply generic_format_round; [apply fexp_ok|apply valid_rnd_N]. Qed.
Lemma pow2n n : bpow radix2 (- Z.of_nat n) = / 2 ^ n. Proof. apply bpow_neg. Qed.

(** a scaled draw stays below the length *)
Lemma draw_below d u : length_ok d -> draw1 u -> 0 <= b64 (u * d) < d.
Proof.
  intros [D B] (k & K & ->). apply double_fmt in D.
  assert (P100 : 0 < / 2 ^ 100) by (apply Rinv_0_lt_compat, pow_lt; lra).
  assert (D0 : 0 < d) by lra.
  set (p := pred radix2 (FLT_exp (-1074) 53) d).
  assert (Fp : fmt p) by (apply generic_format_pred; auto with typeclass_instances; apply fexp_ok).
  assert (P1 : / 2 ^ 101 <= p).
  { apply pred_ge_gt; auto; [apply fexp_ok| |].
    - rewrite <- pow2n. apply generic_format_bpow. cbn. lia.
    - apply Rlt_le_trans with (/ 2 ^ 100); [|exact B]. apply Rinv_lt_contravar; [apply Rmult_lt_0_compat; apply pow_lt; lra|apply Rlt_pow; [lra|lia]]. }
  assert (P101 : 0 < / 2 ^ 101) by (apply Rinv_0_lt_compat, pow_lt; lra).
  assert (S : succ radix2 (FLT_exp (-1074) 53) p = d) by (apply succ_pred; auto; apply fexp_ok).
  assert (Lt : p < d) by (apply pred_lt_id; lra).
  assert (U : d = p + ulp radix2 (FLT_exp (-1074) 53) p) by (rewrite <- succ_eq_pos by lra; auto).
  assert (U2 : ulp radix2 (FLT_exp (-1074) 53) p <= p * / 2 ^ 52).
  { assert (Q : bpow radix2 (-1074 + 53 - 1) <= Rabs p).
    { rewrite Rabs_pos_eq by lra. apply Rle_trans with (/ 2 ^ 101); [|exact P1]. rewrite <- (pow2n 101). apply bpow_le. lia. }
    pose proof (ulp_FLT_le radix2 (-1074) 53 p Q) as G.
    rewrite Rabs_pos_eq in G by lra. change (1 - 53)%Z with (- Z.of_nat 52)%Z in G. rewrite pow2n in G. exact G. }
  assert (Ku : 0 <= IZR k / 2 ^ 53 <= 1 - / 2 ^ 53).
  { assert (E : 2 ^ 53 = IZR (2 ^ 53)) by (change (2 ^ 53)%Z with (2 ^ Z.of_nat 53)%Z; rewrite <- pow_IZR; reflexivity).
    assert (0 <= IZR k <= IZR (2 ^ 53) - 1). { split; [apply IZR_le; lia|]. rewrite <- minus_IZR. apply IZR_le. lia. }
    assert (I : 0 < / 2 ^ 53) by (apply Rinv_0_lt_compat, pow_lt; lra).
    split; [apply Rmult_le_pos; lra|]. unfold Rdiv. replace (1 - / 2 ^ 53) with ((2 ^ 53 - 1) * / 2 ^ 53) by (field; apply pow_nonzero; lra).
    apply Rmult_le_compat_r; [lra|]. rewrite E. lra. }
  set (a := IZR k / 2 ^ 53) in *. split; [apply b64_pos, Rmult_le_pos; lra|].
  apply Rle_lt_trans with p; [|exact Lt]. unfold b64. apply round_N_le_midp; [apply fexp_ok|exact Fp|]. rewrite S.
  apply Rle_lt_trans with ((1 - / 2 ^ 53) * d); [apply Rmult_le_compat_r; lra|].
  assert (E52 : / 2 ^ 52 = 2 * / 2 ^ 53) by (rewrite <- (tech_pow_Rmult 2 52); field; apply pow_nonzero; lra).
  assert (I53 : 0 < / 2 ^ 53) by (apply Rinv_0_lt_compat, pow_lt; lra).
  rewrite E52 in U2. set (e := / 2 ^ 53) in *. clearbody e. nra.
Qed.
Lemma draw_in_fbox L D u : block_ok D L -> draw53 u -> in_box L (f_scale_draw u L).
Proof. intros ((A & _) & (B & _) & (C & _)) (X & Y & Z). repeat split; cbn; apply draw_below; auto. Qed.

(** voxel numbers *)
Lemma quot_mono a b md : 0 < md -> a <= b -> b64 (a / md) <= b64 (b / md).
Proof. intros H L. apply b64_le. apply Rmult_le_compat_r; [apply Rlt_le, Rinv_0_lt_compat, H|exact L]. Qed.
Lemma quot_pos a md : 0 < md -> 0 <= a -> 0 <= b64 (a / md).
Proof. intros H L. apply b64_pos. apply Rmult_le_pos; [exact L|apply Rlt_le, Rinv_0_lt_compat, H]. Qed.
Lemma voxel_pos a md : 0 < md -> 0 <= a -> (0 <= Zfloor (b64 (a / md)))%Z.
Proof. intros H L. apply Zfloor_lub. apply quot_pos; auto. Qed.
Lemma voxel_below a d md : 0 < md -> a <= d -> ~ is_whole (b64 (d / md)) -> (Zfloor (b64 (a / md)) < Zceil (b64 (d / md)))%Z.
Proof.
  intros H L W. apply lt_IZR. apply Rle_lt_trans with (b64 (d / md)).
  - apply Rle_trans with (b64 (a / md)); [apply Zfloor_lb|apply quot_mono; auto].
  - destruct (Rle_lt_or_eq_dec _ _ (Zceil_ub (b64 (d / md)))) as [Q|Q]; [exact Q|]. exfalso. apply W. eexists. exact Q.
Qed.
Lemma quot_err a md D : 0 < md -> 0 <= a <= D -> Rabs (md * b64 (a / md) - a) <= ulp1 * D + md * tiny.
Proof.
  intros H [A B]. pose proof (b64_err (a / md)) as E. assert (I : 0 < / md) by (apply Rinv_0_lt_compat, H).
  assert (Q : 0 <= a / md) by (apply Rmult_le_pos; lra). rewrite (Rabs_pos_eq (a / md)) in E by auto.
  assert (Z : md * (a / md) = a) by (field; lra). replace (md * b64 (a / md) - a) with (md * (b64 (a / md) - a / md)) by lra.
  rewrite Rabs_mult, (Rabs_pos_eq md) by lra. pose proof (Rmult_le_compat_l md _ _ ltac:(lra) E). pose proof ulp1_pos.
  assert (md * (ulp1 * (a / md)) = ulp1 * a) by (field; lra). pose proof (Rmult_le_compat_l ulp1 a D ltac:(lra) B). lra.
Qed.
Lemma voxels_apart a b md D : 0 < md -> 0 <= a <= D -> 0 <= b <= D ->
  (2 <= Z.abs (Zfloor (b64 (a / md)) - Zfloor (b64 (b / md))))%Z -> md - 2 * ulp1 * D - 2 * tiny * md < Rabs (a - b).
Proof.
  assert (G : forall a b, 0 < md -> 0 <= a <= D -> 0 <= b <= D -> (2 <= Zfloor (b64 (a / md)) - Zfloor (b64 (b / md)))%Z ->
    md - 2 * ulp1 * D - 2 * tiny * md < a - b).
  { clear. intros a b H A B F. pose proof (quot_err a md D H A) as Ea. pose proof (quot_err b md D H B) as Eb.
    apply Rabs_le_inv in Ea, Eb. pose proof (Zfloor_lb (b64 (a / md))). pose proof (Zfloor_ub (b64 (b / md))).
    apply IZR_le in F. rewrite minus_IZR in F. assert (T : 1 < b64 (a / md) - b64 (b / md)) by lra.
    pose proof (Rmult_lt_compat_l md _ _ H T). lra. }
  intros H A B F. destruct (Z_le_dec 2 (Zfloor (b64 (a / md)) - Zfloor (b64 (b / md)))) as [L|L].
  - eapply Rlt_le_trans; [apply (G a b); auto|]. apply Rle_abs.
  - rewrite Rabs_minus_sym. eapply Rlt_le_trans; [apply (G b a); auto; lia|]. apply Rle_abs.
Qed.
(** atoms in voxels that are not neighbours *)
Lemma f_not_nbr L D md p q i j k : 0 < md -> block_ok D L -> in_box L p -> in_box L q ->
  f_num_blocks md L = (i, j, k) ->
  (let '(a, b, c) := f_block_of md p in a < i /\ b < j /\ c < k)%Z -> (let '(a, b, c) := f_block_of md q in a < i /\ b < j /\ c < k)%Z ->
  ~ In (f_block_of md p) (voxel_nbrs (f_num_blocks md L) (f_block_of md q)) ->
  md - 2 * ulp1 * D - 2 * tiny * md <= dist p q.
Proof.
  intros H ((_ & DX) & (_ & DY) & (_ & DZ)) (X & Y & Z) (X' & Y' & Z') EN Lp Lq N. rewrite EN in N. unfold f_block_of in *. rewrite in_voxel_nbrs in N.
  destruct (axis_le_dist p q) as (A1 & A2 & A3).
  destruct (Z_le_dec 2 (Z.abs (Zfloor (b64 (vx p / md)) - Zfloor (b64 (vx q / md))))) as [F|F].
  { pose proof (voxels_apart (vx p) (vx q) md D H ltac:(lra) ltac:(lra) F). lra. }
  destruct (Z_le_dec 2 (Z.abs (Zfloor (b64 (vy p / md)) - Zfloor (b64 (vy q / md))))) as [G|G].
  { pose proof (voxels_apart (vy p) (vy q) md D H ltac:(lra) ltac:(lra) G). lra. }
  destruct (Z_le_dec 2 (Z.abs (Zfloor (b64 (vz p / md)) - Zfloor (b64 (vz q / md))))) as [I|I].
  { pose proof (voxels_apart (vz p) (vz q) md D H ltac:(lra) ltac:(lra) I). lra. }
  exfalso. apply N.
  pose proof (voxel_pos (vx p) md H ltac:(lra)). pose proof (voxel_pos (vx q) md H ltac:(lra)).
  pose proof (voxel_pos (vy p) md H ltac:(lra)). pose proof (voxel_pos (vy q) md H ltac:(lra)).
  pose proof (voxel_pos (vz p) md H ltac:(lra)). pose proof (voxel_pos (vz q) md H ltac:(lra)).
  split; [|split]; [apply nbr_axis|apply nbr_axis|apply nbr_axis_z]; lia.
Qed.

(** atoms that pass the distance test *)
Lemma fmin_le L a b : double L -> 0 <= a < L -> 0 <= b < L ->
  0 <= Rmin (Rabs (b64 (a - b))) (b64 (L - Rabs (b64 (a - b)))) <= (1 + ulp1) * Rabs (a - b) + tiny.
Proof.
  intros HD A B. assert (Q : Rabs (a - b) <= L) by (unfold Rabs; destruct (Rcase_abs _); lra).
  assert (E : Rabs (b64 (a - b)) <= L).
  { unfold double in HD. apply Rabs_le_inv in Q. assert (O : b64 (- L) = - L) by (rewrite b64_opp, HD; reflexivity). apply Rabs_le. split.
    - rewrite <- O. apply b64_le. lra.
    - rewrite <- HD. apply b64_le. lra. }
  pose proof (Rabs_pos (b64 (a - b))). pose proof (b64_pos (L - Rabs (b64 (a - b))) ltac:(lra)).
  pose proof (b64_err (a - b)) as F. assert (Rabs (b64 (a - b)) <= (1 + ulp1) * Rabs (a - b) + tiny).
  { replace (b64 (a - b)) with ((a - b) + (b64 (a - b) - (a - b))) by ring. eapply Rle_trans; [apply Rabs_triang|]. lra. }
  unfold Rmin. destruct (Rle_dec _ _); lra.
Qed.
Lemma fz_le a b : 0 <= Rmin (Rabs (b64 (a - b))) (Rabs (b64 (a - b))) <= (1 + ulp1) * Rabs (a - b) + tiny.
Proof.
  rewrite Rmin_left by lra. pose proof (b64_err (a - b)) as F. split; [apply Rabs_pos|].
  replace (b64 (a - b)) with ((a - b) + (b64 (a - b) - (a - b))) by ring. eapply Rle_trans; [apply Rabs_triang|]. lra.
Qed.
Lemma tiny_md md n : / 2 ^ 100 <= md -> (n <= 875)%nat -> tiny <= / 2 ^ n * (md * md).
Proof.
  intros H N. eapply Rle_trans; [apply (tiny_split n 200); lia|].
  apply Rmult_le_compat_l; [apply Rlt_le, Rinv_0_lt_compat, pow_lt; lra|].
  replace 200%nat with (100 + 100)%nat by reflexivity. rewrite pow_add, Rinv_mult.
  assert (0 < / 2 ^ 100) by (apply Rinv_0_lt_compat, pow_lt; lra). apply Rmult_le_compat; lra.
Qed.
Lemma tiny_md1 md n : / 2 ^ 100 <= md -> (n <= 975)%nat -> tiny <= / 2 ^ n * md.
Proof.
  intros H N. eapply Rle_trans; [apply (tiny_split n 100); lia|].
  apply Rmult_le_compat_l; [apply Rlt_le, Rinv_0_lt_compat, pow_lt; lra|]. exact H.
Qed.
Lemma f_passed L D md md2 p q : / 2 ^ 100 <= md -> block_ok D L -> in_box L p -> in_box L q ->
  Rabs (md2 - md * md) <= 2 * ulp1 * (md * md) + tiny ->
  md2 <= f_p_dist L p q -> (1 - / 2 ^ 50) * md <= dist p q.
Proof.
  intros HM (((LX & _) & _) & ((LY & _) & _) & _) (X & Y & Z) (X' & Y' & Z') H2 H. unfold f_p_dist, fsub, vabs in H. cbn in H.
  pose proof (fmin_le _ _ _ LX X X') as BX. pose proof (fmin_le _ _ _ LY Y Y') as BY. pose proof (fz_le (vz p) (vz q)) as BZ.
  set (mx := Rmin _ _) in BX. fold mx in H. set (my := Rmin _ _) in BY. fold my in H. set (mz := Rmin _ _) in BZ. fold mz in H.
  pose proof (fsumsq_bounds (mkV mx my mz)) as [_ S]. unfold dot in S. cbn in S.
  assert (P : 0 < / 2 ^ 100) by (apply Rinv_0_lt_compat, pow_lt; lra).
  pose proof (tiny_md md 60 HM ltac:(lia)) as T2. pose proof (tiny_md1 md 60 HM ltac:(lia)) as T1. pose proof tiny_pos as T0.
  apply Rabs_le_inv in H2. apply Rnot_lt_le. intros C.
  pose proof (dist_sq p q) as DS. pose proof (dist_pos p q) as D0.
  destruct (axis_le_dist p q) as (A1 & A2 & A3).
  set (x := Rabs (vx p - vx q)) in *. set (y := Rabs (vy p - vy q)) in *. set (z := Rabs (vz p - vz q)) in *.
  assert (EX : x * x = (vx p - vx q) * (vx p - vx q)) by apply abs_sq. assert (EY : y * y = (vy p - vy q) * (vy p - vy q)) by apply abs_sq. assert (EZ : z * z = (vz p - vz q) * (vz p - vz q)) by apply abs_sq.
  assert (x0 : 0 <= x) by apply Rabs_pos. assert (y0 : 0 <= y) by apply Rabs_pos. assert (z0 : 0 <= z) by apply Rabs_pos.
  set (d := dist p q) in *. assert (DD : d * d = x * x + y * y + z * z) by (rewrite EX, EY, EZ, <- DS; ring).
  clearbody x y z d mx my mz. clear EX EY EZ DS.
  assert (E50 : / 2 ^ 50 = 8 * ulp1) by (unfold ulp1; replace 53%nat with (50 + 3)%nat by reflexivity; rewrite pow_add; field; apply pow_nonzero; lra).
  assert (W : / 2 ^ 60 <= / 100 * ulp1). { unfold ulp1. replace 60%nat with (53 + 7)%nat by reflexivity. rewrite pow_add, Rinv_mult, Rmult_comm. apply Rmult_le_compat_r; [apply Rlt_le, Rinv_0_lt_compat, pow_lt; lra|]. lra. }
  pose proof ulp1_pos as U0. pose proof ulp1_val as UV. assert (U1 : ulp1 <= / 1000000) by lra. clear UV. rewrite E50 in C. clear E50.
  set (u := ulp1) in *. set (t := tiny) in *. set (w := / 2 ^ 60) in *. clearbody u t w.
  assert (M0 : 0 < md) by lra. clear HM P LX LY X Y Z X' Y' Z'.
  assert (t <= / 100 * u * md) by nra. assert (T3 : t <= / 100 * u * (md * md)) by nra. clear T1 T2 W.
  assert (dm : d <= md) by nra.
  assert (SQ : forall m r, 0 <= r <= md -> 0 <= m <= (1 + u) * r + t -> m * m <= (1 + 3 * u) * (r * r) + 3 * (/ 100 * u * (md * md))).
  { intros m r R0 M. assert (m * m <= ((1 + u) * r + t) * ((1 + u) * r + t)) by nra.
    assert ((1 + u) * (1 + u) <= 1 + 3 * u) by nra.
    assert ((1 + u) * (1 + u) * (r * r) <= (1 + 3 * u) * (r * r)) by (apply Rmult_le_compat_r; nra).
    assert (K1 : r * t <= / 100 * u * (md * md)) by (apply Rle_trans with (md * (/ 100 * u * md)); [apply Rmult_le_compat; lra|lra]).
    assert (K2 : t * t <= / 1000000 * (/ 100 * u * (md * md))).
    { assert (t <= / 1000000 * md) by nra. apply Rle_trans with ((/ 1000000 * md) * (/ 100 * u * md)); [apply Rmult_le_compat; lra|lra]. }
    assert (K3 : u * (r * t) <= / 1000000 * (/ 100 * u * (md * md))) by (apply Rmult_le_compat; [lra| |lra|lra]; apply Rmult_le_pos; lra).
    assert (0 <= / 100 * u * (md * md)) by (apply Rmult_le_pos; nra). nra. }
  pose proof (SQ mx x ltac:(lra) BX) as QX. pose proof (SQ my y ltac:(lra) BY) as QY. pose proof (SQ mz z ltac:(lra) BZ) as QZ. clear SQ BX BY BZ.
  set (M := md * md) in *. assert (M1 : 0 < M) by (unfold M; nra).
  assert (dd : d * d <= (1 - 15 * u) * M).
  { assert (d * d <= ((1 - 8 * u) * md) * ((1 - 8 * u) * md)) by (apply Rmult_le_compat; lra).
    assert (Z1 : (1 - 8 * u) * (1 - 8 * u) <= 1 - 15 * u) by nra. apply (Rmult_le_compat_r M) in Z1; [|lra]. unfold M in *. lra. }
  assert (SS : mx * mx + my * my + mz * mz <= (1 - 11 * u) * M).
  { assert (Z1 : (1 + 3 * u) * (1 - 15 * u) <= 1 - 12 * u) by nra. apply (Rmult_le_compat_r M) in Z1; [|lra].
    rewrite DD in dd. pose proof (Rmult_le_compat_l (1 + 3 * u) _ _ ltac:(lra) dd). assert (0 < u * M) by (apply Rmult_lt_0_compat; lra). lra. }
  pose proof (Rmult_le_compat_l (1 + 4 * u) _ _ ltac:(lra) SS) as SS'.
  assert (Z2 : (1 + 4 * u) * (1 - 11 * u) <= 1 - 7 * u) by nra. apply (Rmult_le_compat_r M) in Z2; [|lra].
  assert (0 < u * M) by (apply Rmult_lt_0_compat; lra). lra.
Qed.

(** the loop *)
Section Loop.
Context (L : vec) (D md md2 : R).
Hypothesis okL : block_ok D L.
Hypothesis okm : / 2 ^ 100 <= md.
Hypothesis okm2 : Rabs (md2 - md * md) <= 2 * ulp1 * (md * md) + tiny.
Definition gap : R := (1 - / 2 ^ 50) * md - / 2 ^ 52 * D.
Definition numbered (p : vec) : Prop :=
  let '(i, j, k) := f_num_blocks md L in let '(a, b, c) := f_block_of md p in (a < i /\ b < j /\ c < k)%Z.
Definition finv (st : pstate) : Prop :=
  Forall (in_box L) (ps_coords st) /\ Forall numbered (ps_coords st) /\
  ForallOrdPairs (fun p q => gap <= dist p q) (ps_coords st) /\
  (forall i p, nth_error (ps_coords st) i = Some p -> In i (ps_vox st (f_block_of md p))).
Lemma md_pos : 0 < md.
Proof. assert (0 < / 2 ^ 100) by (apply Rinv_0_lt_compat, pow_lt; lra). lra. Qed.
Lemma D_pos : 0 < D.
Proof. destruct okL as (((_ & A) & B) & _). assert (0 < / 2 ^ 100) by (apply Rinv_0_lt_compat, pow_lt; lra). lra. Qed.
Lemma gap_far : gap <= md - 2 * ulp1 * D - 2 * tiny * md.
Proof.
  unfold gap. assert (E : / 2 ^ 52 = 2 * ulp1) by (unfold ulp1; rewrite <- (tech_pow_Rmult 2 52); field; apply pow_nonzero; lra).
  pose proof (tiny_split 51 1 ltac:(lia)) as T. assert (F : / 2 ^ 50 = 2 * / 2 ^ 51) by (rewrite <- (tech_pow_Rmult 2 50); field; apply pow_nonzero; lra).
  assert (0 < / 2 ^ 51) by (apply Rinv_0_lt_compat, pow_lt; lra). rewrite E, F. pose proof md_pos. nra.
Qed.
Lemma gap_near : gap <= (1 - / 2 ^ 50) * md.
Proof. unfold gap. pose proof D_pos. assert (0 < / 2 ^ 52) by (apply Rinv_0_lt_compat, pow_lt; lra). nra. Qed.
Lemma f_step_inv st u st' : draw53 u -> finv st -> f_step L md md2 st u = Ok st' ->
  finv st' /\ (length (ps_coords st') <= S (length (ps_coords st)))%nat.
Proof.
  intros U (I1 & I2 & I3 & I4) H. unfold f_step in H. set (c := f_scale_draw u L) in *. inv_bind H.
  assert (C : in_box L c) by (eapply draw_in_fbox; eauto).
  assert (NC : numbered c /\ a = voxel_nbrs (f_num_blocks md L) (f_block_of md c)).
  { unfold f_lookup, numbered in *. destruct (f_num_blocks md L) as [[n0 n1] n2]. destruct (f_block_of md c) as [[i j] k].
    destruct ((i <? n0) && (j <? n1) && (k <? n2))%Z eqn:T; [|discriminate]. inversion Ha. rewrite !andb_true_iff, !Z.ltb_lt in T. repeat split; tauto. }
  destruct NC as [NC ->]. destruct (existsb _ _) eqn:E; inversion H; subst st'; [repeat split; auto; lia|]. cbn. split; [|rewrite app_length; cbn; lia].
  repeat split; cbn.
  - apply Forall_app. auto.
  - apply Forall_app. auto.
  - apply FOP_app. repeat split; auto; [constructor; constructor|]. intros p q Hp [<-|[]].
    assert (P : in_box L p) by (rewrite Forall_forall in I1; auto). assert (NP : numbered p) by (rewrite Forall_forall in I2; auto).
    destruct (in_dec (fun a b : block => ltac:(repeat decide equality)) (f_block_of md p) (voxel_nbrs (f_num_blocks md L) (f_block_of md c))) as [HI|HI].
    + eapply Rle_trans; [apply gap_near|]. eapply f_passed; eauto. apply Rnot_lt_le. intros HL. apply In_nth_error in Hp as [i Hi].
      apply not_true_iff_false in E. apply E. apply existsb_exists. exists i. split.
      * unfold parts_of. apply in_flat_map. exists (f_block_of md p). auto.
      * apply Rltb_iff. erewrite nth_error_nth; eauto.
    + eapply Rle_trans; [apply gap_far|]. unfold numbered in NP, NC. destruct (f_num_blocks md L) as [[n0 n1] n2] eqn:EN. eapply f_not_nbr; eauto; [apply md_pos|rewrite EN; exact HI].
  - intros i p Hn. unfold vox_add. apply nth_error_snoc in Hn as [Hn|[-> ->]].
    + specialize (I4 _ _ Hn). destruct (block_eqb _ _); auto. apply in_or_app. auto.
    + rewrite (proj2 (block_eqb_eq _ _)) by reflexivity. apply in_or_app. right. left. reflexivity.
Qed.
Lemma f_loop_inv draws : forall n st l, Forall draw53 draws -> finv st -> (length (ps_coords st) <= n)%nat ->
  f_gen_loop L md md2 n st draws = Ok l -> length l = n /\ Forall (in_box L) l /\ ForallOrdPairs (fun p q => gap <= dist p q) l.
Proof.
  induction draws as [|u us IH]; intros n st l HU I HL H; cbn in H.
  - destruct (Nat.leb_spec n (length (ps_coords st))); [|discriminate]. inversion H; subst. destruct I as (I1 & _ & I2 & _). repeat split; auto. lia.
  - destruct (Nat.leb_spec n (length (ps_coords st))) as [Q|Q].
    + inversion H; subst. destruct I as (I1 & _ & I2 & _). repeat split; auto. lia.
    + inversion HU; subst. inv_bind H. destruct (f_step_inv _ _ _ H2 I Ha) as [I' Q']. eapply IH; [| |..|exact H]; auto. lia.
Qed.
(** IndexError only when a quotient is a whole number *)
Lemma f_step_total st u : draw53 u ->
  ~ is_whole (b64 (vx L / md)) -> ~ is_whole (b64 (vy L / md)) -> ~ is_whole (b64 (vz L / md)) -> exists st', f_step L md md2 st u = Ok st'.
Proof.
  intros U WX WY WZ. unfold f_step. set (c := f_scale_draw u L).
  assert (C : in_box L c) by (eapply draw_in_fbox; eauto). destruct C as (X & Y & Z). pose proof md_pos as M.
  assert (E : f_lookup (f_num_blocks md L) (f_block_of md c) = Ok (voxel_nbrs (f_num_blocks md L) (f_block_of md c))).
  { unfold f_lookup, f_num_blocks, f_block_of.
    rewrite (proj2 (Z.ltb_lt _ _) (voxel_below (vx c) (vx L) md M ltac:(lra) WX)), (proj2 (Z.ltb_lt _ _) (voxel_below (vy c) (vy L) md M ltac:(lra) WY)), (proj2 (Z.ltb_lt _ _) (voxel_below (vz c) (vz L) md M ltac:(lra) WZ)). reflexivity. }
  rewrite E. cbn. destruct (existsb _ _); eauto.
Qed.
Lemma f_loop_total draws : forall n st, Forall draw53 draws ->
  ~ is_whole (b64 (vx L / md)) -> ~ is_whole (b64 (vy L / md)) -> ~ is_whole (b64 (vz L / md)) ->
  f_gen_loop L md md2 n st draws <> Err NeedMore -> exists l, f_gen_loop L md md2 n st draws = Ok l.
Proof.
  induction draws as [|u us IH]; intros n st HU WX WY WZ H; cbn in *.
  - destruct (Nat.leb n (length (ps_coords st))); [eauto|]. congruence.
  - destruct (Nat.leb n (length (ps_coords st))); [eauto|]. inversion HU; subst.
    destruct (f_step_total st u H2 WX WY WZ) as [st' E]. rewrite E in *. cbn in *. auto.
Qed.
End Loop.
Lemma f_empty L D md : finv L D md (mkPS [] (fun _ => [])).
Proof. split; [constructor|split; [constructor|split; [constructor|]]]. intros [|i] p H; discriminate. Qed.
