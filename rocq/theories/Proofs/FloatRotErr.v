(** Error analysis of rot_vtv in binary64. *)
From Coq Require Import Reals List Bool ZArith Lra Lia Psatz.
From Flocq Require Import Core Relative.
From Verif.Model Require Import Base Vec Transform Float FloatRot.
From Verif.Spec Require Import Geometry FloatSpec FloatRotSpec.
From Verif.Proofs Require Import VecFacts FloatFacts FloatRotFacts.
Import ListNotations.
Open Scope R_scope.

Local Instance fexp_ok : Valid_exp (FLT_exp (-1074) 53). Proof. apply FLT_exp_valid. reflexivity. Qed.

Lemma e44 : / 2 ^ 44 = / 17592186044416. Proof. f_equal; lra. Qed.
Lemma e45 : / 2 ^ 45 = / 35184372088832. Proof. f_equal; lra. Qed.
Lemma e47 : / 2 ^ 47 = / 140737488355328. Proof. f_equal; lra. Qed.
Lemma e48 : / 2 ^ 48 = / 281474976710656. Proof. f_equal; lra. Qed.
Lemma e49 : / 2 ^ 49 = / 562949953421312. Proof. f_equal; lra. Qed.
Lemma e60 : / 2 ^ 60 = / 1152921504606846976. Proof. f_equal; lra. Qed.
Lemma tiny60 : 0 < tiny <= / 1152921504606846976.
Proof. split; [apply tiny_pos|]. rewrite <- e60. apply tiny_le. lia. Qed.

(** one rounding of a number up to 8 *)
Lemma r8 x : Rabs x <= 8 -> Rabs (b64 x - x) <= / 562949953421312.
Proof. intros H. pose proof (b64_err x) as E. rewrite ulp1_val in E. pose proof tiny60. lra. Qed.
Lemma prod_err x x' y y' e f X Y : Rabs (x - x') <= e -> Rabs (y - y') <= f -> Rabs x' <= X -> Rabs y <= Y ->
  Rabs (x * y - x' * y') <= e * Y + X * f.
Proof.
  intros. replace (x * y - x' * y') with ((x - x') * y + x' * (y - y')) by ring.
  eapply Rle_trans; [apply Rabs_triang|]. apply Rplus_le_compat; apply mul_abs_le; auto.
Qed.
Lemma near_abs x x' e X : Rabs (x - x') <= e -> Rabs x' <= X -> Rabs x <= X + e.
Proof. intros. replace x with ((x - x') + x') by ring. eapply Rle_trans; [apply Rabs_triang|]. lra. Qed.
Lemma near_trans x y z a b : Rabs (x - y) <= a -> Rabs (y - z) <= b -> Rabs (x - z) <= a + b.
Proof. intros. replace (x - z) with ((x - y) + (y - z)) by ring. eapply Rle_trans; [apply Rabs_triang|]. lra. Qed.

Definition comps (k : R) (v : vec) : Prop := Rabs (vx v) <= k /\ Rabs (vy v) <= k /\ Rabs (vz v) <= k.

Lemma lib_dot_err L r k B K : sound_lib L -> 0 <= B -> 0 <= K -> B * K <= 3 -> comps B r -> comps K k ->
  Rabs (lb_dot L r k - dot r k) <= / 2251799813685248 * 10.
Proof.
  intros S HB HK HBK (R1 & R2 & R3) (K1 & K2 & K3). eapply Rle_trans; [apply (sl_dot L S)|]. rewrite ulp1_val. pose proof tiny60.
  pose proof (mul_abs_le _ _ _ _ R1 K1). pose proof (mul_abs_le _ _ _ _ R2 K2). pose proof (mul_abs_le _ _ _ _ R3 K3). lra.
Qed.
Lemma dot_err a a' b b' e f X Y : vec_near e a a' -> vec_near f b b' -> comps X a' -> comps Y b ->
  Rabs (dot a b - dot a' b') <= 3 * (e * Y + X * f).
Proof.
  intros (A1 & A2 & A3) (B1 & B2 & B3) (X1 & X2 & X3) (Y1 & Y2 & Y3). unfold dot.
  pose proof (prod_err _ _ _ _ _ _ _ _ A1 B1 X1 Y1) as P1. pose proof (prod_err _ _ _ _ _ _ _ _ A2 B2 X2 Y2) as P2. pose proof (prod_err _ _ _ _ _ _ _ _ A3 B3 X3 Y3) as P3.
  apply Rabs_le. apply Rabs_le_inv in P1, P2, P3. lra.
Qed.

(** one entry of np.eye(3) + s * A + (c * A) @ A as computed *)
Lemma entry_err L I p s c r k : sound_lib L -> Rabs I <= 1 -> Rabs p <= 1.01 -> Rabs s <= 1.01 -> Rabs c <= 2.02 ->
  comps 1.01 r -> comps 1.01 k ->
  Rabs (b64 (b64 (I + b64 (s * p)) + lb_dot L (f_vscale c r) k) - (I + s * p + c * dot r k)) <= / 35184372088832.
Proof.
  intros S HI Hp Hs Hc Hr Hk.
  assert (M1 : Rabs (s * p) <= 1.03) by (eapply Rle_trans; [apply (mul_abs_le _ _ 1.01 1.01); auto|lra]).
  pose proof (r8 (s * p) ltac:(lra)) as E1.
  assert (M2 : Rabs (I + b64 (s * p)) <= 2.1). { pose proof (near_abs _ _ _ _ E1 M1). eapply Rle_trans; [apply Rabs_triang|]. lra. }
  pose proof (r8 (I + b64 (s * p)) ltac:(lra)) as E2.
  assert (BR : forall x, Rabs x <= 1.01 -> Rabs (b64 (c * x) - c * x) <= / 562949953421312 /\ Rabs (b64 (c * x)) <= 2.05).
  { intros x Hx. assert (M : Rabs (c * x) <= 2.0402) by (eapply Rle_trans; [apply (mul_abs_le _ _ 2.02 1.01); auto|lra]).
    pose proof (r8 (c * x) ltac:(lra)) as E. split; [exact E|]. pose proof (near_abs _ _ _ _ E M). lra. }
  destruct Hr as (R1 & R2 & R3). destruct (BR _ R1) as [A1 B1]. destruct (BR _ R2) as [A2 B2]. destruct (BR _ R3) as [A3 B3].
  assert (E3 : Rabs (lb_dot L (f_vscale c r) k - dot (f_vscale c r) k) <= / 2251799813685248 * 10).
  { apply (lib_dot_err L _ _ 2.05 1.01 S); try lra; [|exact Hk]. unfold comps, f_vscale. cbn [vx vy vz]. auto. }
  assert (E4 : Rabs (dot (f_vscale c r) k - dot (vscale c r) k) <= 3 * (/ 562949953421312 * 1.01 + 3 * 0)).
  { apply dot_err; [|repeat split; rewrite Rminus_eq_0, Rabs_R0; lra| |exact Hk].
    - unfold vec_near, f_vscale, vscale. cbn [vx vy vz]. auto.
    - unfold comps, vscale. cbn [vx vy vz]. repeat split; eapply Rle_trans; try (apply (mul_abs_le _ _ 2.02 1.01); auto); lra. }
  replace (dot (vscale c r) k) with (c * dot r k) in E4 by (unfold dot, vscale; cbn; ring).
  pose proof (near_trans _ _ _ _ _ E3 E4) as E5.
  assert (DK : Rabs (dot r k) <= 3.1).
  { destruct Hk as (K1 & K2 & K3). pose proof (mul_abs_le _ _ _ _ R1 K1) as Q1. pose proof (mul_abs_le _ _ _ _ R2 K2) as Q2. pose proof (mul_abs_le _ _ _ _ R3 K3) as Q3.
    apply Rabs_le. apply Rabs_le_inv in Q1, Q2, Q3. unfold dot. lra. }
  assert (CD : Rabs (c * dot r k) <= 6.27) by (eapply Rle_trans; [apply (mul_abs_le _ _ 2.02 3.1); auto|lra]).
  assert (M3 : Rabs (b64 (I + b64 (s * p)) + lb_dot L (f_vscale c r) k) <= 8.5).
  { pose proof (near_abs _ _ _ _ E2 M2). pose proof (near_abs _ _ _ _ E5 CD). eapply Rle_trans; [apply Rabs_triang|]. lra. }
  assert (E6 : Rabs (b64 (b64 (I + b64 (s * p)) + lb_dot L (f_vscale c r) k) - (b64 (I + b64 (s * p)) + lb_dot L (f_vscale c r) k)) <= / 281474976710656).
  { eapply Rle_trans; [apply b64_err|]. rewrite ulp1_val. pose proof tiny60. lra. }
  apply Rabs_le. apply Rabs_le_inv in E1, E2, E5, E6. lra.
Qed.

Lemma unit_comps n : dot n n = 1 -> comps 1 n.
Proof. intros H. unfold dot in H. repeat split; apply Rabs_le; nra. Qed.

(** The computed matrix against the exact one for a unit axis n and an angle t0, when the axis
    in use is off by al and the sine and cosine by sg. *)
Lemma rod_err L a n t t0 al sg : sound_lib L -> dot n n = 1 -> 0 <= al <= / 10 ^ 9 -> 0 <= sg <= / 1000 ->
  vec_near al a n -> Rabs (lb_sin L t - sin t0) <= sg -> Rabs (lb_cos L t - cos t0) <= sg ->
  mat_near (15 * al + 10 * sg + / 17592186044416) (f_rodrigues L a t) (rodrigues n t0).
Proof.
  intros S U [A0 A1] [G0 G1] (N1 & N2 & N3) HS HC. assert (T9 : / 10 ^ 9 = / 1000000000) by (f_equal; lra). rewrite T9 in *. clear T9.
  pose proof (unit_comps n U) as (U1 & U2 & U3).
  set (s := lb_sin L t) in *. set (c := b64 (1 - lb_cos L t)). set (S0 := sin t0) in *. set (C0 := cos t0) in *.
  assert (BS : Rabs S0 <= 1). { apply Rabs_le. unfold S0. pose proof (SIN_bound t0). lra. }
  assert (BC : Rabs C0 <= 1). { apply Rabs_le. unfold C0. pose proof (COS_bound t0). lra. }
  assert (BC' : Rabs (1 - C0) <= 2). { apply Rabs_le. apply Rabs_le_inv in BC. lra. }
  assert (Bs : Rabs s <= 1.01) by (pose proof (near_abs _ _ _ _ HS BS); lra).
  assert (EC : Rabs (c - (1 - C0)) <= sg + / 562949953421312).
  { assert (Q : Rabs (1 - lb_cos L t - (1 - C0)) <= sg). { replace (1 - lb_cos L t - (1 - C0)) with (- (lb_cos L t - C0)) by ring. rewrite Rabs_Ropp. exact HC. }
    pose proof (near_abs _ _ _ _ Q BC'). pose proof (r8 (1 - lb_cos L t) ltac:(lra)) as E. unfold c. pose proof (near_trans _ _ _ _ _ E Q). lra. }
  assert (Bc : Rabs c <= 2.02) by (pose proof (near_abs _ _ _ _ EC BC'); lra).
  assert (B1 : Rabs (vx a) <= 1.01) by (pose proof (near_abs _ _ _ _ N1 U1); lra).
  assert (B2 : Rabs (vy a) <= 1.01) by (pose proof (near_abs _ _ _ _ N2 U2); lra).
  assert (B3 : Rabs (vz a) <= 1.01) by (pose proof (near_abs _ _ _ _ N3 U3); lra).
  assert (Z0 : Rabs 0 <= 1.01) by (rewrite Rabs_R0; lra).
  assert (Z1 : Rabs 0 <= 1) by (rewrite Rabs_R0; lra).
  assert (O1 : Rabs 1 <= 1) by (rewrite Rabs_R1; lra).
  assert (NG : forall x y e, Rabs (x - y) <= e -> Rabs (- x - - y) <= e). { intros x y e H. replace (- x - - y) with (- (x - y)) by ring. rewrite Rabs_Ropp. exact H. }
  assert (ZZ : Rabs (0 - 0) <= al) by (rewrite Rminus_eq_0, Rabs_R0; lra).
  (* one entry *)
  assert (K : forall I p P r k r' k', Rabs I <= 1 -> Rabs p <= 1.01 -> Rabs (p - P) <= al -> comps 1.01 r -> comps 1.01 k -> comps 1 r' -> comps 1 k' -> Rabs P <= 1 ->
    vec_near al r r' -> vec_near al k k' -> 
    Rabs (b64 (b64 (I + b64 (s * p)) + lb_dot L (f_vscale c r) k) - (I + S0 * P + (1 - C0) * dot r' k')) <= 15 * al + 10 * sg + / 17592186044416).
  { intros I p P r k r' k' HI Hp HpP Hr Hk Hr' Hk' HP Nr Nk.
    pose proof (entry_err L I p s c r k S HI Hp Bs Bc Hr Hk) as E1.
    pose proof (prod_err s S0 p P sg al 1 1.01 HS HpP BS Hp) as E2.
    pose proof (dot_err r r' k k' al al 1 1.01 Nr Nk Hr' Hk) as E3.
    assert (DK : Rabs (dot r k) <= 3.1).
    { destruct Hr as (R1 & R2 & R3), Hk as (K1 & K2 & K3). pose proof (mul_abs_le _ _ _ _ R1 K1) as Q1. pose proof (mul_abs_le _ _ _ _ R2 K2) as Q2. pose proof (mul_abs_le _ _ _ _ R3 K3) as Q3.
      apply Rabs_le. apply Rabs_le_inv in Q1, Q2, Q3. unfold dot. lra. }
    pose proof (prod_err c (1 - C0) _ _ _ _ 2 3.1 EC E3 BC' DK) as E4.
    apply Rabs_le. apply Rabs_le_inv in E1, E2, E4. lra. }
  assert (NO : forall x, Rabs x <= 1.01 -> Rabs (- x) <= 1.01) by (intros x Hx; rewrite Rabs_Ropp; exact Hx).
  assert (NO1 : forall x, Rabs x <= 1 -> Rabs (- x) <= 1) by (intros x Hx; rewrite Rabs_Ropp; exact Hx).
  unfold f_rodrigues, rodrigues. fold s c S0 C0.
  unfold mat_near, vec_near. cbn [f_madd f_mscale f_mm skew madd mscale mm mI mt mv r0 r1 r2 vx vy vz fadd vadd vscale].
  assert (F : forall I p q P r k r' k', q = b64 (s * p) -> Rabs I <= 1 -> Rabs p <= 1.01 -> Rabs (p - P) <= al -> comps 1.01 r -> comps 1.01 k -> comps 1 r' -> comps 1 k' -> Rabs P <= 1 ->
    vec_near al r r' -> vec_near al k k' -> 
    Rabs (b64 (b64 (I + q) + lb_dot L (f_vscale c r) k) - (I + S0 * P + (1 - C0) * dot k' r')) <= 15 * al + 10 * sg + / 17592186044416).
  { intros I p q P r k r' k' -> ? ? ? ? ? ? ? ? ? ?. rewrite (dot_comm k' r'). apply K; auto. }
  repeat split; eapply F; try reflexivity; unfold comps, vec_near; cbn [vx vy vz]; repeat split; auto.
Qed.

(** ** Lengths and unit vectors *)
Lemma tiny_norm v : sizable v -> tiny <= / 1152921504606846976 * norm v.
Proof.
  intros Z. eapply Rle_trans; [apply (tiny_split 60 400); lia|]. rewrite e60. unfold sizable in Z. apply Rmult_le_compat_l; [|exact Z]. lra.
Qed.
Lemma len_rel L x : sound_lib L -> sizable x -> Rabs (f_len L x - norm x) <= / 281474976710656 * norm x.
Proof.
  intros S Z. pose proof (self_dot L x S Z) as [D1 D2]. rewrite e49 in *. pose proof (tiny_norm x Z) as T.
  assert (P : 0 < norm x) by (unfold sizable in Z; pose proof p400_pos; lra). set (n := norm x) in *.
  assert (Q : (1 - / 562949953421312) * n <= sqrt (lb_dot L x x) <= (1 + / 562949953421312) * n).
  { split; [rewrite <- (sqrt_square ((1 - / 562949953421312) * n)) by nra|rewrite <- (sqrt_square ((1 + / 562949953421312) * n)) by nra]; apply sqrt_le_1_alt; nra. }
  unfold f_len. pose proof (b64_err (sqrt (lb_dot L x x))) as E. rewrite (Rabs_pos_eq (sqrt _)) in E by lra. rewrite ulp1_val in E.
  apply Rabs_le. apply Rabs_le_inv in E. lra.
Qed.
Lemma div_err L x y : sound_lib L -> sizable x -> Rabs y <= norm x -> Rabs (b64 (y / f_len L x) - y / norm x) <= / 140737488355328.
Proof.
  intros S Z H. pose proof (len_rel L x S Z) as LR. assert (P : 0 < norm x) by (unfold sizable in Z; pose proof p400_pos; lra).
  set (n := norm x) in *. set (l := f_len L x) in *. apply Rabs_le_inv in LR. assert (P2 : 0 < l) by lra.
  assert (I : / l * n <= 1.001 /\ -1.001 <= / l * n).
  { assert (EQ : l * (/ l * n) = n) by (field; lra). set (k := / l * n) in *. clearbody k. split; nra. }
  assert (A : Rabs (y / l) <= 1.001).
  { unfold Rdiv. rewrite Rabs_mult, (Rabs_pos_eq (/ l)) by (apply Rlt_le, Rinv_0_lt_compat; auto).
    apply Rle_trans with (n * / l); [apply Rmult_le_compat_r; [apply Rlt_le, Rinv_0_lt_compat|]; auto|lra]. }
  assert (B : Rabs (y / l - y / n) <= / 281474976710656 * 1.001).
  { replace (y / l - y / n) with ((n - l) * / n * (y / l)) by (field; lra). apply mul_abs_le; [|exact A].
    rewrite Rabs_mult, (Rabs_pos_eq (/ n)) by (apply Rlt_le, Rinv_0_lt_compat; auto).
    apply Rmult_le_reg_r with n; auto. rewrite Rmult_assoc, Rinv_l by lra. rewrite Rmult_1_r. apply Rabs_le. lra. }
  assert (C : Rabs (b64 (y / l) - y / l) <= / 9007199254740992 * 1.01).
  { pose proof (b64_err (y / l)) as E. rewrite ulp1_val in E. pose proof tiny60.
    assert (tiny <= / 2 ^ 80) by (apply tiny_le; lia). assert (E80 : / 2 ^ 80 = / 1208925819614629174706176) by (f_equal; lra). rewrite E80 in *. lra. }
  pose proof (near_trans _ _ _ _ _ C B). lra.
Qed.
Lemma axis_err L x : sound_lib L -> sizable x -> vec_near (/ 140737488355328) (f_vdiv x (f_len L x)) (vscale (/ norm x) x).
Proof.
  intros S Z. pose proof (comp_norm x) as (A & B & C). unfold vec_near, f_vdiv, vscale. cbn [vx vy vz].
  rewrite !(Rmult_comm (/ norm x)). repeat split; apply div_err; auto.
Qed.

(** ** Sizes of computed cross products *)
Definition grid (e : Z) (x : R) : Prop := exists m, x = IZR m * bpow radix2 e.
Lemma b64_grid e x : (-1074 <= e)%Z -> grid e x -> grid e (b64 x).
Proof.
  intros He [m E]. set (c := cexp radix2 (FLT_exp (-1074) 53) x). destruct (Z_le_gt_dec c e) as [H|H].
  - exists m. rewrite <- E. apply round_generic; [apply valid_rnd_N|]. rewrite E. apply (generic_format_F2R radix2 (FLT_exp (-1074) 53) m e).
    intros _. unfold F2R. cbn [Fnum Fexp]. rewrite <- E. exact H.
  - unfold b64, round, F2R. cbn [Fnum Fexp]. fold c. set (k := ZnearestE _). exists (k * 2 ^ (c - e))%Z. rewrite mult_IZR.
    rewrite (IZR_Zpower radix2) by lia. rewrite Rmult_assoc, <- bpow_plus. do 2 f_equal. lia.
Qed.
Lemma grid_mult e f x y : grid e x -> grid f y -> grid (e + f) (x * y).
Proof. intros [m ->] [n ->]. exists (m * n)%Z. rewrite mult_IZR, bpow_plus. ring. Qed.
Lemma grid_minus e x y : grid e x -> grid e y -> grid e (x - y).
Proof. intros [m ->] [n ->]. exists (m - n)%Z. rewrite minus_IZR. ring. Qed.
Lemma grid_size e x : grid e x -> x = 0 \/ bpow radix2 e <= Rabs x.
Proof.
  intros [m ->]. destruct (Z.eq_dec m 0) as [->|N]; [left; ring|right].
  rewrite Rabs_mult, (Rabs_pos_eq (bpow radix2 e)) by apply bpow_ge_0. rewrite <- abs_IZR.
  rewrite <- (Rmult_1_l (bpow radix2 e)) at 1. apply Rmult_le_compat_r; [apply bpow_ge_0|]. apply IZR_le. lia.
Qed.
Lemma bpow_inv n : / 2 ^ n = bpow radix2 (- Z.of_nat n).
Proof. rewrite bpow_opp. f_equal. rewrite <- IZR_Zpower by lia. rewrite <- pow_IZR. reflexivity. Qed.
Lemma ok_grid x : b64 x = x -> (x = 0 \/ / 2 ^ 100 <= Rabs x) -> grid (-152) x.
Proof.
  intros F [->|H]; [exists 0%Z; ring|].
  rewrite (bpow_inv 100) in H. change (- Z.of_nat 100)%Z with (-100)%Z in H.
  assert (G : generic_format radix2 (FLT_exp (-1074) 53) x) by (rewrite <- F; apply generic_format_round; [apply fexp_ok|apply valid_rnd_N]).
  set (c := cexp radix2 (FLT_exp (-1074) 53) x). assert (C : (-152 <= c)%Z).
  { unfold c, cexp, FLT_exp. assert (-100 < mag radix2 x)%Z. { apply mag_gt_bpow. exact H. } lia. }
  red in G. unfold F2R in G. cbn [Fnum Fexp] in G. fold c in G. set (k := Ztrunc _) in *.
  exists (k * 2 ^ (c + 152))%Z. rewrite G, mult_IZR, (IZR_Zpower radix2) by lia. rewrite Rmult_assoc, <- bpow_plus. do 2 f_equal. lia.
Qed.
Definition vgrid e (v : vec) : Prop := grid e (vx v) /\ grid e (vy v) /\ grid e (vz v).
Lemma ordinary_grid v : ordinary v -> vgrid (-152) v.
Proof. intros ((A & B) & (C & D) & (E & F)). repeat split; apply ok_grid; auto. Qed.
Lemma argmin_grid v : vgrid (-152) (argmin_axis v).
Proof.
  assert (Z : grid (-152) 0) by (exists 0%Z; ring).
  assert (O : grid (-152) 1). { exists (2 ^ 152)%Z. rewrite (IZR_Zpower radix2), <- bpow_plus by lia. reflexivity. }
  unfold argmin_axis. destruct (_ && _); [|destruct (Rleb _ _)]; repeat split; auto.
Qed.
Lemma cross_sizable v w : vgrid (-152) v -> vgrid (-152) w -> fcross v w <> v0 -> sizable (fcross v w).
Proof.
  intros (A1 & A2 & A3) (B1 & B2 & B3) N.
  assert (K : forall a b c d, grid (-152) a -> grid (-152) b -> grid (-152) c -> grid (-152) d -> grid (-304) (b64 (b64 (a * b) - b64 (c * d)))).
  { intros a b c d Ha Hb Hc Hd. apply b64_grid; [lia|]. apply grid_minus; apply b64_grid; try lia; apply (grid_mult (-152) (-152)); auto. }
  assert (P : / 2 ^ 400 <= bpow radix2 (-304)). { rewrite bpow_inv. apply bpow_le. lia. }
  unfold sizable. pose proof (comp_norm (fcross v w)) as (C1 & C2 & C3).
  pose proof (K _ _ _ _ A2 B3 A3 B2) as G1. pose proof (K _ _ _ _ A3 B1 A1 B3) as G2. pose proof (K _ _ _ _ A1 B2 A2 B1) as G3.
  unfold fcross in *. cbn [vx vy vz] in *.
  destruct (grid_size _ _ G1) as [Z1|Z1]; [|lra]. destruct (grid_size _ _ G2) as [Z2|Z2]; [|lra]. destruct (grid_size _ _ G3) as [Z3|Z3]; [|lra].
  exfalso. apply N. rewrite Z1, Z2, Z3. reflexivity.
Qed.

(** ** Matrices close to rotations *)
Lemma rot_rows m : orthogonal m -> dot (r0 m) (r0 m) = 1 /\ dot (r1 m) (r1 m) = 1 /\ dot (r2 m) (r2 m) = 1.
Proof.
  intros H. unfold orthogonal in H. split; [|split].
  - assert (E : vx (r0 (mm m (mt m))) = vx (r0 mI)) by (rewrite H; reflexivity). revert E. vunfold. intros E. lra.
  - assert (E : vy (r1 (mm m (mt m))) = vy (r1 mI)) by (rewrite H; reflexivity). revert E. vunfold. intros E. lra.
  - assert (E : vz (r2 (mm m (mt m))) = vz (r2 mI)) by (rewrite H; reflexivity). revert E. vunfold. intros E. lra.
Qed.
Lemma cross_err a a' b b' d : 0 <= d <= / 1000 -> vec_near d a a' -> vec_near d b b' -> comps 1 a' -> comps 1 b' ->
  vec_near (4.1 * d) (cross a b) (cross a' b') /\ comps 2 (cross a' b').
Proof.
  intros Hd (A1 & A2 & A3) (B1 & B2 & B3) (X1 & X2 & X3) (Y1 & Y2 & Y3).
  assert (P : forall x x' y y', Rabs (x - x') <= d -> Rabs (y - y') <= d -> Rabs x' <= 1 -> Rabs y' <= 1 -> Rabs (x * y - x' * y') <= 2.05 * d).
  { intros x x' y y' H1 H2 H3 H4. pose proof (near_abs _ _ _ _ H2 H4). pose proof (prod_err x x' y y' d d 1 1.01 H1 H2 H3 ltac:(lra)). lra. }
  assert (D : forall x x' y y' z z' w w', Rabs (x - x') <= d -> Rabs (y - y') <= d -> Rabs (z - z') <= d -> Rabs (w - w') <= d ->
     Rabs x' <= 1 -> Rabs y' <= 1 -> Rabs z' <= 1 -> Rabs w' <= 1 -> Rabs ((x * y - z * w) - (x' * y' - z' * w')) <= 4.1 * d).
  { intros x x' y y' z z' w w' ? ? ? ? ? ? ? ?. assert (Q1 : Rabs (x * y - x' * y') <= 2.05 * d) by auto. assert (Q2 : Rabs (z * w - z' * w') <= 2.05 * d) by auto.
    apply Rabs_le. apply Rabs_le_inv in Q1, Q2. lra. }
  assert (F : forall x y z w, Rabs x <= 1 -> Rabs y <= 1 -> Rabs z <= 1 -> Rabs w <= 1 -> Rabs (x * y - z * w) <= 2).
  { intros x y z w Hx Hy Hz Hw. pose proof (mul_abs_le _ _ _ _ Hx Hy) as Q1. pose proof (mul_abs_le _ _ _ _ Hz Hw) as Q2. apply Rabs_le. apply Rabs_le_inv in Q1, Q2. lra. }
  unfold vec_near, comps, cross. cbn [vx vy vz]. repeat split; auto.
Qed.
Lemma near_rotation m n d : rotation n -> 0 <= d <= / 10 ^ 8 -> mat_near d m n -> rotation_ok m = true.
Proof.
  intros [O D] Hd0 (M0 & M1 & M2). assert (Hd : 0 <= d <= / 100000000). { replace (/ 100000000) with (/ 10 ^ 8) by (f_equal; lra). exact Hd0. } clear Hd0.
  destruct (rot_rows n O) as (N0 & N1 & N2). apply unit_comps in N0, N1, N2.
  assert (UP : forall a b, vec_near d a b -> comps 1 b -> comps 1.01 a).
  { intros a b (A1 & A2 & A3) (B1 & B2 & B3). pose proof (near_abs _ _ _ _ A1 B1). pose proof (near_abs _ _ _ _ A2 B2). pose proof (near_abs _ _ _ _ A3 B3). repeat split; lra. }
  assert (DD : forall a a' b b', vec_near d a a' -> vec_near d b b' -> comps 1 a' -> comps 1 b' -> Rabs (dot a b - dot a' b') <= 6.03 * d).
  { intros a a' b b' H1 H2 H3 H4. pose proof (dot_err a a' b b' d d 1 1.01 H1 H2 H3 (UP _ _ H2 H4)). lra. }
  unfold rotation_ok. apply andb_true_iff. assert (E6 : / 10 ^ 6 = / 1000000) by (f_equal; lra). rewrite E6. split; apply Rltb_iff.
  - assert (DET : forall x, det x = dot (r0 x) (cross (r1 x) (r2 x))) by (intros; vring).
    rewrite <- D. rewrite (DET m), (DET n).
    destruct (cross_err (r1 m) (r1 n) (r2 m) (r2 n) d) as [C1 C2]; auto; [lra|].
    assert (C3 : comps 2.01 (cross (r1 m) (r2 m))).
    { destruct C1 as (A1 & A2 & A3), C2 as (B1 & B2 & B3). pose proof (near_abs _ _ _ _ A1 B1). pose proof (near_abs _ _ _ _ A2 B2). pose proof (near_abs _ _ _ _ A3 B3). repeat split; lra. }
    pose proof (dot_err _ _ _ _ _ _ 1 2.01 M0 C1 N0 C3). lra.
  - assert (E : msumabs (msub (mm m (mt m)) mI) = msumabs (msub (mm m (mt m)) (mm n (mt n)))) by (unfold orthogonal in O; rewrite O; reflexivity).
    rewrite E. 
    assert (G : msumabs (msub (mm m (mt m)) (mm n (mt n))) <= 9 * (6.03 * d)).
    { pose proof (DD _ _ _ _ M0 M0 N0 N0). pose proof (DD _ _ _ _ M0 M1 N0 N1). pose proof (DD _ _ _ _ M0 M2 N0 N2).
      pose proof (DD _ _ _ _ M1 M0 N1 N0). pose proof (DD _ _ _ _ M1 M1 N1 N1). pose proof (DD _ _ _ _ M1 M2 N1 N2).
      pose proof (DD _ _ _ _ M2 M0 N2 N0). pose proof (DD _ _ _ _ M2 M1 N2 N1). pose proof (DD _ _ _ _ M2 M2 N2 N2).
      unfold mm. rewrite !mt_mt. unfold msumabs, msub, vsub, mv. cbn [r0 r1 r2 vx vy vz]. lra. }
    lra.
Qed.

(** ** The computed cosine and cross product *)
Lemma tiny_prod v w : sizable v -> sizable w -> tiny <= / 1152921504606846976 * / 1152921504606846976 * (norm v * norm w).
Proof.
  intros Zv Zw. unfold sizable in *. pose proof p400_pos as P. eapply Rle_trans; [apply (tiny_split 120 800); lia|].
  replace (/ 2 ^ 120) with (/ 1152921504606846976 * / 1152921504606846976). 2:{ rewrite <- e60. rewrite <- Rinv_mult, <- pow_add. reflexivity. }
  apply Rmult_le_compat_l; [lra|]. replace 800%nat with (400 + 400)%nat by reflexivity. rewrite pow_add, Rinv_mult. apply Rmult_le_compat; lra.
Qed.
Lemma cosine_err L v w : sound_lib L -> sizable v -> sizable w ->
  Rabs (b64 (lb_dot L v w / b64 (f_len L v * f_len L w)) - dot v w / (norm v * norm w)) <= / 70368744177664.
Proof.
  intros S Zv Zw. pose proof (len_rel L v S Zv) as A. pose proof (len_rel L w S Zw) as B. pose proof (tiny_prod v w Zv Zw) as T.
  pose proof (lib_dot_bounds L v w S) as D. pose proof (cauchy v w) as CS. rewrite ulp1_val in D.
  pose proof p400_pos as P. assert (Pv : 0 < norm v) by (unfold sizable in *; lra). assert (Pw : 0 < norm w) by (unfold sizable in *; lra).
  set (a := norm v) in *. set (b := norm w) in *. set (x := f_len L v) in *. set (y := f_len L w) in *.
  assert (X : Rabs (x * y - a * b) <= / 281474976710656 * 2.01 * (a * b)).
  { assert (Y : Rabs y <= 1.01 * b) by (pose proof (near_abs _ _ _ b B ltac:(rewrite Rabs_pos_eq; lra)); lra).
    pose proof (prod_err x a y b _ _ a (1.01 * b) A B ltac:(rewrite Rabs_pos_eq; lra) Y). 
    eapply Rle_trans; [exact H|]. lra. }
  assert (AB : 0 < a * b) by (apply Rmult_lt_0_compat; auto). set (p := a * b) in *. set (d := dot v w) in *. set (d' := lb_dot L v w) in *.
  assert (N : Rabs (b64 (x * y) - p) <= / 140737488355328 * 1.1 * p).
  { pose proof (b64_err (x * y)) as E. rewrite ulp1_val in E. pose proof (near_abs _ _ _ p X ltac:(rewrite Rabs_pos_eq; lra)).
    pose proof (near_trans _ _ _ _ _ E X). lra. }
  set (n := b64 (x * y)) in *. clearbody p d d' n. clear A B X.
  assert (Pn : 0 < n) by (apply Rabs_le_inv in N; lra). assert (Pi : 0 < / n) by (apply Rinv_0_lt_compat; auto).
  assert (I : p * / n <= 1.001). { apply Rmult_le_reg_r with n; auto. rewrite Rmult_assoc, Rinv_l by lra. apply Rabs_le_inv in N. lra. }
  assert (D' : Rabs (d' - d) <= / 9007199254740992 * 12.1 * p). { eapply Rle_trans; [exact D|]. lra. }
  assert (F : Rabs (d' / n - d / p) <= / 140737488355328 * 1.4).
  { replace (d' / n - d / p) with ((d' - d) * / n + (d * / p) * ((p - n) * / n)) by (field; lra).
    assert (Q1 : Rabs ((d' - d) * / n) <= / 9007199254740992 * 12.2).
    { rewrite Rabs_mult, (Rabs_pos_eq (/ n)) by lra. apply Rle_trans with (/ 9007199254740992 * 12.1 * p * / n); [apply Rmult_le_compat_r; lra|]. lra. }
    assert (Q2 : Rabs (d * / p) <= 1).
    { rewrite Rabs_mult, (Rabs_pos_eq (/ p)) by (apply Rlt_le, Rinv_0_lt_compat; auto). apply Rmult_le_reg_r with p; auto. rewrite Rmult_assoc, Rinv_l by lra. lra. }
    assert (Q3 : Rabs ((p - n) * / n) <= / 140737488355328 * 1.11).
    { rewrite Rabs_mult, (Rabs_pos_eq (/ n)) by lra. rewrite Rabs_minus_sym. apply Rle_trans with (/ 140737488355328 * 1.1 * p * / n); [apply Rmult_le_compat_r; lra|]. lra. }
    pose proof (mul_abs_le _ _ _ _ Q2 Q3) as Q4. apply Rabs_le. apply Rabs_le_inv in Q1, Q4. lra. }
  assert (BD : Rabs (d / p) <= 1).
  { unfold Rdiv. rewrite Rabs_mult, (Rabs_pos_eq (/ p)) by (apply Rlt_le, Rinv_0_lt_compat; auto). apply Rmult_le_reg_r with p; auto. rewrite Rmult_assoc, Rinv_l by lra. lra. }
  pose proof (near_abs _ _ _ _ F BD). pose proof (r8 (d' / n) ltac:(lra)) as E. pose proof (near_trans _ _ _ _ _ E F). lra.
Qed.
Lemma cross_rel v w s : sizable v -> sizable w -> 0 < s <= 1 -> s * (norm v * norm w) <= norm (cross v w) ->
  vec_near (/ 9007199254740992 * 4.3 * / s * norm (cross v w)) (fcross v w) (cross v w).
Proof.
  intros Zv Zw Hs H. pose proof (tiny_prod v w Zv Zw) as T. pose proof p400_pos as P0.
  assert (P : 0 < norm v * norm w) by (unfold sizable in *; apply Rmult_lt_0_compat; lra). set (p := norm v * norm w) in *.
  pose proof (comp_norm v) as (A1 & A2 & A3). pose proof (comp_norm w) as (B1 & B2 & B3).
  assert (G : / 9007199254740992 * 4.3 * p <= / 9007199254740992 * 4.3 * / s * norm (cross v w)).
  { assert (Q : p <= / s * norm (cross v w)). { apply Rmult_le_reg_l with s; [lra|]. rewrite <- Rmult_assoc, Rinv_r by lra. lra. }
    set (k := / s * norm (cross v w)) in *. assert (EK : / 9007199254740992 * 4.3 * / s * norm (cross v w) = / 9007199254740992 * 4.3 * k) by (unfold k; ring).
    rewrite EK. lra. }
  assert (M : forall x y, Rabs x <= norm v -> Rabs y <= norm w -> Rabs (x * y) <= p) by (intros; apply mul_abs_le; auto).
  assert (K : forall x y z t, Rabs x <= norm v -> Rabs y <= norm w -> Rabs z <= norm v -> Rabs t <= norm w ->
    Rabs (b64 (b64 (x * y) - b64 (z * t)) - (x * y - z * t)) <= / 9007199254740992 * 4.3 * / s * norm (cross v w)).
  { intros x y z t Hx Hy Hz Ht. eapply Rle_trans; [|exact G]. pose proof (M _ _ Hx Hy) as M1. pose proof (M _ _ Hz Ht) as M2.
    pose proof (b64_err (x * y)) as E1. pose proof (b64_err (z * t)) as E2. rewrite ulp1_val in *.
    set (X := b64 (x * y)) in *. set (Y := b64 (z * t)) in *. pose proof (b64_err (X - Y)) as E3. rewrite ulp1_val in E3.
    assert (E4 : Rabs (X - Y - (x * y - z * t)) <= / 9007199254740992 * 2.01 * p). { apply Rabs_le. apply Rabs_le_inv in E1, E2. lra. }
    assert (E5 : Rabs (X - Y) <= 2.01 * p). { assert (Q : Rabs (x * y - z * t) <= 2 * p) by (apply Rabs_le; apply Rabs_le_inv in M1, M2; lra). pose proof (near_abs _ _ _ _ E4 Q). lra. }
    pose proof (near_trans _ _ _ _ _ E3 E4). lra. }
  unfold vec_near, fcross, cross at 2 4 6. cbn [vx vy vz]. repeat split; apply K; auto.
Qed.
Lemma norm_near x y e : 0 <= e -> vec_near e x y -> norm (vsub x y) <= 1.74 * e.
Proof.
  intros He (A & B & C). unfold norm. rewrite <- (sqrt_square (1.74 * e)) by lra. apply sqrt_le_1_alt.
  unfold dot, vsub. cbn [vx vy vz]. apply Rabs_le_inv in A, B, C. nra.
Qed.
Lemma unit_near x y e : 0 < norm x -> 0 < norm y -> 0 <= e -> vec_near (e * norm y) x y -> vec_near (3.5 * e) (vscale (/ norm x) x) (vscale (/ norm y) y).
Proof.
  intros Px Py He N. assert (HN : 0 <= e * norm y) by nra. pose proof (norm_near _ _ _ HN N) as D.
  assert (T : Rabs (norm y - norm x) <= 1.74 * (e * norm y)).
  { pose proof (norm_triangle (vsub x y) y) as T1. rewrite vadd_vsub in T1.
    pose proof (norm_triangle (vsub y x) x) as T2. rewrite vadd_vsub in T2. assert (E : norm (vsub y x) = norm (vsub x y)) by apply dist_sym. rewrite E in T2. apply Rabs_le. lra. }
  pose proof (comp_norm x) as (A1 & A2 & A3). destruct N as (N1 & N2 & N3).
  assert (K : forall a b, Rabs a <= norm x -> Rabs (a - b) <= e * norm y -> Rabs (/ norm x * a - / norm y * b) <= 3.5 * e).
  { intros a b Ha Hab. replace (/ norm x * a - / norm y * b) with ((/ norm x * a) * ((norm y - norm x) * / norm y) + (a - b) * / norm y) by (field; lra).
    assert (Q1 : Rabs (/ norm x * a) <= 1). { rewrite Rabs_mult, (Rabs_pos_eq (/ norm x)) by (apply Rlt_le, Rinv_0_lt_compat; auto). apply Rmult_le_reg_l with (norm x); auto. rewrite <- Rmult_assoc, Rinv_r by lra. lra. }
    assert (Q2 : Rabs ((norm y - norm x) * / norm y) <= 1.74 * e). { rewrite Rabs_mult, (Rabs_pos_eq (/ norm y)) by (apply Rlt_le, Rinv_0_lt_compat; auto). apply Rmult_le_reg_r with (norm y); auto. rewrite Rmult_assoc, Rinv_l by lra. lra. }
    assert (Q3 : Rabs ((a - b) * / norm y) <= e). { rewrite Rabs_mult, (Rabs_pos_eq (/ norm y)) by (apply Rlt_le, Rinv_0_lt_compat; auto). apply Rmult_le_reg_r with (norm y); auto. rewrite Rmult_assoc, Rinv_l by lra. lra. }
    pose proof (mul_abs_le _ _ _ _ Q1 Q2) as Q4. apply Rabs_le. apply Rabs_le_inv in Q3, Q4. lra. }
  unfold vec_near, vscale. cbn [vx vy vz]. repeat split; apply K; auto.
Qed.
Lemma vec_near_trans a b c d e : vec_near d a b -> vec_near e b c -> vec_near (d + e) a c.
Proof. intros (A1 & A2 & A3) (B1 & B2 & B3). repeat split; eapply near_trans; eauto. Qed.
Lemma sin_lip a b : Rabs (sin a - sin b) <= Rabs (a - b).
Proof.
  destruct (MVT_abs sin cos b a) as (c & E & _); [intros; apply derivable_pt_lim_sin|]. rewrite E.
  rewrite <- (Rmult_1_l (Rabs (a - b))) at 2. apply Rmult_le_compat_r; [apply Rabs_pos|]. apply Rabs_le. pose proof (COS_bound c). lra.
Qed.
Lemma cos_lip a b : Rabs (cos a - cos b) <= Rabs (a - b).
Proof.
  destruct (MVT_abs cos (fun x => - sin x) b a) as (c & E & _); [intros; apply derivable_pt_lim_cos|]. rewrite E.
  rewrite <- (Rmult_1_l (Rabs (a - b))) at 2. apply Rmult_le_compat_r; [apply Rabs_pos|]. apply Rabs_le. pose proof (SIN_bound c). lra.
Qed.
