(** C145: rot_vtv in double precision. *)
From Coq Require Import Reals List Bool ZArith Lra Lia Psatz.
From Flocq Require Import Core.
From Verif.Model Require Import Base Vec Transform Float FloatRot.
From Verif.Spec Require Import Geometry FloatSpec FloatRotSpec.
From Verif.Proofs Require Import VecFacts FloatFacts FloatRotFacts FloatRotErr FloatRotCase.
From Verif.Props Require Import TransformProps.
Import ListNotations.
Open Scope R_scope.

(** Aligning a vector with itself gives the identity if the computed cosine is exactly 1 and
    a matrix of NaNs otherwise; aligning it with its opposite gives NaNs unless the computed
    cosine is exactly -1. *)
Theorem C145_itself_partial : forall L v, sound_lib L -> sizable v -> exists q, f_cosine L v v = Some q /\
  (q = 1 -> f_rot_vtv L v v = Some mI) /\ (q <> 1 -> f_rot_vtv L v v = None).
Proof.
  intros L v S Z. pose proof (cosine_eq L v v S Z Z) as C. eexists. split; [exact C|]. set (q := b64 _) in *. split.
  - intros E. unfold f_rot_vtv. rewrite C, E, (sl_one L S). unfold Rltb. rewrite eps_val. destruct (Rlt_dec 0 _); [reflexivity|lra].
  - intros N. apply (no_axis L v v q S C (fcross_self v)).
    assert (P : 0 <= q). { unfold q. apply b64_pos. pose proof (lens_pos L v v S Z Z). pose proof (self_dot L v S Z) as [D _].
      assert (E2 : / 2 ^ 49 = / 562949953421312) by (f_equal; lra). rewrite E2 in D. assert (0 <= norm v * norm v) by (pose proof (norm_sq v); unfold dot in *; nra).
      apply Rmult_le_pos; [lra|]. apply Rlt_le, Rinv_0_lt_compat. auto. }
    destruct (Rtotal_order q 1) as [H|[H|H]]; [|contradiction|auto]. right. right.
    pose proof (below_one _ H). assert (E : / 2 ^ 53 = / 9007199254740992) by (f_equal; lra). rewrite E in *. fold q in H0. lra.
Qed.
Theorem C145_opposite_partial : forall L v, sound_lib L -> sizable v -> exists q, f_cosine L v (vopp v) = Some q /\
  (q <> -1 -> f_rot_vtv L v (vopp v) = None).
Proof.
  intros L v S Z. assert (NV : norm (vopp v) = norm v). { unfold norm, dot, vopp. cbn. f_equal. ring. }
  assert (Z' : sizable (vopp v)) by (unfold sizable; rewrite NV; exact Z).
  pose proof (cosine_eq L v (vopp v) S Z Z') as C. eexists. split; [exact C|]. set (q := b64 _) in *. intros N.
  apply (no_axis L v (vopp v) q S C). { rewrite fcross_neg, fcross_self. unfold vopp, v0. cbn. rewrite Ropp_0. reflexivity. }
  set (n := b64 (f_len L v * f_len L (vopp v))) in *. assert (NP : 0 < n) by apply (lens_pos L v (vopp v) S Z Z').
  assert (Q : - q = b64 (- lb_dot L v (vopp v) / n)). { unfold q. rewrite <- b64_opp. f_equal. unfold Rdiv. ring. }
  assert (P : 0 <= - q).
  { rewrite Q. apply b64_pos. pose proof (lib_dot_bounds L v (vopp v) S) as B. apply Rabs_le_inv in B. rewrite NV, norm_sq in B.
    replace (dot v (vopp v)) with (- dot v v) in B by (unfold dot, vopp; cbn; ring).
    pose proof (tiny_rel v Z) as T. rewrite norm_sq in T. pose proof p200 as [Q1 Q2]. rewrite ulp1_val in B.
    assert (E : / 2 ^ 60 = / 1152921504606846976) by (f_equal; lra). rewrite E in Q2. assert (D0 : 0 <= dot v v) by (unfold dot; nra).
    set (d := dot v v) in *. set (p := / 2 ^ 200) in *. clearbody d p. assert (p * d <= / 1152921504606846976 * d) by (apply Rmult_le_compat_r; lra).
    apply Rmult_le_pos; [lra|]. apply Rlt_le, Rinv_0_lt_compat. auto. }
  destruct (Rtotal_order q (-1)) as [H|[H|H]]; [auto|contradiction|]. right. right.
  assert (H' : b64 (- lb_dot L v (vopp v) / n) < 1) by (rewrite <- Q; lra).
  pose proof (below_one _ H') as B. rewrite <- Q in B. assert (E : / 2 ^ 53 = / 9007199254740992) by (f_equal; lra). rewrite E in *. lra.
Qed.

(** The directions [1 1 1], [1 1 0] and [1 1 2]: rot_vtv of each with itself, and with its
    opposite, is a matrix of NaNs. *)
Theorem C145_same_direction_refuted : forall L v, sound_lib L ->
  In v [mkV 1 1 1; mkV 1 1 0; mkV 1 1 2] -> f_rot_vtv L v v = None /\ f_rot_vtv L v (vopp v) = None.
Proof.
  intros L v S H.
  assert (K : exists d, dot v v = IZR d /\ whole v /\ whole (vopp v) /\ sizable v /\ b64 (IZR d / b64 (b64 (sqrt (IZR d)) * b64 (sqrt (IZR d)))) <> 1).
  { pose proof p400_pos. assert (P : / 2 ^ 400 <= 1). { rewrite <- Rinv_1. apply Rinv_le; [lra|]. apply pow_R1_Rle. lra. }
    assert (SZ : forall x, 1 <= dot x x -> sizable x). { intros x Hx. unfold sizable. apply Rle_trans with 1; [exact P|]. unfold norm. rewrite <- sqrt_1. apply sqrt_le_1_alt, Hx. }
    assert (WH : forall a b c, (Z.abs a <= 1 /\ Z.abs b <= 1 /\ Z.abs c <= 2)%Z -> whole (mkV (IZR a) (IZR b) (IZR c)) /\ whole (vopp (mkV (IZR a) (IZR b) (IZR c)))).
    { intros a b c Hab. split; [exists a, b, c|exists (- a)%Z, (- b)%Z, (- c)%Z]; (split; [unfold vopp; cbn [vx vy vz]; rewrite ?opp_IZR; reflexivity|]); cbn; lia. }
    destruct H as [<-|[<-|[<-|[]]]].
    - exists 3%Z. split; [cbn; unfold dot; cbn; lra|]. destruct (WH 1 1 1)%Z; [lia|]. do 2 (split; [assumption|]). split; [apply SZ; unfold dot; cbn; lra|]. rewrite cos_3. lra.
    - exists 2%Z. split; [cbn; unfold dot; cbn; lra|]. destruct (WH 1 1 0)%Z; [lia|]. do 2 (split; [assumption|]). split; [apply SZ; unfold dot; cbn; lra|]. rewrite cos_2. lra.
    - exists 6%Z. split; [cbn; unfold dot; cbn; lra|]. destruct (WH 1 1 2)%Z; [lia|]. do 2 (split; [assumption|]). split; [apply SZ; unfold dot; cbn; lra|]. rewrite cos_6. lra. }
  destruct K as (d & D & W & W' & Z & N).
  assert (O : dot v (vopp v) = - dot v v) by (unfold dot, vopp; cbn; ring).
  assert (O2 : dot (vopp v) (vopp v) = dot v v) by (unfold dot, vopp; cbn; ring).
  split.
  - destruct (C145_itself_partial L v S Z) as (q & C & _ & Q). apply Q. rewrite (cosine_eq L v v S Z Z) in C. injection C as <-.
    unfold f_len. rewrite !(sl_whole L S), D by auto. exact N.
  - assert (Z' : sizable (vopp v)) by (unfold sizable, norm; rewrite O2; exact Z).
    destruct (C145_opposite_partial L v S Z) as (q & C & Q). apply Q. rewrite (cosine_eq L v (vopp v) S Z Z') in C. injection C as <-.
    unfold f_len. rewrite !(sl_whole L S), O2, O, D by auto. intros E. apply N.
    set (X := b64 (_ * _)) in *. assert (E2 : b64 (IZR d / X) = - b64 (- IZR d / X)) by (rewrite <- b64_opp; f_equal; unfold Rdiv; ring).
    rewrite E2, E. lra.
Qed.

(** Vectors of whole numbers whose lengths are whole numbers: rot_vtv of two that point the
    same way is the identity. *)
Theorem C145_whole_partial : forall L v w n m, sound_lib L -> whole v -> whole w ->
  (0 < n <= 2 ^ 21)%Z -> (0 < m <= 2 ^ 21)%Z -> norm v = IZR n -> norm w = IZR m -> dot v w = IZR n * IZR m ->
  f_rot_vtv L v w = Some mI.
Proof.
  intros L v w n m S Wv Ww Hn Hm Nv Nw D.
  assert (LV : f_len L v = IZR n). { unfold f_len. rewrite (sl_whole L S) by auto. fold (norm v). rewrite Nv. apply b64_Z. lia. }
  assert (LW : f_len L w = IZR m). { unfold f_len. rewrite (sl_whole L S) by auto. fold (norm w). rewrite Nw. apply b64_Z. lia. }
  unfold f_rot_vtv, f_cosine. rewrite LV, LW, (sl_whole L S), D by auto. rewrite <- mult_IZR. rewrite b64_Z by nia.
  assert (P : 0 < IZR (n * m)) by (apply IZR_lt; nia). unfold Reqb. destruct (Req_EM_T (IZR (n * m)) 0); [lra|].
  replace (IZR (n * m) / IZR (n * m)) with (IZR 1) by (field; lra). rewrite b64_Z by lia. rewrite (sl_one L S).
  unfold Rltb. rewrite eps_val. destruct (Rlt_dec 0 _); [reflexivity|lra].
Qed.

(** Whatever rot_vtv returns that is not NaN is, to twelve decimals, a rotation, and Rotation
    accepts it. *)
Theorem C145_rotation_partial : forall L v w M, sound_lib L -> ordinary v -> ordinary w ->
  f_rot_vtv L v w = Some M -> (exists N, rotation N /\ mat_near (/ 2 ^ 40) M N) /\ rotation_ok M = true.
Proof.
  intros L v w M S Ov Ow H.
  assert (K : exists N, rotation N /\ mat_near (/ 2 ^ 40) M N).
  { unfold f_rot_vtv in H. destruct (f_cosine L v w) as [q|]; [|discriminate]. destruct (lb_acos L q) as [t|]; [|discriminate].
    destruct (Rltb t eps).
    - injection H as <-. exists mI. split; [apply rotation_mI|]. assert (0 <= / 2 ^ 40) by (rewrite p40; lra).
      unfold mat_near, vec_near. rewrite !Rminus_eq_0, Rabs_R0. repeat split; assumption.
    - set (x := if Rltb (b64 (pi64 - t)) eps then fcross v (argmin_axis v) else fcross v w) in *.
      unfold Reqb in H. destruct (Req_EM_T (f_len L x) 0) as [|NZ]; [discriminate|]. injection H as <-.
      assert (Z : sizable x).
      { assert (X0 : x <> v0) by (intros E; apply NZ; rewrite E; apply v0_len; auto).
        unfold x in *. destruct (Rltb _ _); apply cross_sizable; auto using ordinary_grid, argmin_grid. }
      assert (NX : norm x <> 0) by (unfold sizable in Z; pose proof p400_pos; lra).
      exists (rodrigues (vscale (/ norm x) x) t). split; [apply rodrigues_rotation, unit_scale, NX|].
      pose proof (rod_err L (f_vdiv x (f_len L x)) _ t t (/ 140737488355328) (/ 1125899906842624) S (unit_scale x NX)) as E.
      assert (T9 : / 10 ^ 9 = / 1000000000) by (f_equal; lra). rewrite T9 in E.
      pose proof (sl_sin L S t) as SS. pose proof (sl_cos L S t) as SC. rewrite half50 in *.
      specialize (E ltac:(lra) ltac:(lra) (axis_err L x S Z) SS SC). rewrite p40.
      destruct E as ((A1 & A2 & A3) & (B1 & B2 & B3) & (C1 & C2 & C3)). unfold mat_near, vec_near. repeat split; lra. }
  split; [exact K|]. destruct K as (N & RN & E). apply (near_rotation M N (/ 2 ^ 40) RN); [|exact E].
  rewrite p40. assert (T8 : / 10 ^ 8 = / 100000000) by (f_equal; lra). rewrite T8. lra.
Qed.

(** Directions at an angle whose sine is at least s (down to 2^-13): the computed matrix
    agrees with the exact one to 2^-40 / s in every entry, and aligns the vectors to that
    accuracy. *)
Theorem C145_accurate_partial : forall L v w s, sound_lib L -> ordinary v -> ordinary w -> v <> v0 -> w <> v0 ->
  / 2 ^ 13 <= s <= 1 -> s * (norm v * norm w) <= norm (cross v w) ->
  exists M N, f_rot_vtv L v w = Some M /\ rot_vtv v w = Some N /\ rotation N /\ mat_near (/ 2 ^ 40 / s) M N /\
    rotation_ok M = true /\ vec_near (3 * (/ 2 ^ 40 / s)) (mv M (unit_vec v)) (unit_vec w).
Proof.
  intros L v w s HL Ov Ow Nv Nw Hs H. assert (E13 : / 2 ^ 13 = / 8192) by (f_equal; lra). rewrite E13 in Hs.
  assert (SZ : forall x, ordinary x -> x <> v0 -> sizable x).
  { intros x ((_ & O1) & (_ & O2) & (_ & O3)) NX. unfold sizable. pose proof (comp_norm x) as (C1 & C2 & C3).
    assert (LE : / 2 ^ 400 <= / 2 ^ 100). { apply Rinv_le; [apply pow_lt; lra|]. apply Rle_pow; [lra|lia]. }
    destruct O1 as [O1|O1]; [|lra]. destruct O2 as [O2|O2]; [|lra]. destruct O3 as [O3|O3]; [|lra]. exfalso. apply NX. apply vec_eq; assumption. }
  pose proof (SZ v Ov Nv) as Zv. pose proof (SZ w Ow Nw) as Zw. clear SZ. pose proof p400_pos as P0.
  assert (Pv : 0 < norm v) by (unfold sizable in Zv; lra). assert (Pw : 0 < norm w) by (unfold sizable in Zw; lra).
  assert (PP : 0 < norm v * norm w) by (apply Rmult_lt_0_compat; auto).
  set (x := cross v w) in *. assert (Px : 0 < norm x) by nra.
  set (C := dot v w / (norm v * norm w)). set (Sn := norm x / (norm v * norm w)).
  assert (HSn : s <= Sn). { unfold Sn. apply Rmult_le_reg_r with (norm v * norm w); auto. unfold Rdiv. rewrite Rmult_assoc, Rinv_l by lra. lra. }
  assert (SC : Sn * Sn = 1 - C * C).
  { unfold Sn, C. pose proof (lagrange v w) as LG. fold x in LG. rewrite <- !VecFacts.norm_sq in LG.
    apply Rmult_eq_reg_r with ((norm v * norm w) * (norm v * norm w)); [|nra]. 
    transitivity (norm x * norm x); [field; lra|]. rewrite LG. field. lra. }
  assert (BC : -1 <= C <= 1) by nra.
  assert (CA : cos (acos C) = C) by (apply cos_acos; lra).
  assert (SA : sin (acos C) = Sn). { rewrite sin_acos by lra. unfold Rsqr. rewrite <- SC. apply sqrt_square. lra. }
  pose proof (cosine_eq L v w HL Zv Zw) as Q. pose proof (cosine_err L v w HL Zv Zw) as QE. set (q := b64 (_ / _)) in *. fold C in QE.
  apply Rabs_le_inv in QE.
  assert (BQ : -1 <= q <= 1). { assert (C * C <= 1 - / 8192 * / 8192) by nra. assert (-1 + / 8192 * / 8192 * / 2 <= C <= 1 - / 8192 * / 8192 * / 2) by nra. lra. }
  set (S' := sqrt (1 - q * q)). assert (S'0 : 0 <= S') by apply sqrt_pos.
  assert (SQ : S' * S' = 1 - q * q). { apply sqrt_sqrt. nra. }
  assert (SP : sin (acos q) = S') by (rewrite sin_acos by lra; reflexivity).
  assert (CP : cos (acos q) = q) by (apply cos_acos; lra).
  assert (RS : 0 <= / s) by (apply Rlt_le, Rinv_0_lt_compat; lra). set (r := / s). assert (Rr : s * r = 1) by (unfold r; apply Rinv_r; lra). assert (R1 : 1 <= r <= 8192) by (split; nra).
  assert (DS : Rabs (S' - Sn) <= / 35184372088832 * r).
  { apply Rmult_le_reg_l with s; [lra|]. replace (s * (/ 35184372088832 * r)) with (/ 35184372088832) by (transitivity (/ 35184372088832 * (s * r)); [rewrite Rr|]; ring).
    apply Rle_trans with ((S' + Sn) * Rabs (S' - Sn)); [apply Rmult_le_compat_r; [apply Rabs_pos|lra]|].
    rewrite <- (Rabs_pos_eq (S' + Sn)) at 1 by lra. rewrite <- Rabs_mult. replace ((S' + Sn) * (S' - Sn)) with ((C - q) * (C + q)) by nra.
    pose proof (mul_abs_le (C - q) (C + q) (/ 70368744177664) 2 ltac:(apply Rabs_le; lra) ltac:(apply Rabs_le; lra)). lra. }
  assert (DS1 : / 8192 - / 35184372088832 * 8192 <= S'). { apply Rabs_le_inv in DS. lra. }
  destruct (sl_acos L HL q BQ) as (t & TA & TE). rewrite half50 in TE.
  assert (HT : forall y, 0 <= acos y) by (intros y; pose proof (acos_bound y); lra).
  assert (SL : forall y, 0 <= y -> sin y <= y). { intros y Hy. pose proof (sin_lip y 0) as Z. rewrite sin_0, !Rminus_0_r, (Rabs_pos_eq y) in Z by auto. pose proof (Rle_abs (sin y)). lra. }
  assert (A1 : S' <= acos q) by (rewrite <- SP; apply SL, HT).
  assert (A2 : S' <= PI - acos q). { rewrite <- acos_opp. replace S' with (sin (acos (- q))); [apply SL, HT|]. rewrite sin_acos by lra. rewrite <- Rsqr_neg. reflexivity. }
  assert (A3 : Sn <= acos C) by (rewrite <- SA; apply SL, HT).
  assert (A4 : Sn <= PI - acos C). { rewrite <- acos_opp. replace Sn with (sin (acos (- C))); [apply SL, HT|]. rewrite sin_acos by lra. rewrite <- Rsqr_neg, <- sin_acos by lra. exact SA. }
  pose proof (cross_rel v w s Zv Zw ltac:(lra) H) as CR. fold x in CR.
  assert (NF : 0 < norm (fcross v w)).
  { destruct (Rtotal_order (norm (fcross v w)) 0) as [B|[B|B]]; [pose proof (norm_pos (fcross v w)); lra| |exact B]. exfalso.
    assert (Z : 0 <= / 9007199254740992 * 4.3 * / s * norm x). { apply Rmult_le_pos; [|lra]. apply Rmult_le_pos; [lra|]. exact RS. }
    pose proof (norm_near _ _ _ Z CR) as D. apply norm_zero in B. rewrite B in D.
    assert (E : norm (vsub v0 x) = norm x) by (unfold norm, dot, vsub, v0; cbn; f_equal; ring). rewrite E in D. fold r in D. assert (r * norm x <= 8192 * norm x) by (apply Rmult_le_compat_r; lra). lra. }
  assert (FZ : sizable (fcross v w)). { apply cross_sizable; auto using ordinary_grid. intros E. rewrite E, norm_v0 in NF. lra. }
  assert (AX : vec_near (/ 70368744177664 * r) (f_vdiv (fcross v w) (f_len L (fcross v w))) (vscale (/ norm x) x)).
  { pose proof (unit_near (fcross v w) x (/ 9007199254740992 * 4.3 * / s) NF Px ltac:(apply Rmult_le_pos; [lra|exact RS]) CR) as U.
    pose proof (vec_near_trans _ _ _ _ _ (axis_err L (fcross v w) HL FZ) U) as (U1 & U2 & U3). fold r in U1, U2, U3. unfold vec_near. repeat split; lra. }
  assert (RO : f_rot_vtv L v w = Some (f_rodrigues L (f_vdiv (fcross v w) (f_len L (fcross v w))) t)).
  { unfold f_rot_vtv. rewrite Q, TA. apply Rabs_le_inv in TE. rewrite (proj2 (Rltb_false _ _)) by (rewrite eps_val; lra).
    assert (P : eps <= b64 (pi64 - t)).
    { pose proof pi64_err as PE. apply Rabs_le_inv in PE. rewrite half50 in PE. pose proof (b64_bounds (pi64 - t) ltac:(lra)) as [B _]. rewrite ulp1_val in B.
      pose proof tiny60. rewrite eps_val. lra. }
    rewrite (proj2 (Rltb_false _ _) P). pose proof (len_pos L _ HL FZ). assert (0 < / 2 ^ 402) by (apply Rinv_0_lt_compat, pow_lt; lra).
    rewrite (proj2 (Reqb_false _ _)) by lra. reflexivity. }
  set (M := f_rodrigues L _ t) in *.
  assert (NX : norm x <> 0) by lra.
  set (N := rodrigues (vscale (/ norm x) x) (acos C)).
  assert (RX : rot_vtv v w = Some N).
  { unfold rot_vtv. rewrite (proj2 (Reqb_false _ _)) by lra. fold C. rewrite (proj2 (Rltb_false _ _)) by (rewrite eps_val; lra).
    rewrite (proj2 (Rltb_false _ _)) by (rewrite eps_val; lra). fold x. rewrite (proj2 (Reqb_false _ _) NX). reflexivity. }
  assert (SE : Rabs (lb_sin L t - sin (acos C)) <= / 17592186044416 * r).
  { pose proof (sl_sin L HL t) as E1. rewrite half50 in E1. pose proof (sin_lip t (acos q)) as E2. rewrite SP in E2. rewrite SA.
    pose proof (near_trans _ _ _ _ _ E1 (near_trans _ _ _ _ _ (Rle_trans _ _ _ E2 TE) DS)). lra. }
  assert (CE : Rabs (lb_cos L t - cos (acos C)) <= / 17592186044416 * r).
  { pose proof (sl_cos L HL t) as E1. rewrite half50 in E1. pose proof (cos_lip t (acos q)) as E2. rewrite CP in E2. rewrite CA.
    assert (E3 : Rabs (q - C) <= / 70368744177664) by (apply Rabs_le; lra).
    pose proof (near_trans _ _ _ _ _ E1 (near_trans _ _ _ _ _ (Rle_trans _ _ _ E2 TE) E3)). lra. }
  assert (T9 : / 10 ^ 9 = / 1000000000) by (f_equal; lra).
  pose proof (rod_err L (f_vdiv (fcross v w) (f_len L (fcross v w))) _ t (acos C) (/ 70368744177664 * r) (/ 17592186044416 * r) HL (unit_scale x NX)) as RE. rewrite T9 in RE.
  specialize (RE ltac:(lra) ltac:(lra) AX SE CE). fold M N in RE.
  assert (MN : mat_near (/ 2 ^ 40 / s) M N).
  { rewrite p40. unfold Rdiv. fold r. destruct RE as ((F1 & F2 & F3) & (G1 & G2 & G3) & (H1 & H2 & H3)). unfold mat_near, vec_near. repeat split; lra. }
  assert (RN : rotation N) by apply rodrigues_rotation, unit_scale, NX.
  exists M, N. split; [exact RO|]. split; [exact RX|]. split; [exact RN|]. split; [exact MN|]. split.
  - apply (near_rotation M N _ RN) in MN; [exact MN|]. rewrite p40. unfold Rdiv. fold r. assert (T8 : / 10 ^ 8 = / 100000000) by (f_equal; lra). rewrite T8. lra.
  - destruct (C30_aligns_partial v w ltac:(lra) ltac:(lra)) as (N' & RX' & _ & AL). { fold C. rewrite eps_val. lra. }
    rewrite RX in RX'. injection RX' as <-. rewrite <- AL.
    assert (UU : comps 1 (unit_vec v)) by (apply unit_comps; unfold unit_vec; apply unit_scale; lra).
    destruct UU as (U1 & U2 & U3). set (u := unit_vec v) in *. set (d := / 2 ^ 40 / s) in *.
    assert (K : forall a b, vec_near d a b -> Rabs (dot a u - dot b u) <= 3 * d).
    { intros a b (D1 & D2 & D3). pose proof (mul_abs_le _ _ _ _ D1 U1) as K1. pose proof (mul_abs_le _ _ _ _ D2 U2) as K2. pose proof (mul_abs_le _ _ _ _ D3 U3) as K3.
      apply Rabs_le. apply Rabs_le_inv in K1, K2, K3. unfold dot. lra. }
    destruct MN as (M0 & M1 & M2). unfold vec_near, mv. cbn [vx vy vz]. repeat split; apply K; assumption.
Qed.

(** (0.3, 0.4, 0.5), as Python rounds these numbers, and (-1.5, -2, -2.5), opposite to it up to
    rounding: the matrix is accepted as a rotation and makes the two perpendicular. *)
Theorem C145_misaligned_refuted : exists v w, ordinary v /\ ordinary w /\
  mat_near (/ 2 ^ 53) (mkM v w v0) (mkM (mkV 0.3 0.4 0.5) (mkV (-1.5) (-2) (-2.5)) v0) /\ 2 <= norm v * norm w /\
  forall L, sound_lib L -> lb_dot L = fdot -> exists M, f_rot_vtv L v w = Some M /\ rotation_ok M = true /\
    Rabs (dot (mv M v) w) <= / 10 ^ 5.
Proof.
  assert (OV : ordinary near345).
  { assert (P : / 2 ^ 100 <= / 4). { apply Rinv_le; [lra|]. replace 4 with (2 ^ 2) by ring. apply Rle_pow; [lra|lia]. }
    unfold ordinary, near345. cbn [vx vy vz]. repeat split; try (right; rewrite Rabs_pos_eq; lra).
    - rnd_tac 5404319552844595%Z 54%Z 18014398509481984%Z. reflexivity.
    - rnd_tac 7205759403792794%Z 54%Z 18014398509481984%Z. reflexivity.
    - rnd_tac 4503599627370496%Z 53%Z 9007199254740992%Z. lra. }
  assert (OW : ordinary (vopp by5)).
  { assert (P : / 2 ^ 100 <= / 4). { apply Rinv_le; [lra|]. replace 4 with (2 ^ 2) by ring. apply Rle_pow; [lra|lia]. }
    unfold ordinary, by5, vopp. cbn [vx vy vz]. rewrite !b64_opp, !Rabs_Ropp. repeat split; try (right; rewrite Rabs_pos_eq; lra); f_equal.
    - rnd_tac 6755399441055744%Z 52%Z 4503599627370496%Z. lra.
    - rnd_tac 4503599627370496%Z 51%Z 2251799813685248%Z. lra.
    - rnd_tac 5629499534213120%Z 51%Z 2251799813685248%Z. lra. }
  exists near345, (vopp by5). split; [exact OV|]. split; [exact OW|]. split.
  { assert (E : / 2 ^ 53 = / 9007199254740992) by (f_equal; lra). rewrite E. unfold mat_near, vec_near, near345, by5, vopp, v0. cbn [r0 r1 r2 vx vy vz].
    repeat split; apply Rabs_le; lra. }
  split.
  { unfold norm. rewrite <- sqrt_mult by (unfold dot, near345, by5, vopp; cbn [vx vy vz]; lra). rewrite <- (sqrt_square 2) by lra. apply sqrt_le_1_alt.
    unfold dot, near345, by5, vopp; cbn [vx vy vz]. lra. }
  intros L S F. set (q := - (9007199254740990 / 9007199254740992)).
  pose proof (near345_cosine L F) as Q. fold q in Q. assert (Bq : -1 <= q <= 1) by (unfold q; lra).
  destruct (sl_acos L S q Bq) as (t & TA & TE). rewrite half50 in TE. pose proof (Rabs_le_inv _ _ TE) as TE'.
  assert (AC : / 1099511627776 <= acos q /\ / 1099511627776 <= PI - acos q).
  { assert (E : / 2 ^ 53 = / 9007199254740992) by (f_equal; lra).
    split; [|rewrite <- acos_opp]; rewrite <- p40; apply acos_big; try (unfold q; lra); rewrite E; unfold q; lra. }
  assert (R : f_rot_vtv L near345 (vopp by5) = Some (f_rodrigues L (mkV 0 0 1) t)).
  { unfold f_rot_vtv. rewrite Q, TA. rewrite (proj2 (Rltb_false _ _)) by (rewrite eps_val; lra).
    assert (P : eps <= b64 (pi64 - t)).
    { pose proof pi64_err as PE. apply Rabs_le_inv in PE. rewrite half50 in PE. pose proof (b64_bounds (pi64 - t) ltac:(lra)) as [B _]. rewrite ulp1_val in B.
      pose proof tiny60. rewrite eps_val. lra. }
    rewrite (proj2 (Rltb_false _ _) P), near345_cross. destruct (near345_axis L F) as [-> ->].
    rewrite (proj2 (Reqb_false _ _)) by lra. reflexivity. }
  exists (f_rodrigues L (mkV 0 0 1) t). split; [exact R|]. split; [exact (proj2 (C145_rotation_partial L _ _ _ S OV OW R))|].
  assert (SQ : 0 <= sin (acos q) <= / 40000000).
  { rewrite sin_acos by lra. split; [apply sqrt_pos|]. rewrite <- (sqrt_square (/ 40000000)) by lra. apply sqrt_le_1_alt. unfold Rsqr, q. lra. }
  pose proof (sl_sin L S t) as E1. rewrite half50 in E1. pose proof (sin_lip t (acos q)) as E2.
  pose proof (sl_cos L S t) as E3. rewrite half50 in E3. pose proof (cos_lip t (acos q)) as E4. rewrite cos_acos in E4 by lra.
  assert (SE : Rabs (lb_sin L t - sin PI) <= / 30000000).
  { rewrite sin_PI. pose proof (near_trans _ _ _ _ _ E1 (Rle_trans _ _ _ E2 TE)) as E. apply Rabs_le. apply Rabs_le_inv in E. lra. }
  assert (CE : Rabs (lb_cos L t - cos PI) <= / 30000000).
  { rewrite cos_PI. pose proof (near_trans _ _ _ _ _ E3 (Rle_trans _ _ _ E4 TE)) as E. apply Rabs_le. apply Rabs_le_inv in E. unfold q in E. lra. }
  assert (U : dot (mkV 0 0 1) (mkV 0 0 1) = 1) by (unfold dot; cbn; ring).
  assert (T9 : / 10 ^ 9 = / 1000000000) by (f_equal; lra).
  pose proof (rod_err L (mkV 0 0 1) (mkV 0 0 1) t PI 0 (/ 30000000) S U) as RE. rewrite T9 in RE.
  specialize (RE ltac:(lra) ltac:(lra) ltac:(repeat split; rewrite Rminus_eq_0, Rabs_R0; lra) SE CE).
  set (M := f_rodrigues L (mkV 0 0 1) t) in *. unfold rodrigues in RE. rewrite sin_PI, cos_PI in RE.
  destruct RE as ((A1 & A2 & A3) & (B1 & B2 & B3) & (C1 & C2 & C3)). revert A1 A2 A3 B1 B2 B3 C1 C2 C3. 
  unfold skew. cbn [mI madd mscale mm mt mv r0 r1 r2 vx vy vz vadd vscale dot]. unfold dot. cbn [vx vy vz]. intros A1 A2 A3 B1 B2 B3 C1 C2 C3.
  assert (E5 : / 10 ^ 5 = / 100000) by (f_equal; lra). rewrite E5. apply Rabs_le_inv in A1, A2, A3, B1, B2, B3, C1, C2, C3. apply Rabs_le.
  unfold mv, near345, by5, vopp, dot. cbn [vx vy vz]. lra.
Qed.

(** Libraries as assumed exist; [1 0 0] and [1 1 1] meet the conditions of the theorem on
    accuracy with s = 1/2. *)
Example C145_nonvacuous : sound_lib plain_lib /\ lb_dot plain_lib = fdot /\
  ordinary (mkV 1 0 0) /\ ordinary (mkV 1 1 1) /\ sizable (mkV 1 1 1) /\ whole (mkV 3 0 4) /\ norm (mkV 3 0 4) = 5 /\
  / 2 * (norm (mkV 1 0 0) * norm (mkV 1 1 1)) <= norm (cross (mkV 1 0 0) (mkV 1 1 1)).
Proof.
  assert (P : forall n, / 2 ^ n <= 1). { intros n. rewrite <- Rinv_1. apply Rinv_le; [lra|]. apply pow_R1_Rle. lra. }
  split; [apply plain_sound|]. split; [reflexivity|].
  split; [|split; [|split; [|split; [|split]]]].
  - unfold ordinary. cbn [vx vy vz]. repeat split; try apply (b64_Z 1); try apply b64_0; try lia; auto. right. rewrite Rabs_R1. apply P.
  - unfold ordinary. cbn [vx vy vz]. repeat split; try (apply (b64_Z 1); lia); right; rewrite Rabs_R1; apply P.
  - unfold sizable, norm, dot. cbn [vx vy vz]. apply Rle_trans with 1; [apply P|]. rewrite <- sqrt_1 at 1. apply sqrt_le_1_alt. lra.
  - exists 3%Z, 0%Z, 4%Z. split; [reflexivity|lia].
  - unfold norm, dot. cbn [vx vy vz]. replace (3 * 3 + 0 * 0 + 4 * 4) with (5 * 5) by ring. apply sqrt_square. lra.
  - unfold norm, cross, dot. cbn [vx vy vz]. replace (1 * 1 + 0 * 0 + 0 * 0) with 1 by ring. rewrite sqrt_1, Rmult_1_l.
    replace (/ 2) with (sqrt (/ 4)). 2:{ replace (/ 4) with (/ 2 * / 2) by lra. apply sqrt_square. lra. }
    rewrite <- sqrt_mult by lra. apply sqrt_le_1_alt. lra.
Qed.
