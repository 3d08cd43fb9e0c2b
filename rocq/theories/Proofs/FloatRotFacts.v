(** Rounding of particular numbers, and facts about rot_vtv in binary64. *)
From Coq Require Import Reals List Bool ZArith Lra Lia Psatz.
From Flocq Require Import Core Relative.
From Verif.Model Require Import Base Vec Transform Float FloatRot.
From Verif.Spec Require Import FloatSpec FloatRotSpec.
From Verif.Proofs Require Import VecFacts FloatFacts.
Import ListNotations.
Open Scope R_scope.

Local Instance fexp_ok : Valid_exp (FLT_exp (-1074) 53). Proof. apply FLT_exp_valid. reflexivity. Qed.

Lemma b64_opp x : b64 (- x) = - b64 x.
Proof. unfold b64. apply round_NE_opp. Qed.
Lemma b64_0 : b64 0 = 0.
Proof. unfold b64. apply round_0. apply valid_rnd_N. Qed.

Lemma Znearest_even x m : Z.even m = true -> Rabs (x - IZR m) <= / 2 -> ZnearestE x = m.
Proof.
  intros E H. destruct (Rle_lt_or_eq_dec _ _ H) as [L|L]; [apply Znearest_imp, L|]. clear H.
  assert (C : x = IZR m + / 2 \/ x = IZR m - / 2). { unfold Rabs in L. destruct (Rcase_abs (x - IZR m)); lra. }
  unfold Znearest. destruct C as [->| ->].
  - assert (F : Zfloor (IZR m + / 2) = m). { apply Zfloor_imp. rewrite plus_IZR. lra. }
    rewrite F. rewrite Rcompare_Eq by lra. rewrite E. reflexivity.
  - assert (F : Zfloor (IZR m - / 2) = (m - 1)%Z). { apply Zfloor_imp. rewrite plus_IZR, minus_IZR. lra. }
    rewrite F. rewrite Rcompare_Eq by (rewrite minus_IZR; lra). rewrite <- Z.negb_even, E in * || idtac.
    replace (Z.even (m - 1)) with false by (rewrite Z.even_sub, E; reflexivity). cbn [negb]. apply Zceil_imp. rewrite minus_IZR. lra.
Qed.
(** A number in the binade of m * 2^e rounds to it if its significand does. *)
Lemma b64_at x m e : (-1074 <= e)%Z -> bpow radix2 (52 + e) <= x < bpow radix2 (53 + e) ->
  ZnearestE (x * bpow radix2 (- e)) = m -> b64 x = IZR m * bpow radix2 e.
Proof.
  intros He [H1 H2] H. assert (P : 0 < x) by (eapply Rlt_le_trans; [apply bpow_gt_0|exact H1]).
  assert (C : cexp radix2 (FLT_exp (-1074) 53) x = e).
  { unfold cexp. rewrite (mag_unique_pos radix2 x (53 + e)). 2:{ replace (53 + e - 1)%Z with (52 + e)%Z by lia. split; auto. } unfold FLT_exp. lia. }
  unfold b64, round, F2R, scaled_mantissa. cbn [Fnum Fexp]. rewrite C. f_equal. f_equal.
  exact H.
Qed.
(** the same with e = -k, all numbers written out *)
Lemma b64_near x m k p : (0 <= k <= 1074)%Z -> Z.pow 2 k = p ->
  4503599627370496 <= x * IZR p < 9007199254740992 ->
  Rabs (x * IZR p - IZR m) < / 2 \/ (Rabs (x * IZR p - IZR m) <= / 2 /\ Z.even m = true) -> b64 x = IZR m / IZR p.
Proof.
  intros Hk Hp [H1 H2] H.
  assert (E : bpow radix2 (- k) = / IZR p). { rewrite bpow_opp. f_equal. rewrite <- Hp. change 2%Z with (radix_val radix2). rewrite IZR_Zpower by lia. reflexivity. }
  assert (PP : 0 < IZR p). { rewrite <- Hp. apply IZR_lt. apply Z.pow_pos_nonneg; lia. }
  unfold Rdiv. rewrite <- E. apply b64_at; [lia| |].
  - rewrite !bpow_plus, E. split.
    + apply Rmult_le_reg_r with (IZR p); [exact PP|]. rewrite Rmult_assoc, Rinv_l, Rmult_1_r by lra. change (bpow radix2 52) with 4503599627370496. lra.
    + apply Rmult_lt_reg_r with (IZR p); [exact PP|]. rewrite Rmult_assoc, Rinv_l, Rmult_1_r by lra. change (bpow radix2 53) with 9007199254740992. lra.
  - rewrite bpow_opp, E, Rinv_inv. destruct H as [H|[H Ev]]; [apply Znearest_imp, H|apply Znearest_even; auto].
Qed.

Lemma b64_Z z : (Z.abs z <= 2 ^ 53)%Z -> b64 (IZR z) = IZR z.
Proof.
  intros H. unfold b64. apply round_generic; [apply valid_rnd_N|].
  destruct (Z.eq_dec (Z.abs z) (2 ^ 53)) as [E|E].
  - apply generic_format_FLT. destruct (Z.abs_spec z) as [[_ Q]|[_ Q]].
    + exists (Float radix2 1 53); [|cbn; lia|cbn; lia]. unfold F2R. cbn [Fnum Fexp]. replace z with (2 ^ 53)%Z by lia. change (bpow radix2 53) with (IZR (2 ^ 53)). ring.
    + exists (Float radix2 (-1) 53); [|cbn; lia|cbn; lia]. unfold F2R. cbn [Fnum Fexp]. replace z with (- 2 ^ 53)%Z by lia. change (bpow radix2 53) with (IZR (2 ^ 53)). rewrite opp_IZR. ring.
  - apply generic_format_FLT. exists (Float radix2 z 0); [|cbn [Fnum]; change (Z.pow radix2 53) with (2 ^ 53)%Z; lia|cbn; lia].
    unfold F2R. cbn. ring.
Qed.

(** a rounded number below 1 is at most 1 - 2^-53 *)
Lemma below_one x : b64 x < 1 -> b64 x <= 1 - / 2 ^ 53.
Proof.
  intros H. assert (F1 : generic_format radix2 (FLT_exp (-1074) 53) 1).
  { replace 1 with (b64 (IZR 1)). - apply generic_format_round; [apply fexp_ok|apply valid_rnd_N]. - apply b64_Z. cbn; lia. }
  assert (F : generic_format radix2 (FLT_exp (-1074) 53) (b64 x)) by (apply generic_format_round; [apply fexp_ok|apply valid_rnd_N]).
  pose proof (pred_ge_gt radix2 (FLT_exp (-1074) 53) _ _ F F1 H) as P.
  assert (E : pred radix2 (FLT_exp (-1074) 53) 1 = 1 - / 2 ^ 53); [|rewrite <- E; exact P].
  change 1 with (bpow radix2 0) at 1. rewrite pred_bpow. change (bpow radix2 0) with 1. f_equal.
  change (FLT_exp (-1074) 53 0) with (- Z.of_nat 53)%Z. rewrite bpow_neg. reflexivity.
Qed.

Lemma fcross_self v : fcross v v = v0.
Proof.
  unfold fcross, v0. rewrite (Rmult_comm (vz v) (vy v)), (Rmult_comm (vx v) (vz v)), (Rmult_comm (vy v) (vx v)).
  rewrite !Rminus_diag_eq, b64_0 by reflexivity. reflexivity.
Qed.
Lemma fcross_neg v w : fcross v (vopp w) = vopp (fcross v w).
Proof.
  unfold fcross, vopp. cbn [vx vy vz]. rewrite !Ropp_mult_distr_r_reverse, !b64_opp.
  assert (E : forall a b, b64 (- a - - b) = - b64 (a - b)) by (intros; rewrite <- b64_opp; f_equal; ring).
  rewrite !E. reflexivity.
Qed.

(** the arccosine of a rounded number below 1 is far above eps *)
Lemma acos_big q : -1 <= q -> q <= 1 - / 2 ^ 53 -> / 2 ^ 40 <= acos q.
Proof.
  intros H1 H2. destruct (Rle_or_lt (/ 2 ^ 40) (acos q)) as [|H]; [assumption|exfalso].
  pose proof (acos_bound q) as [B1 B2]. assert (Q : q = cos (acos q)). { rewrite cos_acos; [reflexivity|]. split; [lra|]. assert (0 < / 2 ^ 53) by (apply Rinv_0_lt_compat, pow_lt; lra). lra. }
  set (t := acos q) in *. assert (C : 1 - t * t / 2 <= cos t).
  { destruct (Req_dec t 0) as [->|N]; [rewrite cos_0; lra|].
    pose proof (cos_2a_sin (t / 2)) as C2. replace (2 * (t / 2)) with t in C2 by field. rewrite C2.
    assert (S : 0 <= sin (t / 2) <= t / 2).
    { split; [apply sin_ge_0; lra|]. apply Rlt_le, sin_lt_x. lra. }
    nra. }
  assert (E1 : / 2 ^ 40 = / 1099511627776) by (f_equal; lra). assert (E2 : / 2 ^ 53 = / 9007199254740992) by (f_equal; lra).
  rewrite E1 in H. rewrite E2 in H2. nra.
Qed.

Lemma sqrt_between x lo hi : 0 <= lo -> 0 <= hi -> lo * lo < x -> x < hi * hi -> lo < sqrt x < hi.
Proof.
  intros. split.
  - rewrite <- (sqrt_square lo) by auto. apply sqrt_lt_1_alt. nra.
  - rewrite <- (sqrt_square hi) by auto. apply sqrt_lt_1_alt. nra.
Qed.
(** rounding a number or a square root, everything written out *)
Ltac rnd_tac m k p :=
  match goal with |- context [b64 ?x] => lazymatch x with context [b64 _] => fail | _ => rewrite (b64_near x m k p) end end;
  [|lia|reflexivity|lra|first [left; apply Rabs_def1; lra|right; split; [apply Rabs_le; lra|reflexivity]]].

Lemma len_3 : b64 (sqrt 3) = 7800463371553962 / 4503599627370496.
Proof.
  destruct (sqrt_between 3 (7800463371553961.5 / 4503599627370496) (7800463371553962.5 / 4503599627370496)); try lra.
  rnd_tac 7800463371553962%Z 52%Z 4503599627370496%Z. reflexivity.
Qed.
Lemma cos_3 : b64 (3 / b64 (b64 (sqrt 3) * b64 (sqrt 3))) = 4503599627370497 / 4503599627370496.
Proof.
  rewrite len_3. rnd_tac 6755399441055743%Z 51%Z 2251799813685248%Z. rnd_tac 4503599627370497%Z 52%Z 4503599627370496%Z. reflexivity.
Qed.
Lemma len_2 : b64 (sqrt 2) = 6369051672525773 / 4503599627370496.
Proof.
  destruct (sqrt_between 2 (6369051672525772.5 / 4503599627370496) (6369051672525773.5 / 4503599627370496)); try lra.
  rnd_tac 6369051672525773%Z 52%Z 4503599627370496%Z. reflexivity.
Qed.
Lemma cos_2 : b64 (2 / b64 (b64 (sqrt 2) * b64 (sqrt 2))) = 9007199254740990 / 9007199254740992.
Proof.
  rewrite len_2. rnd_tac 4503599627370497%Z 51%Z 2251799813685248%Z. rnd_tac 9007199254740990%Z 53%Z 9007199254740992%Z. reflexivity.
Qed.
Lemma len_6 : b64 (sqrt 6) = 5515760546423086 / 2251799813685248.
Proof.
  destruct (sqrt_between 6 (5515760546423085.5 / 2251799813685248) (5515760546423086.5 / 2251799813685248)); try lra.
  rnd_tac 5515760546423086%Z 51%Z 2251799813685248%Z. reflexivity.
Qed.
Lemma cos_6 : b64 (6 / b64 (b64 (sqrt 6) * b64 (sqrt 6))) = 4503599627370497 / 4503599627370496.
Proof.
  rewrite len_6. rnd_tac 6755399441055743%Z 50%Z 1125899906842624%Z. rnd_tac 4503599627370497%Z 52%Z 4503599627370496%Z. reflexivity.
Qed.
(* self *)
Lemma lib_dot_bounds L v w : sound_lib L -> Rabs (lb_dot L v w - dot v w) <= 4 * ulp1 * (norm v * norm w * 3) + 8 * tiny.
Proof.
  intros S. eapply Rle_trans; [apply (sl_dot L S)|]. apply Rplus_le_compat_r. apply Rmult_le_compat_l; [pose proof ulp1_pos; lra|].
  pose proof (comp_norm v) as (A1 & A2 & A3). pose proof (comp_norm w) as (B1 & B2 & B3).
  assert (M : forall x y, Rabs x <= norm v -> Rabs y <= norm w -> Rabs (x * y) <= norm v * norm w).
  { intros x y Hx Hy. apply mul_abs_le; auto. }
  pose proof (M _ _ A1 B1). pose proof (M _ _ A2 B2). pose proof (M _ _ A3 B3). lra.
Qed.
Lemma p400_pos : 0 < / 2 ^ 400. Proof. apply Rinv_0_lt_compat, pow_lt. lra. Qed.
Lemma norm_sq v : norm v * norm v = dot v v.
Proof. unfold norm. apply sqrt_sqrt. unfold dot. nra. Qed.
(** bounds in which tiny numbers no longer occur *)
Lemma tiny_rel v : sizable v -> tiny <= / 2 ^ 200 * (norm v * norm v).
Proof.
  unfold sizable. intros H. pose proof p400_pos. eapply Rle_trans; [apply (tiny_split 200 800); lia|].
  apply Rmult_le_compat_l; [apply Rlt_le, Rinv_0_lt_compat, pow_lt; lra|].
  replace 800%nat with (400 + 400)%nat by reflexivity. rewrite pow_add, Rinv_mult. apply Rmult_le_compat; lra.
Qed.
Lemma p200 : 0 < / 2 ^ 200 <= / 2 ^ 60.
Proof. split; [apply Rinv_0_lt_compat, pow_lt; lra|]. apply Rinv_le; [apply pow_lt; lra|]. apply Rle_pow; [lra|lia]. Qed.
Lemma self_dot L v : sound_lib L -> sizable v -> (1 - / 2 ^ 49) * (norm v * norm v) <= lb_dot L v v <= (1 + / 2 ^ 49) * (norm v * norm v).
Proof.
  intros S Z. pose proof (lib_dot_bounds L v v S) as B. apply Rabs_le_inv in B. rewrite norm_sq in *. pose proof (tiny_rel v Z) as T. rewrite norm_sq in T.
  assert (P : 0 <= dot v v) by (unfold dot; nra). pose proof p200 as [Q1 Q2]. rewrite ulp1_val in B.
  assert (E : / 2 ^ 60 = / 1152921504606846976) by (f_equal; lra). assert (E2 : / 2 ^ 49 = / 562949953421312) by (f_equal; lra). rewrite E in Q2. rewrite E2.
  set (d := dot v v) in *. set (p := / 2 ^ 200) in *. clearbody d p. assert (p * d <= / 1152921504606846976 * d) by (apply Rmult_le_compat_r; lra). lra.
Qed.
Lemma len_pos L v : sound_lib L -> sizable v -> / 2 ^ 402 <= f_len L v.
Proof.
  intros S Z. unfold f_len. pose proof (self_dot L v S Z) as [D _].
  assert (E2 : / 2 ^ 49 = / 562949953421312) by (f_equal; lra). rewrite E2 in D.
  assert (Q : norm v / 2 <= sqrt (lb_dot L v v)).
  { rewrite <- (sqrt_square (norm v / 2)). 2:{ unfold sizable in Z. pose proof p400_pos. lra. } apply sqrt_le_1_alt. pose proof (norm_sq v). assert (0 <= dot v v) by (unfold dot; nra). nra. }
  pose proof (sqrt_pos (lb_dot L v v)) as SP. pose proof (b64_bounds _ SP) as [B _]. rewrite ulp1_val in B.
  assert (T : tiny <= / 2 ^ 402 * / 2 ^ 10) by (apply tiny_split; lia).
  assert (E10 : / 2 ^ 10 = / 1024) by (f_equal; lra). rewrite E10 in T.
  assert (E400 : / 2 ^ 400 = 4 * / 2 ^ 402). { replace 402%nat with (400 + 2)%nat by reflexivity. rewrite pow_add, Rinv_mult. field. }
  unfold sizable in Z. rewrite E400 in Z. set (h := / 2 ^ 402) in *. assert (0 < h) by (apply Rinv_0_lt_compat, pow_lt; lra). clearbody h. lra.
Qed.
Lemma lens_pos L v w : sound_lib L -> sizable v -> sizable w -> 0 < b64 (f_len L v * f_len L w).
Proof.
  intros S Z1 Z2. pose proof (len_pos L v S Z1) as A. pose proof (len_pos L w S Z2) as B.
  assert (H : 0 < / 2 ^ 402) by (apply Rinv_0_lt_compat, pow_lt; lra).
  assert (M : / 2 ^ 402 * / 2 ^ 402 <= f_len L v * f_len L w) by (apply Rmult_le_compat; lra).
  pose proof (b64_bounds (f_len L v * f_len L w) ltac:(nra)) as [C _]. rewrite ulp1_val in C.
  assert (T : tiny <= / 2 ^ 804 * / 2 ^ 10) by (apply tiny_split; lia).
  replace (/ 2 ^ 804) with (/ 2 ^ 402 * / 2 ^ 402) in T. 2:{ rewrite <- Rinv_mult, <- pow_add. reflexivity. }
  assert (E10 : / 2 ^ 10 = / 1024) by (f_equal; lra). rewrite E10 in T. 
  assert (0 < / 2 ^ 402 * / 2 ^ 402) by nra. lra.
Qed.
Lemma cosine_eq L v w : sound_lib L -> sizable v -> sizable w ->
  f_cosine L v w = Some (b64 (lb_dot L v w / b64 (f_len L v * f_len L w))).
Proof. intros S A B. unfold f_cosine. pose proof (lens_pos L v w S A B). unfold Reqb. destruct (Req_EM_T _ 0); [lra|reflexivity]. Qed.

Lemma pi64_err : Rabs (pi64 - PI) <= / 2 ^ 50.
Proof.
  unfold pi64. eapply Rle_trans; [apply b64_err|]. pose proof PI_4 as P4. pose proof PI_RGT_0. rewrite (Rabs_pos_eq PI) by lra. rewrite ulp1_val.
  assert (T : tiny <= / 2 ^ 60) by (apply tiny_le; lia). assert (E : / 2 ^ 60 = / 1152921504606846976) by (f_equal; lra). rewrite E in T. rewrite half50. lra.
Qed.
Lemma v0_len L : sound_lib L -> f_len L v0 = 0.
Proof.
  intros S. unfold f_len. rewrite (sl_whole L S). - replace (dot v0 v0) with 0 by (unfold dot, v0; cbn; ring). rewrite sqrt_0. apply b64_0.
  - exists 0%Z, 0%Z, 0%Z. cbn. split; [reflexivity|lia].
  - exists 0%Z, 0%Z, 0%Z. cbn. split; [reflexivity|lia].
Qed.
Lemma eps_val : eps = / 4503599627370496. Proof. unfold eps. f_equal. lra. Qed.
Lemma pi_3 : 3 < PI. Proof. pose proof PI2_3_2. unfold PI2 in *. lra. Qed.
Lemma p40 : / 2 ^ 40 = / 1099511627776. Proof. f_equal. lra. Qed.

(** the whole of rot_vtv once the computed cosine is known not to be 1 or -1 and the cross
    product vanishes *)
Lemma no_axis L v w q : sound_lib L -> f_cosine L v w = Some q -> fcross v w = v0 ->
  (q < -1 \/ 1 < q \/ (-1 + / 2 ^ 53 <= q <= 1 - / 2 ^ 53)) -> f_rot_vtv L v w = None.
Proof.
  intros S C F H. unfold f_rot_vtv. rewrite C.
  destruct H as [H|[H|[H1 H2]]]; [rewrite (sl_nan L S) by auto; reflexivity|rewrite (sl_nan L S) by auto; reflexivity|].
  assert (U : 0 < / 2 ^ 53) by (apply Rinv_0_lt_compat, pow_lt; lra).
  destruct (sl_acos L S q) as (t & -> & T); [lra|]. apply Rabs_le_inv in T.
  pose proof (acos_big q ltac:(lra) H2) as A. pose proof (acos_big (- q) ltac:(lra) ltac:(lra)) as A'. rewrite acos_opp in A'.
  rewrite half50 in T. rewrite p40 in *. unfold Rltb. rewrite eps_val.
  destruct (Rlt_dec t _); [lra|].
  assert (P : / 4503599627370496 <= b64 (pi64 - t)).
  { pose proof pi64_err as PE. apply Rabs_le_inv in PE. rewrite half50 in PE.
    assert (G : / 2199023255552 <= pi64 - t) by lra. pose proof (b64_bounds (pi64 - t) ltac:(lra)) as [B _]. rewrite ulp1_val in B.
    assert (TT : tiny <= / 2 ^ 60) by (apply tiny_le; lia). assert (E : / 2 ^ 60 = / 1152921504606846976) by (f_equal; lra). rewrite E in TT. lra. }
  destruct (Rlt_dec (b64 (pi64 - t)) _); [lra|]. rewrite F, (v0_len L S). unfold Reqb. destruct (Req_EM_T 0 0); [reflexivity|lra].
Qed.
