(** C148: amorphous blocks in double precision. *)
From Coq Require Import Reals List ZArith Bool Lra Lia Psatz.
From Flocq Require Import Core.
From Verif.Model Require Import Base Vec Amorphous Float FloatAmorph.
From Verif.Spec Require Import Geometry AmorphSpec FloatSpec FloatAmorphSpec.
From Verif.Proofs Require Import VecFacts PriorityFacts VolumeFacts AmorphFacts BatchFacts AmorphLoop FloatFacts FloatRotFacts FloatAmorphFacts.
From Verif.Props Require Import AmorphousProps.
Import ListNotations.
Open Scope R_scope.

Local Arguments IZR : simpl never.

Lemma p_inv n : 0 < / 2 ^ n. Proof. apply Rinv_0_lt_compat, pow_lt. lra. Qed.
Lemma pos_prod x y n m : / 2 ^ n <= x -> / 2 ^ m <= y -> / 2 ^ (n + m) <= x * y.
Proof. intros A B. rewrite pow_add, Rinv_mult. pose proof (p_inv n). pose proof (p_inv m). apply Rmult_le_compat; lra. Qed.
Lemma big_err x n : (n <= 1000)%nat -> / 2 ^ n <= x -> Rabs (b64 x - x) <= 2 * ulp1 * x /\ 0 < x.
Proof.
  intros N H. pose proof (p_inv n). assert (X : 0 < x) by lra. split; auto.
  pose proof (b64_err x) as E. rewrite (Rabs_pos_eq x) in E by lra.
  assert (T : tiny <= ulp1 * x). { eapply Rle_trans; [apply (tiny_split 53 n); lia|]. apply Rmult_le_compat_l; [pose proof ulp1_pos; lra|exact H]. }
  lra.
Qed.
Lemma count_err L D rho : block_ok D L ->
  Rabs (b64 (b64 (b64 (vx L * vy L) * vz L) * rho) - volume_of L * rho) <= / 2 ^ 50 * Rabs (volume_of L * rho) + tiny.
Proof.
  intros (((_ & X) & _) & ((_ & Y) & _) & ((_ & Z) & _)). unfold volume_of. set (x := vx L) in *. set (y := vy L) in *. set (z := vz L) in *. clearbody x y z.
  pose proof (p_inv 100) as P. pose proof ulp1_pos as U0. pose proof ulp1_val as UV. assert (U1 : ulp1 <= / 1000000) by lra. clear UV.
  pose proof (pos_prod x y 100 100 X Y) as XY. cbn [Nat.add] in XY. destruct (big_err (x * y) 200 ltac:(lia) XY) as [E1 XY0].
  set (a := b64 (x * y)) in *. apply Rabs_le_inv in E1.
  assert (A1 : / 2 ^ 201 <= a). { assert (/ 2 ^ 201 = / 2 * / 2 ^ 200) by (rewrite <- (tech_pow_Rmult 2 200), Rinv_mult; reflexivity). nra. }
  pose proof (pos_prod a z 201 100 A1 Z) as AZ. cbn [Nat.add] in AZ. destruct (big_err (a * z) 301 ltac:(lia) AZ) as [E2 AZ0].
  set (b := b64 (a * z)) in *. apply Rabs_le_inv in E2. pose proof (b64_err (b * rho)) as E3. set (c := b64 (b * rho)) in *. clearbody a b c.
  set (u := ulp1) in *. assert (E50 : / 2 ^ 50 = 8 * u) by (unfold u, ulp1; replace 53%nat with (50 + 3)%nat by reflexivity; rewrite pow_add; field; apply pow_nonzero; lra).
  rewrite E50. clear E50. clearbody u. set (V := x * y * z). assert (V0 : 0 < V) by (unfold V; apply Rmult_lt_0_compat; lra).
  assert (EA : Rabs (a * z - V) <= 2 * u * V). { unfold V. apply Rabs_le. split; nra. }
  apply Rabs_le_inv in EA. assert (EB : Rabs (b - V) <= 5 * u * V).
  { assert (u * (a * z) <= u * ((1 + 2 * u) * V)) by (apply Rmult_le_compat_l; lra). assert (u * (2 * u * V) <= / 4 * u * V) by nra. apply Rabs_le. split; nra. }
  assert (EC : Rabs (b * rho - V * rho) <= 5 * u * Rabs (V * rho)).
  { replace (b * rho - V * rho) with ((b - V) * rho) by ring. rewrite !Rabs_mult, (Rabs_pos_eq V) by lra. pose proof (Rabs_pos rho).
    apply Rle_trans with (5 * u * V * Rabs rho); [apply Rmult_le_compat_r; auto|lra]. }
  assert (ED : Rabs (b * rho) <= 2 * Rabs (V * rho)).
  { replace (b * rho) with (V * rho + (b * rho - V * rho)) by ring. eapply Rle_trans; [apply Rabs_triang|]. pose proof (Rabs_pos (V * rho)). nra. }
  replace (c - V * rho) with ((c - b * rho) + (b * rho - V * rho)) by ring. eapply Rle_trans; [apply Rabs_triang|].
  pose proof (Rmult_le_compat_l u _ _ ltac:(lra) ED). pose proof (Rabs_pos (V * rho)). nra.
Qed.

(** The number of atoms is the volume times the density up to 1/2 and rounding, every
    atom is in the half-open box, and any two are the minimum distance apart up to
    2^-50 of it and 2^-52 of the longest side. *)
Theorem C148_separated_partial pow2 L D md density draws l :
  sound_square pow2 -> block_ok D L -> length_ok md -> Forall draw53 draws ->
  f_gen_p_substrate pow2 L md density draws = Ok l ->
  Rabs (INR (length l) - volume_of L * density) <= / 2 + / 2 ^ 50 * Rabs (volume_of L * density) + tiny /\
  Forall (in_box L) l /\ separated ((1 - / 2 ^ 50) * md - / 2 ^ 52 * D) l.
Proof.
  intros HP HL [HM1 HM] HU H. unfold f_gen_p_substrate in H. inv_bind H. apply check_rows_ok in Ha.
  destruct (f_loop_inv L D md (pow2 md) HL HM (HP md) draws a _ l HU (f_empty L D md) ltac:(cbn; lia) H) as (A & B & C).
  split; [|split; [exact B|apply FOP_separated; exact C]].
  rewrite INR_IZR_INZ, A, Ha. unfold f_num_atoms.
  pose proof (count_err L D density HL) as E. set (x := b64 _) in *. pose proof (Znearest_half (fun t => negb (Z.even t)) x) as F.
  replace (IZR (ZnearestE x) - volume_of L * density) with (- (x - IZR (ZnearestE x)) + (x - volume_of L * density)) by ring.
  eapply Rle_trans; [apply Rabs_triang|]. rewrite Rabs_Ropp. lra.
Qed.

(** Nothing is raised, for as long as the draws last, when no side divided by the
    minimum distance rounds to a whole number and the density is not negative. *)
Theorem C148_no_error_partial pow2 L D md density draws :
  block_ok D L -> length_ok md -> Forall draw53 draws -> 0 <= density ->
  ~ is_whole (b64 (vx L / md)) -> ~ is_whole (b64 (vy L / md)) -> ~ is_whole (b64 (vz L / md)) ->
  (exists l, f_gen_p_substrate pow2 L md density draws = Ok l) \/ f_gen_p_substrate pow2 L md density draws = Err NeedMore.
Proof.
  intros HL [HM1 HM] HU HD WX WY WZ. unfold f_gen_p_substrate, check_rows.
  assert (N : (0 <= f_num_atoms L density)%Z).
  { unfold f_num_atoms. set (x := b64 _). assert (X : 0 <= x).
    { destruct HL as (((_ & X) & _) & ((_ & Y) & _) & ((_ & Z) & _)). pose proof (p_inv 100).
      apply b64_pos, Rmult_le_pos; [apply b64_pos, Rmult_le_pos; [apply b64_pos, Rmult_le_pos|]|]; lra. }
    rewrite <- (Zrnd_IZR ZnearestE 0). apply Zrnd_le; [apply valid_rnd_N|exact X]. }
  destruct (Z.ltb_spec (f_num_atoms L density) 0); [lia|]. cbn [bind].
  set (n := Z.to_nat _). set (st := mkPS _ _).
  assert (Q : {f_gen_loop L md (pow2 md) n st draws = Err NeedMore} + {f_gen_loop L md (pow2 md) n st draws <> Err NeedMore}).
  { destruct (f_gen_loop L md (pow2 md) n st draws) as [l|e]; [right; discriminate|]. destruct e; try (right; discriminate). left; reflexivity. }
  destruct Q as [Q|Q]; [right; exact Q|left]. eapply f_loop_total; eauto.
Qed.

(* ---------------- runs ---------------- *)
Lemma draw_0 : draw1 0. Proof. exists 0%Z. split; [lia|]. field. Qed.
Lemma draw_k k x : (0 <= k < 2 ^ 53)%Z -> x = IZR k / 9007199254740992 -> draw1 x.
Proof. intros H E. exists k. split; [exact H|]. rewrite E. f_equal. lra. Qed.
Lemma round_square : sound_square (fun x => b64 (x * x)).
Proof. intros x. pose proof (b64_err (x * x)) as E. rewrite (Rabs_pos_eq (x * x)) in E by nra. pose proof ulp1_pos. nra. Qed.
Lemma double_Z z : (Z.abs z <= 2 ^ 53)%Z -> double (IZR z). Proof. apply b64_Z. Qed.
Lemma len_Z z : (1 <= z <= 2 ^ 53)%Z -> length_ok (IZR z).
Proof.
  intros H. split; [apply double_Z; lia|]. apply Rle_trans with 1; [|apply IZR_le; lia].
  rewrite <- Rinv_1. apply Rinv_le; [lra|]. apply pow_R1_Rle. lra.
Qed.
Lemma cube_ok z : (1 <= z <= 2 ^ 53)%Z -> block_ok (IZR z) (mkV (IZR z) (IZR z) (IZR z)).
Proof. intros H. pose proof (len_Z z H). repeat split; cbn; try apply H0; lra. Qed.

(** The draw 1 - 2^-53 in a cube of side 14 with the default spacing 1.4: the coordinate
    is below 14, but divided by 1.4 it rounds to 10, the number of voxels. *)
Definition u_last : vec := let x := 9007199254740991 / 9007199254740992 in mkV x x x.
Definition s14 : R := 6305039478318694 / 4503599627370496.
Theorem C148_index_refuted : exists L draws,
  block_ok 14 L /\ length_ok s14 /\ Rabs (s14 - 1.4) <= / 2 ^ 53 /\ Forall draw53 draws /\ Forall unit_draw draws /\
  f_gen_p_substrate (fun x => b64 (x * x)) L s14 (/ 1024) draws = Err IndexError.
Proof.
  exists (mkV 14 14 14), [u_last]. split; [apply (cube_ok 14); lia|].
  assert (D : double s14) by (unfold double, s14; rnd_tac 6305039478318694%Z 52%Z 4503599627370496%Z; reflexivity).
  split; [split; [exact D|]|].
  { apply Rle_trans with 1; [|unfold s14; lra]. rewrite <- Rinv_1. apply Rinv_le; [lra|]. apply pow_R1_Rle. lra. }
  split. { replace (/ 2 ^ 53) with ulp1 by reflexivity. rewrite ulp1_val. unfold s14. apply Rabs_le. lra. }
  split. { constructor; [|constructor]. repeat split; apply (draw_k 9007199254740991); cbn; lia || reflexivity. }
  split. { constructor; [|constructor]. unfold u_last. repeat split; cbn; lra. }
  assert (C : b64 (9007199254740991 / 9007199254740992 * 14) = 7881299347898367 / 562949953421312).
  { rnd_tac 7881299347898367%Z 49%Z 562949953421312%Z. reflexivity. }
  assert (Q : b64 (7881299347898367 / 562949953421312 / s14) = 10).
  { unfold s14. rnd_tac 5629499534213120%Z 49%Z 562949953421312%Z. lra. }
  assert (Q' : b64 (14 / s14) = 10).
  { unfold s14. rnd_tac 5629499534213120%Z 49%Z 562949953421312%Z. lra. }
  assert (N : f_num_atoms (mkV 14 14 14) (/ 1024) = 3%Z).
  { unfold f_num_atoms. cbn. replace (14 * 14) with (IZR 196) by lra. rewrite b64_Z by (cbn; lia). replace (196 * 14) with (IZR 2744) by lra. rewrite b64_Z by (cbn; lia).
    rnd_tac 6034119813234688%Z 51%Z 2251799813685248%Z. apply Znearest_imp. apply Rabs_def1; lra. }
  unfold f_gen_p_substrate. rewrite N. change (check_rows 3) with (Ok 3%nat). cbn [bind f_gen_loop Nat.leb length ps_coords].
  unfold f_step, f_scale_draw, f_num_blocks, f_block_of, u_last. cbn [vx vy vz]. rewrite C, Q, Q'.
  rewrite Zceil_IZR, Zfloor_IZR. reflexivity.
Qed.

(** Two atoms of a cube of side 4 that are closer than the minimum distance 1. *)
Definition pA : vec := mkV (2251799813685247 / 2251799813685248) (63 / 2147483648) 0.
Definition uA : vec := mkV (2251799813685247 / 9007199254740992) (63 / 8589934592) 0.
Lemma uA_draw : draw53 uA.
Proof.
  repeat split; cbn.
  - apply (draw_k 2251799813685247); [lia|lra].
  - apply (draw_k 66060288); [lia|lra].
  - apply draw_0.
Qed.
Lemma run_1 : f_gen_p_substrate (fun x => b64 (x * x)) (mkV 4 4 4) 1 (/ 32) [v0; uA] = Ok [v0; pA].
Proof.
  assert (N : f_num_atoms (mkV 4 4 4) (/ 32) = 2%Z).
  { unfold f_num_atoms. cbn. replace (4 * 4) with (IZR 16) by lra. rewrite b64_Z by (cbn; lia). replace (16 * 4) with (IZR 64) by lra. rewrite b64_Z by (cbn; lia).
    replace (64 * / 32) with (IZR 2) by lra. rewrite b64_Z by (cbn; lia). apply (Zrnd_IZR ZnearestE 2). }
  assert (S0 : f_scale_draw v0 (mkV 4 4 4) = v0).
  { unfold f_scale_draw, v0. cbn. rewrite Rmult_0_l, b64_0. reflexivity. }
  assert (S1 : f_scale_draw uA (mkV 4 4 4) = pA).
  { unfold f_scale_draw, uA, pA. cbn. rewrite Rmult_0_l, b64_0. f_equal.
    - rnd_tac 9007199254740988%Z 53%Z 9007199254740992%Z. lra.
    - rnd_tac 8866461766385664%Z 78%Z 302231454903657293676544%Z. lra. }
  assert (NB : f_num_blocks 1 (mkV 4 4 4) = (4, 4, 4)%Z).
  { unfold f_num_blocks. cbn. replace (4 / 1) with (IZR 4) by lra. rewrite b64_Z by (cbn; lia). rewrite Zceil_IZR. reflexivity. }
  assert (B0 : f_block_of 1 v0 = (0, 0, 0)%Z).
  { unfold f_block_of, v0. cbn. replace (0 / 1) with 0 by lra. rewrite b64_0, Zfloor_IZR. reflexivity. }
  assert (B1 : f_block_of 1 pA = (0, 0, 0)%Z).
  { unfold f_block_of, pA. cbn. replace (0 / 1) with 0 by lra. rewrite b64_0, Zfloor_IZR.
    rnd_tac 9007199254740988%Z 53%Z 9007199254740992%Z. rnd_tac 8866461766385664%Z 78%Z 302231454903657293676544%Z.
    f_equal. f_equal; apply Zfloor_imp; split; cbn; lra. }
  assert (P : f_p_dist (mkV 4 4 4) v0 pA = 1).
  { unfold f_p_dist, fsub, vabs, v0, pA. cbn.
    replace (0 - 0) with 0 by ring. rewrite b64_0, Rabs_R0.
    rewrite !Rminus_0_l, !b64_opp, !Rabs_Ropp.
    rewrite (b64_near (2251799813685247 / 2251799813685248) 9007199254740988 53 9007199254740992); [|lia|reflexivity|lra|left; apply Rabs_def1; lra].
    rewrite (b64_near (63 / 2147483648) 8866461766385664 78 302231454903657293676544); [|lia|reflexivity|lra|left; apply Rabs_def1; lra].
    rewrite (Rabs_pos_eq (_ / 9007199254740992)), (Rabs_pos_eq (_ / 302231454903657293676544)) by lra.
    rewrite (Rmin_left 0 0) by lra.
    rewrite (Rmin_left (_ / 9007199254740992)), (Rmin_left (_ / 302231454903657293676544)).
    - unfold fsumsq. cbn. rewrite Rmult_0_l, b64_0, Rplus_0_r.
      assert (E1 : b64 (9007199254740988 / 9007199254740992 * (9007199254740988 / 9007199254740992)) = 9007199254740984 / 9007199254740992).
      { rnd_tac 9007199254740984%Z 53%Z 9007199254740992%Z. reflexivity. }
      assert (E2 : b64 (8866461766385664 / 302231454903657293676544 * (8866461766385664 / 302231454903657293676544)) = 8727923301285888 / 10141204801825835211973625643008).
      { rnd_tac 8727923301285888%Z 103%Z 10141204801825835211973625643008%Z. reflexivity. }
      rewrite E1, E2. rnd_tac 9007199254740992%Z 53%Z 9007199254740992%Z.
      replace (9007199254740992 / 9007199254740992) with (IZR 1) by lra. apply b64_Z. cbn; lia.
    - apply Rle_trans with (b64 (IZR 3)); [rewrite b64_Z by (cbn; lia); lra|apply b64_le; lra].
    - apply Rle_trans with (b64 (IZR 3)); [rewrite b64_Z by (cbn; lia); lra|apply b64_le; lra]. }
  assert (M : b64 (1 * 1) = 1). { replace (1 * 1) with (IZR 1) by lra. apply b64_Z. cbn; lia. }
  unfold f_gen_p_substrate. rewrite N. change (check_rows 2) with (Ok 2%nat). cbv beta. rewrite M. cbn [bind f_gen_loop Nat.leb length ps_coords].
  unfold f_step at 1. rewrite S0, NB, B0.
  set (tl := voxel_nbrs (4, 4, 4)%Z (0, 0, 0)%Z).
  change (f_lookup (4, 4, 4)%Z (0, 0, 0)%Z) with (Ok tl). cbn [bind].
  assert (T : tl = [(0, 0, 0); (0, 0, 1); (0, 1, 0); (0, 1, 1); (0, 3, 0); (0, 3, 1);
    (1, 0, 0); (1, 0, 1); (1, 1, 0); (1, 1, 1); (1, 3, 0); (1, 3, 1); (3, 0, 0); (3, 0, 1); (3, 1, 0); (3, 1, 1); (3, 3, 0); (3, 3, 1)]%Z) by reflexivity.
  rewrite T. cbn [parts_of flat_map ps_vox app existsb ps_coords length bind].
  unfold f_step at 1. rewrite S1, NB, B1. change (f_lookup (4, 4, 4)%Z (0, 0, 0)%Z) with (Ok tl). rewrite T. cbn [bind].
  assert (Z : parts_of {| ps_coords := [v0]; ps_vox := vox_add (fun _ => []) (0, 0, 0)%Z 0 |} [(0, 0, 0); (0, 0, 1); (0, 1, 0); (0, 1, 1); (0, 3, 0); (0, 3, 1);
    (1, 0, 0); (1, 0, 1); (1, 1, 0); (1, 1, 1); (1, 3, 0); (1, 3, 1); (3, 0, 0); (3, 0, 1); (3, 1, 0); (3, 1, 1); (3, 3, 0); (3, 3, 1)]%Z = [0%nat]) by reflexivity.
  cbn [ps_coords length app]. rewrite Z. cbn [existsb ps_coords nth]. rewrite P.
  destruct (Rltb 1 1) eqn:E; [apply Rltb_iff in E; lra|]. reflexivity.
Qed.
Theorem C148_separation_refuted : exists L draws l,
  block_ok 4 L /\ length_ok 1 /\ Forall draw53 draws /\ Forall unit_draw draws /\
  f_gen_p_substrate (fun x => b64 (x * x)) L 1 (/ 32) draws = Ok l /\ ~ separated 1 l.
Proof.
  exists (mkV 4 4 4), [v0; uA], [v0; pA]. split; [apply (cube_ok 4); lia|]. split; [apply (len_Z 1); lia|].
  split. { constructor; [repeat split; apply draw_0|constructor; [apply uA_draw|constructor]]. }
  split. { constructor; [|constructor; [|constructor]]; repeat split; cbn; lra. }
  split; [apply run_1|]. intros S. specialize (S 0%nat 1%nat v0 pA eq_refl eq_refl ltac:(lia)).
  pose proof (dist_sq v0 pA) as E. unfold v0, pA in *. cbn [vx vy vz] in E. fold v0 in *. nra.
Qed.

(** The run above, and a cube whose sides are not multiples of the spacing. *)
Example C148_nonvacuous :
  (sound_square (fun x => b64 (x * x)) /\ block_ok 4 (mkV 4 4 4) /\ length_ok 1 /\ Forall draw53 [v0; uA] /\
   f_gen_p_substrate (fun x => b64 (x * x)) (mkV 4 4 4) 1 (/ 32) [v0; uA] = Ok [v0; pA]) /\
  (block_ok 8 (mkV 8 8 8) /\ length_ok 3 /\ ~ is_whole (b64 (8 / 3))).
Proof.
  split.
  - split; [apply round_square|]. split; [apply (cube_ok 4); lia|]. split; [apply (len_Z 1); lia|].
    split; [constructor; [repeat split; apply draw_0|constructor; [apply uA_draw|constructor]]|]. apply run_1.
  - split; [apply (cube_ok 8); lia|]. split; [apply (len_Z 3); lia|].
    rnd_tac 6004799503160661%Z 51%Z 2251799813685248%Z. intros [z E].
    assert (2 < z)%Z by (apply lt_IZR; lra). assert (z < 3)%Z by (apply lt_IZR; lra). lia.
Qed.
