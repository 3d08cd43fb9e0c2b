(** C149: batched amorphous blocks in double precision. *)
From Coq Require Import Reals List ZArith Bool Lra Lia Psatz.
From Flocq Require Import Core.
From Verif.Model Require Import Base Vec Voxel Priority Measure Amorphous Float FloatAmorph FloatBatch.
From Verif.Spec Require Import Geometry AmorphSpec FloatSpec FloatAmorphSpec.
From Verif.Proofs Require Import VecFacts PriorityFacts VolumeFacts AmorphFacts BatchFacts AmorphLoop FloatFacts FloatRotFacts FloatAmorphFacts FloatBatchFacts.
From Verif.Props Require Import AmorphousProps FloatAmorphProps.
Import ListNotations.
Open Scope R_scope.

Local Arguments IZR : simpl never.

Lemma size_ge md vsc : double md -> 0 <= md -> 1 <= vsc -> md <= b64 (md * vsc).
Proof. intros D M V. unfold double in D. rewrite <- D at 1. apply b64_le. nra. Qed.

(** When no side divided by the voxel size rounds to a whole number: the batches run out,
    or the number of atoms is the volume times the density up to 1/2 and rounding, every
    atom is in the half-open box, and any two are the minimum distance apart up to 2^-50
    of it and 2^-52 of the longest side. *)
Theorem C149_separated_partial pow2 L D md density vsc bs :
  let vs := b64 (md * vsc) in
  sound_square pow2 -> block_ok D L -> length_ok md -> 1 <= vsc -> 0 <= density -> Forall (Forall draw53) bs ->
  ~ is_whole (b64 (vx L / vs)) -> ~ is_whole (b64 (vy L / vs)) -> ~ is_whole (b64 (vz L / vs)) ->
  f_gen_p_substrate_batched pow2 L md density vsc bs = Err NeedMore \/
  exists l, f_gen_p_substrate_batched pow2 L md density vsc bs = Ok l /\
  Rabs (INR (length l) - volume_of L * density) <= / 2 + / 2 ^ 50 * Rabs (volume_of L * density) + tiny /\
  Forall (in_box L) l /\ separated ((1 - / 2 ^ 50) * md - / 2 ^ 52 * D) l.
Proof.
  intros vs HP HL [HM1 HM] HV HD HU WX WY WZ. unfold f_gen_p_substrate_batched, check_rows. fold vs.
  assert (M0 : 0 <= md) by (pose proof (p_inv 100); lra).
  assert (N : (0 <= f_num_atoms L density)%Z).
  { unfold f_num_atoms. set (x := b64 _). assert (X : 0 <= x).
    { destruct HL as (((_ & X) & _) & ((_ & Y) & _) & ((_ & Z) & _)). pose proof (p_inv 100).
      apply b64_pos, Rmult_le_pos; [apply b64_pos, Rmult_le_pos; [apply b64_pos, Rmult_le_pos|]|]; lra. }
    rewrite <- (Zrnd_IZR ZnearestE 0). apply Zrnd_le; [apply valid_rnd_N|exact X]. }
  destruct (Z.ltb_spec (f_num_atoms L density) 0); [lia|]. cbn [bind].
  destruct (f_batch_loop_inv L D md (pow2 md) vs HL HM (HP md) (size_ge md vsc HM1 M0 HV) WX WY WZ bs (Z.to_nat (f_num_atoms L density)) _ HU (fb_empty L D md _) ltac:(cbn; lia)) as [E|(l & E & A & B & C)]; [left; exact E|right].
  exists l. split; [exact E|]. split; [|split; [exact B|apply FOP_separated; exact C]].
  rewrite INR_IZR_INZ, A. rewrite Z2Nat.id by exact N. unfold f_num_atoms.
  pose proof (count_err L D density HL) as F. set (x := b64 (b64 _ * density)) in *. pose proof (Znearest_half (fun t => negb (Z.even t)) x) as G.
  replace (IZR (ZnearestE x) - volume_of L * density) with (- (x - IZR (ZnearestE x)) + (x - volume_of L * density)) by ring.
  eapply Rle_trans; [apply Rabs_triang|]. rewrite Rabs_Ropp. lra.
Qed.

(* ---------------- runs ---------------- *)
Lemma single_step nbrs tot bl dims md2 n st u c b : f_scale_draw u dims = c -> bl c = b -> (b < tot)%Z ->
  flat_map (bs_vox st) (nbrs b) = [] -> (length (bs_coords st) < n)%nat ->
  f_batch_with nbrs tot bl dims md2 n st [u] =
  Ok (mkBS (bs_coords st ++ [c]) (fun b' => if (b' =? b)%Z then bs_vox st b' ++ [length (bs_coords st)] else bs_vox st b')).
Proof.
  intros HC HB HT HF HN. unfold f_batch_with. cbn [map]. rewrite HC, HB.
  change (np_unique_index [b]) with [0%nat]. cbn [map nth forallb].
  rewrite (proj2 (Z.ltb_lt _ _) HT). cbn [andb negb]. rewrite HF. cbn.
  destruct (n - length (bs_coords st))%nat eqn:E; [lia|]. reflexivity.
Qed.

Lemma vs28 : b64 (s14 * 2) = 6305039478318694 / 2251799813685248.
Proof. unfold s14. rnd_tac 6305039478318694%Z 51%Z 2251799813685248%Z. lra. Qed.
Lemma s14_ok : length_ok s14 /\ Rabs (s14 - 1.4) <= / 2 ^ 53.
Proof.
  split; [split|].
  - unfold double, s14. rnd_tac 6305039478318694%Z 52%Z 4503599627370496%Z. reflexivity.
  - apply Rle_trans with 1; [|unfold s14; lra]. rewrite <- Rinv_1. apply Rinv_le; [lra|]. apply pow_R1_Rle. lra.
  - replace (/ 2 ^ 53) with ulp1 by reflexivity. rewrite ulp1_val. unfold s14. apply Rabs_le. lra.
Qed.
Lemma q28 : b64 (28 / (6305039478318694 / 2251799813685248)) = 10.
Proof. rnd_tac 5629499534213120%Z 49%Z 562949953421312%Z. lra. Qed.
Lemma last28 : b64 (9007199254740991 / 9007199254740992 * 28) = 7881299347898367 / 281474976710656.
Proof. rnd_tac 7881299347898367%Z 48%Z 281474976710656%Z. reflexivity. Qed.
Lemma qlast : b64 (7881299347898367 / 281474976710656 / (6305039478318694 / 2251799813685248)) = 10.
Proof. rnd_tac 5629499534213120%Z 49%Z 562949953421312%Z. lra. Qed.

(** The default spacing 1.4 and voxel scale 2 in a block of 28 x 16 x 16: the draw 1 - 2^-53
    along x gives the x number 10 of ten voxels, which is the next voxel along y.  The
    second atom is compared with the wrong neighbours and accepted 0.07 from the first. *)
Definition box28 : vec := mkV 28 16 16.
Definition uB : vec := mkV (1023 / 1024) (11 / 64) 0.
Definition uC : vec := mkV (9007199254740991 / 9007199254740992) (45 / 256) 0.
Definition pB : vec := mkV (7161 / 256) (11 / 4) 0.
Definition pC : vec := mkV (7881299347898367 / 281474976710656) (45 / 16) 0.
Lemma box28_ok : block_ok 28 box28.
Proof. pose proof (len_Z 28 ltac:(lia)). pose proof (len_Z 16 ltac:(lia)). unfold box28. repeat split; cbn; first [apply H|apply H0|lra]. Qed.
Lemma scale_B : f_scale_draw uB box28 = pB.
Proof.
  unfold f_scale_draw, uB, box28, pB. cbn. rewrite Rmult_0_l, b64_0. f_equal.
  - rnd_tac 7873602766503936%Z 48%Z 281474976710656%Z. lra.
  - rnd_tac 6192449487634432%Z 51%Z 2251799813685248%Z. lra.
Qed.
Lemma scale_C : f_scale_draw uC box28 = pC.
Proof.
  unfold f_scale_draw, uC, box28, pC. cbn. rewrite Rmult_0_l, b64_0. f_equal.
  - apply last28.
  - rnd_tac 6333186975989760%Z 51%Z 2251799813685248%Z. lra.
Qed.
Lemma blocks28 : f_num_blocks (6305039478318694 / 2251799813685248) box28 = (10, 6, 6)%Z.
Proof.
  unfold f_num_blocks, box28. cbn. rewrite q28, Zceil_IZR.
  rnd_tac 6433713753386423%Z 50%Z 1125899906842624%Z. f_equal; [f_equal|]; apply Zceil_imp; split; cbn; lra.
Qed.
Lemma block_B : f_block1d (6305039478318694 / 2251799813685248) box28 pB = 9%Z.
Proof.
  unfold f_block1d. rewrite blocks28. unfold f_block_of, pB. cbn [vx vy vz].
  replace (0 / (6305039478318694 / 2251799813685248)) with 0 by lra. rewrite b64_0, Zfloor_IZR.
  rnd_tac 5624001976074240%Z 49%Z 562949953421312%Z. rnd_tac 8846356410906332%Z 53%Z 9007199254740992%Z.
  rewrite (Zfloor_imp 9), (Zfloor_imp 0); [reflexivity|split; cbn; lra..].
Qed.
Lemma block_C : f_block1d (6305039478318694 / 2251799813685248) box28 pC = 20%Z.
Proof.
  unfold f_block1d. rewrite blocks28. unfold f_block_of, pC. cbn [vx vy vz].
  replace (0 / (6305039478318694 / 2251799813685248)) with 0 by lra. rewrite b64_0, qlast, !Zfloor_IZR.
  rnd_tac 4523704982849829%Z 52%Z 4503599627370496%Z.
  rewrite (Zfloor_imp 1); [reflexivity|split; cbn; lra].
Qed.
Lemma run_28 : f_gen_p_substrate_batched (fun x => b64 (x * x)) box28 s14 (/ 4096) 2 [[uB]; [uC]] = Ok [pB; pC].
Proof.
  assert (N : f_num_atoms box28 (/ 4096) = 2%Z).
  { unfold f_num_atoms, box28. cbn. replace (28 * 16) with (IZR 448) by lra. rewrite b64_Z by (cbn; lia). replace (448 * 16) with (IZR 7168) by lra. rewrite b64_Z by (cbn; lia).
    rnd_tac 7881299347898368%Z 52%Z 4503599627370496%Z. apply Znearest_imp. apply Rabs_def1; lra. }
  unfold f_gen_p_substrate_batched. rewrite N, vs28. change (check_rows 2) with (Ok 2%nat). cbn [bind f_batch_loop Nat.leb length bs_coords].
  rewrite f_batch_step_eq. rewrite blocks28.
  rewrite (single_step _ _ _ _ _ _ _ uB pB 9%Z scale_B block_B); [|reflexivity|cbn [bs_vox]; generalize (grid_nbrs (10, 6, 6)%Z 9); intros l; induction l; auto|cbn; lia].
  cbn [bind f_batch_loop Nat.leb length bs_coords app]. rewrite f_batch_step_eq. rewrite blocks28.
  rewrite (single_step _ _ _ _ _ _ _ uC pC 20%Z scale_C block_C); [reflexivity|reflexivity|vm_compute; reflexivity|cbn; lia].
Qed.
Theorem C149_separation_refuted : exists L draws p q,
  block_ok 28 L /\ length_ok s14 /\ Rabs (s14 - 1.4) <= / 2 ^ 53 /\ Forall (Forall draw53) draws /\ Forall (Forall unit_draw) draws /\
  f_gen_p_substrate_batched (fun x => b64 (x * x)) L s14 (/ 4096) 2 draws = Ok [p; q] /\ dist p q < / 10.
Proof.
  exists box28, [[uB]; [uC]], pB, pC. split; [apply box28_ok|]. split; [apply s14_ok|]. split; [apply s14_ok|].
  assert (A : draw53 uB) by (repeat split; cbn; [apply (draw_k 8998403161718784)|apply (draw_k 1548112371908608)|apply draw_0]; try lia; lra).
  assert (B : draw53 uC) by (repeat split; cbn; [apply (draw_k 9007199254740991)|apply (draw_k 1583296743997440)|apply draw_0]; try lia; lra).
  split; [constructor; [constructor; [exact A|constructor]|constructor; [constructor; [exact B|constructor]|constructor]]|].
  split; [constructor; [constructor; [|constructor]|constructor; [constructor; [|constructor]|constructor]]; repeat split; cbn; lra|]. split; [apply run_28|].
  apply Rnot_le_lt. intros G. pose proof (dist_sq pB pC) as E. unfold pB, pC in *. cbn [vx vy vz] in E. nra.
Qed.
(** The same draw along all three axes of a cube of side 28: voxel 1110 of 1000. *)
Theorem C149_index_refuted : exists L draws,
  block_ok 28 L /\ length_ok s14 /\ Rabs (s14 - 1.4) <= / 2 ^ 53 /\ Forall (Forall draw53) draws /\ Forall (Forall unit_draw) draws /\
  f_gen_p_substrate_batched (fun x => b64 (x * x)) L s14 (/ 8192) 2 draws = Err IndexError.
Proof.
  exists (mkV 28 28 28), [[u_last]]. split; [apply (cube_ok 28); lia|]. split; [apply s14_ok|]. split; [apply s14_ok|].
  split. { constructor; [constructor; [|constructor]|constructor]. repeat split; apply (draw_k 9007199254740991); cbn; lia || reflexivity. }
  split. { constructor; [constructor; [|constructor]|constructor]. unfold u_last. repeat split; cbn; lra. }
  assert (N : f_num_atoms (mkV 28 28 28) (/ 8192) = 3%Z).
  { unfold f_num_atoms. cbn. replace (28 * 28) with (IZR 784) by lra. rewrite b64_Z by (cbn; lia). replace (784 * 28) with (IZR 21952) by lra. rewrite b64_Z by (cbn; lia).
    rnd_tac 6034119813234688%Z 51%Z 2251799813685248%Z. apply Znearest_imp. apply Rabs_def1; lra. }
  unfold f_gen_p_substrate_batched. rewrite N, vs28. change (check_rows 3) with (Ok 3%nat). cbn [bind f_batch_loop Nat.leb length bs_coords].
  assert (NB : f_num_blocks (6305039478318694 / 2251799813685248) (mkV 28 28 28) = (10, 10, 10)%Z).
  { unfold f_num_blocks. cbn. rewrite q28, Zceil_IZR. reflexivity. }
  assert (S : f_scale_draw u_last (mkV 28 28 28) = (let x := 7881299347898367 / 281474976710656 in mkV x x x)).
  { unfold f_scale_draw, u_last. cbn. rewrite last28. reflexivity. }
  assert (B : f_block1d (6305039478318694 / 2251799813685248) (mkV 28 28 28) (let x := 7881299347898367 / 281474976710656 in mkV x x x) = 1110%Z).
  { unfold f_block1d. rewrite NB. unfold f_block_of. cbn [vx vy vz]. rewrite qlast, Zfloor_IZR. reflexivity. }
  rewrite f_batch_step_eq, NB. unfold f_batch_with. cbn [map]. rewrite S, B. reflexivity.
Qed.

(** Two atoms in a cube of side 13 with spacing 3, which does not divide it. *)
Definition uH : vec := mkV (1 / 2) 0 0.
Definition pH : vec := mkV (13 / 2) 0 0.
Lemma run_13 : f_gen_p_substrate_batched (fun x => b64 (x * x)) (mkV 13 13 13) 3 (/ 1024) 1 [[v0]; [uH]] = Ok [v0; pH].
Proof.
  assert (N : f_num_atoms (mkV 13 13 13) (/ 1024) = 2%Z).
  { unfold f_num_atoms. cbn. replace (13 * 13) with (IZR 169) by lra. rewrite b64_Z by (cbn; lia). replace (169 * 13) with (IZR 2197) by lra. rewrite b64_Z by (cbn; lia).
    rnd_tac 4831254092447744%Z 51%Z 2251799813685248%Z. apply Znearest_imp. apply Rabs_def1; lra. }
  assert (V : b64 (3 * 1) = 3) by (replace (3 * 1) with (IZR 3) by lra; apply b64_Z; cbn; lia).
  assert (NB : f_num_blocks 3 (mkV 13 13 13) = (5, 5, 5)%Z).
  { unfold f_num_blocks. cbn. rnd_tac 4878899596318037%Z 50%Z 1125899906842624%Z. rewrite (Zceil_imp 5); [reflexivity|split; cbn; lra]. }
  assert (S0 : f_scale_draw v0 (mkV 13 13 13) = v0).
  { unfold f_scale_draw, v0. cbn. rewrite Rmult_0_l, b64_0. reflexivity. }
  assert (S1 : f_scale_draw uH (mkV 13 13 13) = pH).
  { unfold f_scale_draw, uH, pH. cbn. rewrite Rmult_0_l, b64_0. rnd_tac 7318349394477056%Z 50%Z 1125899906842624%Z. f_equal. lra. }
  assert (B0 : f_block1d 3 (mkV 13 13 13) v0 = 0%Z).
  { unfold f_block1d. rewrite NB. unfold f_block_of, v0. cbn [vx vy vz]. replace (0 / 3) with 0 by lra. rewrite b64_0, Zfloor_IZR. reflexivity. }
  assert (B1 : f_block1d 3 (mkV 13 13 13) pH = 2%Z).
  { unfold f_block1d. rewrite NB. unfold f_block_of, pH. cbn [vx vy vz]. replace (0 / 3) with 0 by lra. rewrite b64_0, Zfloor_IZR. rnd_tac 4878899596318037%Z 51%Z 2251799813685248%Z. rewrite (Zfloor_imp 2); [reflexivity|split; cbn; lra]. }
  unfold f_gen_p_substrate_batched. rewrite N, V. change (check_rows 2) with (Ok 2%nat). cbn [bind f_batch_loop Nat.leb length bs_coords].
  rewrite f_batch_step_eq, NB.
  rewrite (single_step _ _ _ _ _ _ _ v0 v0 0%Z S0 B0); [|reflexivity|cbn [bs_vox]; generalize (grid_nbrs (5, 5, 5)%Z 0); intros l; induction l; auto|cbn; lia].
  cbn [bind f_batch_loop Nat.leb length bs_coords app]. rewrite f_batch_step_eq, NB.
  rewrite (single_step _ _ _ _ _ _ _ uH pH 2%Z S1 B1); [reflexivity|reflexivity|vm_compute; reflexivity|cbn; lia].
Qed.
Example C149_nonvacuous :
  sound_square (fun x => b64 (x * x)) /\ block_ok 13 (mkV 13 13 13) /\ length_ok 3 /\ Forall (Forall draw53) [[v0]; [uH]] /\
  ~ is_whole (b64 (13 / b64 (3 * 1))) /\
  f_gen_p_substrate_batched (fun x => b64 (x * x)) (mkV 13 13 13) 3 (/ 1024) 1 [[v0]; [uH]] = Ok [v0; pH].
Proof.
  split; [apply round_square|]. split; [apply (cube_ok 13); lia|]. split; [apply (len_Z 3); lia|].
  split. { constructor; [constructor; [|constructor]|constructor; [constructor; [|constructor]|constructor]]; repeat split; cbn; try apply draw_0. apply (draw_k 4503599627370496); [lia|lra]. }
  split; [|apply run_13]. replace (3 * 1) with (IZR 3) by lra. rewrite b64_Z by (cbn; lia).
  rnd_tac 4878899596318037%Z 50%Z 1125899906842624%Z. intros [z E].
  assert (4 < z)%Z by (apply lt_IZR; lra). assert (z < 5)%Z by (apply lt_IZR; lra). lia.
Qed.
