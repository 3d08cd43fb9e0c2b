(** Amorphous blocks, periodic distances and voxel grids: C42, C44-C48, C52, C77. *)
From Coq Require Import Reals List ZArith Bool Lra Lia.
From Flocq Require Import Core.Raux Core.Generic_fmt Core.Round_NE.
From Verif.Model Require Import Base Vec Voxel Priority Measure Amorphous Generator.
From Verif.Spec Require Import Geometry AmorphSpec.
From Verif.Proofs Require Import VecFacts PriorityFacts VolumeFacts AmorphFacts GridFacts BatchFacts AmorphLoop.
Import ListNotations.
Open Scope R_scope.

Local Arguments IZR : simpl never.
Local Arguments Z.mul : simpl nomatch.
Definition nonneg (L : vec) : Prop := 0 <= vx L /\ 0 <= vy L /\ 0 <= vz L.
Definition volume_of (L : vec) : R := vx L * vy L * vz L.

(* ---------------- C44 ---------------- *)
Lemma pdist_far md L p q : 0 < md -> in_box L p -> in_box L q -> md * md <= p_dist L p q -> md <= dist p q.
Proof. intros Hm Hp Hq H. apply le_dist; [lra|]. pose proof (p_dist_le L p q Hp Hq). lra. Qed.
Lemma check_rows_ok n m : check_rows n = Ok m -> Z.of_nat m = n.
Proof. unfold check_rows. destruct (Z.ltb_spec n 0); intros H'; inversion H'. lia. Qed.
Lemma empty_pinv dims md Q : pinv dims md Q (mkPS [] (fun _ => [])).
Proof. split; [constructor|split; [constructor|]]. intros [|i] p H; discriminate. Qed.

Lemma gen_result (Q : vec -> vec -> Prop) dims md density draws l : 0 < md -> nonneg dims -> Forall unit_draw draws ->
  (forall p q, pos_box dims -> in_box dims p -> in_box dims q -> md * md <= p_dist dims p q -> Q p q) ->
  (forall p q, pos_box dims -> in_box dims p -> in_box dims q ->
     ~ In (block_of md p) (voxel_nbrs (num_blocks md dims) (block_of md q)) -> Q p q) ->
  gen_p_substrate dims md density draws = Ok l ->
  Z.of_nat (length l) = num_atoms dims density /\ Forall (in_box dims) l /\ ForallOrdPairs Q l.
Proof.
  intros Hm (X & Y & Z) HU near far H. unfold gen_p_substrate in H. inv_bind H. apply check_rows_ok in Ha.
  destruct a as [|n].
  - destruct draws; cbn in H; inversion H; subst; (split; [exact Ha|]); split; constructor.
  - assert (B : pos_box dims) by (apply num_pos with density; auto; lia).
    destruct (gen_loop_inv dims md Q B (fun p q => near p q B) (fun p q => far p q B) draws (S n) _ l HU (empty_pinv dims md Q) ltac:(cbn; lia) H) as (A1 & A2 & A3).
    rewrite A1. auto.
Qed.

(** Number of atoms, containment and the minimum Euclidean separation. *)
Theorem C44_amorphous_separated dims md density draws l :
  0 < md -> nonneg dims -> Forall unit_draw draws ->
  gen_p_substrate dims md density draws = Ok l ->
  Z.of_nat (length l) = ZnearestE (volume_of dims * density) /\ Forall (in_box dims) l /\ separated md l.
Proof.
  intros Hm HD HU H. destruct (gen_result (fun p q => md <= dist p q) dims md density draws l) as (A & B & C); auto.
  - intros p q _ Hp Hq. apply pdist_far; auto.
  - intros p q _ Hp Hq HN. pose proof (axis_le_dist p q) as (E1 & E2 & E3).
    destruct (not_nbr_far md dims p q Hm Hp Hq HN) as [E|[E|E]]; lra.
  - split; [exact A|]. split; auto. apply FOP_separated; auto.
Qed.

(** A run of two draws that land in voxels 0 and 2 of 4. *)
Lemma num_blocks_411 L : 3 < L <= 4 -> num_blocks 1 (mkV L 1 1) = (4, 1, 1)%Z.
Proof.
  intros H. unfold num_blocks, vceil. cbn. repeat f_equal; apply Zceil_imp; cbn; lra.
Qed.
Lemma block_0 : block_of 1 (mkV 0 0 0) = (0, 0, 0)%Z.
Proof. unfold block_of, vfloor. cbn. repeat f_equal; apply Zfloor_imp; cbn; lra. Qed.
Lemma block_2 x : 2 <= x < 3 -> block_of 1 (mkV x 0 0) = (2, 0, 0)%Z.
Proof. intros H. unfold block_of, vfloor. cbn. repeat f_equal; apply Zfloor_imp; cbn; lra. Qed.
Lemma step_first dims md u : step dims md (mkPS [] (fun _ => [])) u =
  mkPS [vmul u dims] (vox_add (fun _ => []) (block_of md (vmul u dims)) 0).
Proof.
  unfold step, rejected. replace (parts_of _ _) with (@nil nat); [reflexivity|].
  unfold parts_of. cbn [ps_vox]. generalize (voxel_nbrs (num_blocks md dims) (block_of md (vmul u dims))). induction l; auto.
Qed.
Lemma run_two L u density : 3 < L <= 4 -> 2 <= u * L < 3 -> L * density = 2 ->
  gen_p_substrate (mkV L 1 1) 1 density [mkV 0 0 0; mkV u 0 0] = Ok [mkV 0 0 0; mkV (u * L) 0 0].
Proof.
  intros HL HU HD. unfold gen_p_substrate, num_atoms. cbn [vx vy vz].
  rewrite (Znearest_imp _ _ 2) by (replace (L * 1 * 1 * density - 2) with 0 by (rewrite <- HD; ring); rewrite Rabs_R0; lra).
  cbn [check_rows Z.ltb Z.compare bind]. change (Z.to_nat 2) with 2%nat. cbn [gen_loop Nat.leb length ps_coords].
  rewrite step_first. replace (vmul (mkV 0 0 0) (mkV L 1 1)) with (mkV 0 0 0) by (apply vec_eq; vunfold; cbn; lra).
  rewrite block_0. cbn [gen_loop Nat.leb length ps_coords app]. unfold step.
  replace (vmul (mkV u 0 0) (mkV L 1 1)) with (mkV (u * L) 0 0) by (apply vec_eq; vunfold; cbn; lra).
  unfold rejected. rewrite block_2, num_blocks_411 by auto.
  change (parts_of _ _) with (@nil nat). cbn. reflexivity.
Qed.
Example C44_nonvacuous : exists l, 0 < 1 /\ nonneg (mkV 4 1 1) /\ Forall unit_draw [mkV 0 0 0; mkV (1/2) 0 0] /\
  gen_p_substrate (mkV 4 1 1) 1 (1/2) [mkV 0 0 0; mkV (1/2) 0 0] = Ok l /\ length l = 2%nat.
Proof.
  eexists. split; [lra|]. split; [split; cbn; lra|]. split; [|split; [apply run_two; lra|reflexivity]].
  constructor; [|constructor; [|constructor]]; unfold unit_draw, in_box; cbn; lra.
Qed.

(* ---------------- C45 ---------------- *)
Lemma image_flip L p q a b : dist (image L p a b 0) q = dist (image L q (- a) (- b) 0) p.
Proof.
  unfold dist. rewrite <- norm_opp. f_equal. unfold image. apply vec_eq; vunfold; cbn; rewrite ?opp_IZR; ring.
Qed.
Lemma pdist_images m L p q a b : 0 <= m -> in_box L p -> in_box L q -> m * m <= p_dist L p q ->
  m <= dist (image L p a b 0) q.
Proof.
  intros Hm Hp Hq H. apply le_dist; auto. rewrite p_dist_sdist in H.
  destruct (sdist3_min_image true true false L p q Hp Hq) as [A _]. specialize (A a b 0%Z).
  assert (allowed true true false a b 0) by (repeat split; congruence). apply A in H0. lra.
Qed.
Lemma FOP_separated_xy m L l : ForallOrdPairs (fun p q => forall a b, m <= dist (image L p a b 0) q) l -> separated_xy m L l.
Proof.
  intros H i j p q a b Hi Hj N. destruct (Nat.lt_trichotomy i j) as [T|[T|T]]; [|contradiction|].
  - apply (FOP_nth _ _ H _ _ _ _ Hi Hj T).
  - rewrite image_flip. apply (FOP_nth _ _ H _ _ _ _ Hj Hi T).
Qed.
(** cells of width s, the last one at least m wide *)
Lemma ring_gap s m L a b : 0 < s -> m <= s -> 0 <= a < L -> 0 <= b < L -> IZR (Zceil (/ s * L) - 1) * s + m <= L ->
  ~ axis_step true (Zceil (/ s * L)) (Zfloor (/ s * b)) (Zfloor (/ s * a)) ->
  m <= Rmin (Rabs (a - b)) (L - Rabs (a - b)).
Proof.
  intros Hs Hm Ha Hb HL H.
  pose proof (block_range s a L Hs Ha) as Ra. pose proof (block_range s b L Hs Hb) as Rb.
  pose proof (floor_scaled s a Hs) as Bi. pose proof (floor_scaled s b Hs) as Bj.
  set (n := Zceil (/ s * L)) in *. set (i := Zfloor (/ s * a)) in *. set (j := Zfloor (/ s * b)) in *.
  assert (D : (2 <= Z.abs (i - j))%Z).
  { destruct (Z_le_dec 2 (Z.abs (i - j))); auto. exfalso. apply H, axis_step_near; auto; lia. }
  assert (W : ~ (i = 0 /\ j = n - 1)%Z /\ ~ (j = 0 /\ i = n - 1)%Z).
  { split; intros [E1 E2]; apply H.
    - exists 1%Z. split; [lia|]. rewrite E1, E2. replace (n - 1 + 1)%Z with n by lia. symmetry. apply Z_mod_same_full.
    - exists (-1)%Z. split; [lia|]. rewrite E1, E2. rewrite <- (Z_mod_plus_full (0 + -1) 1 n). symmetry. rewrite Z.mod_small; lia. }
  assert (s < Rabs (a - b)) by (apply block_far_abs; auto; fold i j; lia).
  assert (G : forall k x y k', (0 <= k' < n)%Z -> (k' + 2 <= k < n)%Z -> ~ (k' = 0 /\ k = n - 1)%Z -> IZR k * s <= x < IZR k * s + s -> x < L -> 0 <= y -> IZR k' * s <= y -> x - y <= L - m).
  { intros k x y k' K' K NW Bx Lx Y0 By. rewrite minus_IZR in HL. destruct (Z.eq_dec k (n - 1)) as [E|E].
    - assert (K1 : (1 <= k')%Z) by lia. apply IZR_le in K1. nra.
    - assert (K1 : (k + 1 <= n - 1)%Z) by lia. apply IZR_le in K1. rewrite plus_IZR, minus_IZR in K1. nra. }
  assert (Rabs (a - b) <= L - m).
  { unfold Rabs. destruct (Rcase_abs (a - b)) as [C|C].
    - replace (- (a - b)) with (b - a) by ring. apply (G j b a i); try lia; try lra.
      assert (~ (j < i)%Z); [|lia]. intros Q. assert (Q' : (j + 1 <= i)%Z) by lia. apply IZR_le in Q'. rewrite plus_IZR in Q'. nra.
    - apply (G i a b j); try lia; try lra.
      assert (~ (i < j)%Z); [|lia]. intros Q. assert (Q' : (i + 1 <= j)%Z) by lia. apply IZR_le in Q'. rewrite plus_IZR in Q'. nra. }
  unfold Rmin. destruct (Rle_dec _ _); lra.
Qed.
Lemma in_three_axis n b b' : (0 <= b < n)%Z -> In b' [b; ((b + 1) mod n)%Z; ((b - 1) mod n)%Z] <-> axis_step true n b b'.
Proof.
  intros Hb. split.
  - intros [E|[E|[E|[]]]]; [exists 0%Z; rewrite Z.add_0_r, Z.mod_small by auto|exists 1%Z|exists (-1)%Z]; split; auto; lia.
  - intros (s & S & ->). assert (C : (s = 0 \/ s = 1 \/ s = -1)%Z) by lia. destruct C as [->|[->| ->]]; cbn; auto.
    left. rewrite Z.add_0_r, Z.mod_small; auto.
Qed.
Lemma pdist_axis m L p q : 0 <= m ->
  (m <= Rmin (Rabs (vx p - vx q)) (vx L - Rabs (vx p - vx q)) \/
   m <= Rmin (Rabs (vy p - vy q)) (vy L - Rabs (vy p - vy q)) \/ m <= Rabs (vz p - vz q)) -> m * m <= p_dist L p q.
Proof.
  intros Hm H. unfold p_dist, vabs, vsub. cbn. rewrite (Rmin_left (Rabs (vz p - vz q))) by lra.
  revert H. generalize (Rmin (Rabs (vx p - vx q)) (vx L - Rabs (vx p - vx q))) (Rmin (Rabs (vy p - vy q)) (vy L - Rabs (vy p - vy q))) (Rabs (vz p - vz q)).
  intros a b c H. destruct H as [H|[H|H]]; nra.
Qed.

(** Full statement refuted: block 3.5 x 1 x 1, min_dist 1, two atoms 0.6 apart across
    the x boundary. *)
Theorem C45_periodic_separation_refuted : exists dims md density draws l,
  0 < md /\ nonneg dims /\ Forall unit_draw draws /\ gen_p_substrate dims md density draws = Ok l /\
  ~ separated_xy md dims l.
Proof.
  exists (mkV (7/2) 1 1), 1, (4/7), [mkV 0 0 0; mkV (29/35) 0 0], [mkV 0 0 0; mkV (29/35 * (7/2)) 0 0].
  split; [lra|]. split; [split; cbn; lra|]. split.
  { constructor; [|constructor; [|constructor]]; unfold unit_draw, in_box; cbn; lra. }
  split; [apply run_two; lra|]. intros H.
  specialize (H 0%nat 1%nat _ _ 1%Z 0%Z eq_refl eq_refl ltac:(lia)).
  pose proof (dist_sq (image (mkV (7/2) 1 1) (mkV 0 0 0) 1 0 0) (mkV (29/35 * (7/2)) 0 0)) as D. cbn in D.
  replace (1 * 1) with 1 in D by ring. nra.
Qed.
(** True when the x and y sizes are whole multiples of min_dist. *)
Theorem C45_periodic_separation_partial dims md density draws l nx ny :
  0 < md -> nonneg dims -> vx dims = IZR nx * md -> vy dims = IZR ny * md ->
  Forall unit_draw draws -> gen_p_substrate dims md density draws = Ok l -> separated_xy md dims l.
Proof.
  intros Hm HD HX HY HU H.
  destruct (gen_result (fun p q => forall a b, md <= dist (image dims p a b 0) q) dims md density draws l) as (A & B & C); auto.
  - intros p q _ Hp Hq HN a b. apply pdist_images; auto; lra.
  - intros p q _ Hp Hq HN a b. apply pdist_images; auto; [lra|]. apply pdist_axis; [lra|].
    destruct Hp as (X & Y & Z), Hq as (X' & Y' & Z'). unfold block_of, num_blocks, vfloor, vceil in HN. cbn [vx vy vz vscale] in HN.
    rewrite in_voxel_nbrs in HN.
    destruct (in_dec Z.eq_dec (Zfloor (/ md * vx p)) [Zfloor (/ md * vx q); ((Zfloor (/ md * vx q) + 1) mod Zceil (/ md * vx dims))%Z; ((Zfloor (/ md * vx q) - 1) mod Zceil (/ md * vx dims))%Z]) as [E1|E1].
    2:{ left. apply Rlt_le. eapply ring_far; eauto. }
    destruct (in_dec Z.eq_dec (Zfloor (/ md * vy p)) [Zfloor (/ md * vy q); ((Zfloor (/ md * vy q) + 1) mod Zceil (/ md * vy dims))%Z; ((Zfloor (/ md * vy q) - 1) mod Zceil (/ md * vy dims))%Z]) as [E2|E2].
    2:{ right. left. apply Rlt_le. eapply ring_far; eauto. }
    right. right. apply Rlt_le, block_far_abs; auto. destruct (Z_le_dec 2 (Z.abs (Zfloor (/ md * vz p) - Zfloor (/ md * vz q)))); auto.
    exfalso. apply HN. split; [exact E1|]. split; [exact E2|]. apply nbr_axis_z; try (apply block_range; auto). lia.
  - apply FOP_separated_xy; auto.
Qed.
Example C45_nonvacuous : exists l, vx (mkV 4 1 1) = IZR 4 * 1 /\ vy (mkV 4 1 1) = IZR 1 * 1 /\
  Forall unit_draw [mkV 0 0 0; mkV (1/2) 0 0] /\
  gen_p_substrate (mkV 4 1 1) 1 (1/2) [mkV 0 0 0; mkV (1/2) 0 0] = Ok l /\ length l = 2%nat.
Proof.
  eexists. split; [cbn; lra|]. split; [cbn; lra|]. split; [|split; [apply run_two; lra|reflexivity]].
  constructor; [|constructor; [|constructor]]; unfold unit_draw, in_box; cbn; lra.
Qed.

(* ---------------- C46 ---------------- *)
Lemma empty_binv dims Q bl : binv dims Q bl (mkBS [] (fun _ => [])).
Proof. split; [constructor|split; [constructor|]]. intros [|i] p H; discriminate. Qed.
Lemma batch_result (Q : vec -> vec -> Prop) dims md density vsc bs l : 0 < md -> nonneg dims -> Forall (Forall unit_draw) bs ->
  (forall p q, pos_box dims -> in_box dims p -> in_box dims q -> md * md < p_dist dims p q -> Q p q) ->
  (forall p q, pos_box dims -> in_box dims p -> in_box dims q ->
     ~ In (block1d (md * vsc) dims p) (grid_nbrs (num_blocks (md * vsc) dims) (block1d (md * vsc) dims q)) -> Q p q) ->
  gen_p_substrate_batched dims md density vsc bs = Ok l ->
  Z.of_nat (length l) = num_atoms dims density /\ Forall (in_box dims) l /\ ForallOrdPairs Q l.
Proof.
  intros Hm (X & Y & Z) HU near far H. unfold gen_p_substrate_batched in H. inv_bind H. apply check_rows_ok in Ha.
  destruct a as [|n].
  - destruct bs; cbn in H; inversion H; subst; (split; [exact Ha|]); split; constructor.
  - assert (B : pos_box dims) by (apply num_pos with density; auto; lia).
    destruct (batch_loop_inv dims md (md * vsc) Q B (fun p q => near p q B) (fun p q => far p q B) bs (S n) _ l HU (empty_binv dims Q _) ltac:(cbn; lia) H) as (A1 & A2 & A3).
    rewrite A1. auto.
Qed.
Lemma block1d_cell s L c : block1d s L c =
  cell_index (Zceil (/ s * vx L)) (Zceil (/ s * vy L)) (Zfloor (/ s * vx c)) (Zfloor (/ s * vy c)) (Zfloor (/ s * vz c)).
Proof. unfold block1d, num_blocks, block_of, vceil, vfloor, cell_index. cbn. ring. Qed.
Lemma not_grid_nbr s L p q : 0 < s -> in_box L p -> in_box L q ->
  ~ In (block1d s L p) (grid_nbrs (num_blocks s L) (block1d s L q)) ->
  ~ axis_step true (Zceil (/ s * vx L)) (Zfloor (/ s * vx q)) (Zfloor (/ s * vx p)) \/
  ~ axis_step true (Zceil (/ s * vy L)) (Zfloor (/ s * vy q)) (Zfloor (/ s * vy p)) \/
  (2 <= Z.abs (Zfloor (/ s * vz p) - Zfloor (/ s * vz q)))%Z.
Proof.
  intros Hs (X & Y & Z) (X' & Y' & Z') H. rewrite !block1d_cell in H. unfold grid_nbrs, num_blocks, vceil in H. cbn [fst snd vx vy vz vscale] in H.
  set (n0 := Zceil (/ s * vx L)) in *. set (n1 := Zceil (/ s * vy L)) in *. set (n2 := Zceil (/ s * vz L)) in *.
  assert (G : in_grid n0 n1 n2 (Zfloor (/ s * vx q)) (Zfloor (/ s * vy q)) (Zfloor (/ s * vz q))) by (split; [|split]; apply block_range; auto).
  assert (D : forall n x x', (0 <= x < n)%Z -> axis_step true n x x' \/ ~ axis_step true n x x').
  { intros n x x' R. rewrite <- in_three_axis by auto. destruct (in_dec Z.eq_dec x' [x; ((x + 1) mod n)%Z; ((x - 1) mod n)%Z]); auto. }
  destruct (D n0 (Zfloor (/ s * vx q)) (Zfloor (/ s * vx p))) as [E1|E1]; [apply G| |auto].
  destruct (D n1 (Zfloor (/ s * vy q)) (Zfloor (/ s * vy p))) as [E2|E2]; [apply G| |auto].
  right. right. destruct (Z_le_dec 2 (Z.abs (Zfloor (/ s * vz p) - Zfloor (/ s * vz q)))); auto. exfalso. apply H.
  apply neighbors_spec; auto. do 3 eexists. split; [exact E1|]. split; [exact E2|]. split; [|reflexivity].
  apply axis_step_near; try (apply block_range; auto). lia.
Qed.
Theorem C46_batched_separated dims md density vsc bs l :
  0 < md -> nonneg dims -> 1 <= vsc -> Forall (Forall unit_draw) bs ->
  gen_p_substrate_batched dims md density vsc bs = Ok l ->
  Z.of_nat (length l) = ZnearestE (volume_of dims * density) /\ Forall (in_box dims) l /\ separated md l.
Proof.
  intros Hm HD HV HU H. assert (Hs : 0 < md * vsc) by nra. assert (Hms : md <= md * vsc) by nra.
  destruct (batch_result (fun p q => md <= dist p q) dims md density vsc bs l) as (A & B & C); auto.
  - intros p q _ Hp Hq HL. apply (pdist_far md dims); auto. lra.
  - intros p q _ Hp Hq HN. pose proof (axis_le_dist p q) as (E1 & E2 & E3).
    assert (F : forall n a b, 0 < md * vsc -> (0 <= Zfloor (/ (md * vsc) * a) < n)%Z -> (0 <= Zfloor (/ (md * vsc) * b) < n)%Z ->
      ~ axis_step true n (Zfloor (/ (md * vsc) * b)) (Zfloor (/ (md * vsc) * a)) -> md * vsc < Rabs (a - b)).
    { intros n a b _ Ra Rb N. apply block_far_abs; auto. destruct (Z_le_dec 2 (Z.abs (Zfloor (/ (md * vsc) * a) - Zfloor (/ (md * vsc) * b)))); auto.
      exfalso. apply N, axis_step_near; auto. lia. }
    apply not_grid_nbr in HN; auto. destruct Hp as (X & Y & Z), Hq as (X' & Y' & Z').
    destruct HN as [HN|[HN|HN]].
    + apply F in HN; [lra|auto|apply block_range; auto..].
    + apply F in HN; [lra|auto|apply block_range; auto..].
    + apply block_far_abs in HN; auto. lra.
  - split; [exact A|]. split; auto. apply FOP_separated; auto.
Qed.

(** A run whose single batch holds two candidates, in cells 0 and 2 of 4. *)
Lemma run_batch L u density : 6 < L <= 8 -> 4 <= u * L < 6 -> L * density = 2 ->
  gen_p_substrate_batched (mkV L 1 1) 1 density 2 [[mkV 0 0 0; mkV u 0 0]] = Ok [mkV 0 0 0; mkV (u * L) 0 0].
Proof.
  intros HL HU HD. unfold gen_p_substrate_batched, num_atoms. cbn [vx vy vz].
  rewrite (Znearest_imp _ _ 2) by (replace (L * 1 * 1 * density - 2) with 0 by (rewrite <- HD; ring); rewrite Rabs_R0; lra).
  cbn [check_rows Z.ltb Z.compare bind]. change (Z.to_nat 2) with 2%nat. rewrite Rmult_1_l.
  cbn [batch_loop Nat.leb length bs_coords]. rewrite batch_step_eq.
  assert (NB : num_blocks 2 (mkV L 1 1) = (4, 1, 1)%Z) by (unfold num_blocks, vceil; cbn; repeat f_equal; apply Zceil_imp; cbn; lra).
  assert (B0 : block1d 2 (mkV L 1 1) (mkV 0 0 0) = 0%Z).
  { unfold block1d. rewrite NB. replace (block_of 2 (mkV 0 0 0)) with (0, 0, 0)%Z; [reflexivity|]. unfold block_of, vfloor. cbn. symmetry. repeat f_equal; apply Zfloor_imp; cbn; lra. }
  assert (B2 : block1d 2 (mkV L 1 1) (mkV (u * L) 0 0) = 2%Z).
  { unfold block1d. rewrite NB. replace (block_of 2 (mkV (u * L) 0 0)) with (2, 0, 0)%Z; [reflexivity|]. unfold block_of, vfloor. cbn. symmetry. repeat f_equal; apply Zfloor_imp; cbn; lra. }
  rewrite NB. generalize dependent (block1d 2 (mkV L 1 1)). intros bl B0 B2.
  unfold batch_step_with. cbn [map].
  replace (vmul (mkV 0 0 0) (mkV L 1 1)) with (mkV 0 0 0) by (apply vec_eq; vunfold; cbn; lra).
  replace (vmul (mkV u 0 0) (mkV L 1 1)) with (mkV (u * L) 0 0) by (apply vec_eq; vunfold; cbn; lra).
  rewrite B0, B2. change (np_unique_index [0; 2]%Z) with [0; 1]%nat. cbn [map nth bs_coords bs_vox length].
  assert (E : forall b, flat_map (fun _ : Z => @nil nat) (grid_nbrs (4, 1, 1)%Z b) = []) by (intros b; induction (grid_nbrs (4, 1, 1)%Z b); auto).
  rewrite !E. cbn [map fold_left length Nat.max Nat.sub repeat app combine fst snd far_from_all forallb].
  replace (prune (grid_nbrs (4, 1, 1)%Z) [0; 2]%Z [true; true]) with [true; true] by (vm_compute; reflexivity).
  cbn [Nat.sub trim compress app bs_coords length Nat.leb].
  destruct bl; reflexivity.
Qed.
Example C46_nonvacuous : exists l, 0 < 1 /\ nonneg (mkV 8 1 1) /\ 1 <= 2 /\ Forall (Forall unit_draw) [[mkV 0 0 0; mkV (1/2) 0 0]] /\
  gen_p_substrate_batched (mkV 8 1 1) 1 (1/4) 2 [[mkV 0 0 0; mkV (1/2) 0 0]] = Ok l /\ length l = 2%nat.
Proof.
  eexists. split; [lra|]. split; [split; cbn; lra|]. split; [lra|]. split; [|split; [apply run_batch; lra|reflexivity]].
  constructor; [|constructor]. constructor; [|constructor; [|constructor]]; unfold unit_draw, in_box; cbn; lra.
Qed.

(* ---------------- C77 ---------------- *)
Theorem C77_batched_periodic_refuted : exists dims md density vsc bs l,
  0 < md /\ nonneg dims /\ 1 <= vsc /\ Forall (Forall unit_draw) bs /\
  gen_p_substrate_batched dims md density vsc bs = Ok l /\ ~ separated_xy md dims l.
Proof.
  exists (mkV (62/10) 1 1), 1, (20/62), 2, [[mkV 0 0 0; mkV (59/62) 0 0]], [mkV 0 0 0; mkV (59/62 * (62/10)) 0 0].
  split; [lra|]. split; [split; cbn; lra|]. split; [lra|]. split.
  { constructor; [|constructor]. constructor; [|constructor; [|constructor]]; unfold unit_draw, in_box; cbn; lra. }
  split; [apply run_batch; lra|]. intros H.
  specialize (H 0%nat 1%nat _ _ 1%Z 0%Z eq_refl eq_refl ltac:(lia)).
  pose proof (dist_sq (image (mkV (62/10) 1 1) (mkV 0 0 0) 1 0 0) (mkV (59/62 * (62/10)) 0 0)) as D. cbn in D. nra.
Qed.
(** True when the last voxel along x and along y is at least min_dist wide, in
    particular when the sizes are multiples of the voxel size. *)
Definition last_cell (s m L : R) : Prop := IZR (Zceil (L / s) - 1) * s + m <= L.
Theorem C77_batched_periodic_partial dims md density vsc bs l :
  0 < md -> nonneg dims -> 1 <= vsc -> last_cell (md * vsc) md (vx dims) -> last_cell (md * vsc) md (vy dims) ->
  Forall (Forall unit_draw) bs -> gen_p_substrate_batched dims md density vsc bs = Ok l -> separated_xy md dims l.
Proof.
  intros Hm HD HV HX HY HU H. assert (Hs : 0 < md * vsc) by nra. assert (Hms : md <= md * vsc) by nra.
  unfold last_cell, Rdiv in HX, HY. rewrite (Rmult_comm (vx dims)) in HX. rewrite (Rmult_comm (vy dims)) in HY.
  destruct (batch_result (fun p q => forall a b, md <= dist (image dims p a b 0) q) dims md density vsc bs l) as (A & B & C); auto.
  - intros p q _ Hp Hq HN a b. apply pdist_images; auto; lra.
  - intros p q _ Hp Hq HN a b. apply pdist_images; auto; [lra|]. apply pdist_axis; [lra|]. apply not_grid_nbr in HN; auto.
    destruct Hp as (X & Y & Z), Hq as (X' & Y' & Z'). destruct HN as [HN|[HN|HN]].
    + left. eapply ring_gap; [exact Hs| | | | |exact HN]; auto.
    + right. left. eapply ring_gap; [exact Hs| | | | |exact HN]; auto.
    + right. right. apply block_far_abs in HN; auto. lra.
  - apply FOP_separated_xy; auto.
Qed.
Example C77_nonvacuous : exists l, last_cell (1 * 2) 1 (vx (mkV 8 1 1)) /\ last_cell (1 * 2) 1 (vy (mkV 8 1 1)) /\
  Forall (Forall unit_draw) [[mkV 0 0 0; mkV (1/2) 0 0]] /\
  gen_p_substrate_batched (mkV 8 1 1) 1 (1/4) 2 [[mkV 0 0 0; mkV (1/2) 0 0]] = Ok l /\ length l = 2%nat.
Proof.
  eexists. split; [|split; [|split; [|split; [apply run_batch; lra|reflexivity]]]].
  - unfold last_cell. cbn. rewrite (Zceil_imp 4) by (cbn; lra). cbn. lra.
  - unfold last_cell. cbn. rewrite (Zceil_imp 1) by (cbn; lra). cbn. lra.
  - constructor; [|constructor]. constructor; [|constructor; [|constructor]]; unfold unit_draw, in_box; cbn; lra.
Qed.

(* ---------------- C47 ---------------- *)
(** get_p_dist and get_sdist_fun give the smallest squared distance between images;
    get_p_dist_batch tells whether it exceeds the threshold for every row. *)
Theorem C47_minimum_image L p q : in_box L p -> in_box L q ->
  min_image true true false L p q (p_dist L p q) /\
  (forall px py pz, exists f, get_sdist_fun (Some L) px py pz = Ok f /\ min_image px py pz L p q (f p q)) /\
  (forall m rows, Forall (in_box L) rows ->
     (far_from_all L m rows q = true <->
      forall r a b, In r rows -> m < dist (image L r a b 0) q ^ 2)).
Proof.
  intros Hp Hq. split; [rewrite p_dist_sdist; apply sdist3_min_image; auto|]. split.
  - intros px py pz. eexists. split; [reflexivity|]. apply (sdist3_min_image px py pz L p q Hp Hq).
  - intros m rows HR. unfold far_from_all. rewrite forallb_forall, Forall_forall in *. split.
    + intros H r a b Hr. specialize (H r Hr). apply Rltb_iff in H. rewrite p_dist_sdist in H.
      destruct (sdist3_min_image true true false L r q (HR r Hr) Hq) as [A _].
      assert (AL : allowed true true false a b 0) by (repeat split; congruence). apply A in AL. lra.
    + intros H r Hr. apply Rltb_iff. rewrite p_dist_sdist.
      destruct (sdist3_min_image true true false L r q (HR r Hr) Hq) as [_ (a & b & c & AL & ->)].
      destruct AL as (_ & _ & C). rewrite (C eq_refl). auto.
Qed.
Example C47_nonvacuous : in_box (mkV 2 3 4) (mkV 0 0 0) /\ in_box (mkV 2 3 4) (mkV (3/2) 2 3).
Proof. unfold in_box. cbn. lra. Qed.

(* ---------------- C48 ---------------- *)
Theorem C48_voxel_neighbours d0 d1 d2 px py pz : (1 <= d0 -> 1 <= d1 -> 1 <= d2 ->
  Z.of_nat (length (get_voxel_grid d0 d1 d2 px py pz)) = d0 * d1 * d2 /\
  forall x y z, in_grid d0 d1 d2 x y z ->
    exists l, nth_error (get_voxel_grid d0 d1 d2 px py pz) (Z.to_nat (cell_index d0 d1 x y z)) = Some l /\
      (forall n, In n l <-> exists x' y' z', axis_step px d0 x x' /\ axis_step py d1 y y' /\ axis_step pz d2 z z' /\
                                         n = cell_index d0 d1 x' y' z') /\
      (px && py && pz = true ->
        length l = 27%nat /\
        forall sx sy sz, -1 <= sx <= 1 -> -1 <= sy <= 1 -> -1 <= sz <= 1 ->
          nth_error l (Z.to_nat ((sx + 1) + 3 * (sy + 1) + 9 * (sz + 1))) =
            Some (cell_index d0 d1 ((x + sx) mod d0) ((y + sy) mod d1) ((z + sz) mod d2))) /\
      (px && py && pz = false -> NoDup l))%Z.
Proof.
  intros D0 D1 D2. unfold get_voxel_grid, vgN. rewrite map_length, seq_length. split; [nia|].
  intros x y z G. destruct (idx_facts _ _ _ _ _ _ G) as (_ & _ & _ & R). cbv zeta in R.
  exists (voxel_neighbors d0 d1 d2 px py pz (cell_index d0 d1 x y z)). split.
  { erewrite map_nth_error; [|rewrite nth_error_nth' with (d := 0%nat); [reflexivity|rewrite seq_length; lia]].
    rewrite seq_nth by lia. cbn [Nat.add]. rewrite Z2Nat.id by lia. reflexivity. }
  split; [intros n; apply neighbors_spec; auto|]. split.
  - intros P. unfold voxel_neighbors. rewrite P. split; [rewrite map_length; reflexivity|]. intros sx sy sz SX SY SZ.
    destruct (off_facts sx sy sz SX SY SZ) as [O _]. cbv zeta in O. unfold off in O.
    erewrite map_nth_error; [f_equal; apply vg_entry_value; auto|].
    unfold idx27. erewrite map_nth_error; [|rewrite nth_error_nth' with (d := 0%nat); [reflexivity|rewrite seq_length; lia]].
    rewrite seq_nth by lia. cbn [Nat.add]. rewrite Z2Nat.id by lia. reflexivity.
  - intros P. unfold voxel_neighbors. rewrite P. apply NoDup_nodup.
Qed.
(** Neighbourhood is reflexive and symmetric. *)
Theorem C48_neighbourhood_symmetric d0 d1 d2 px py pz : (1 <= d0 -> 1 <= d1 -> 1 <= d2 ->
  forall i li, nth_error (get_voxel_grid d0 d1 d2 px py pz) i = Some li ->
    In (Z.of_nat i) li /\
    forall j lj, nth_error (get_voxel_grid d0 d1 d2 px py pz) j = Some lj -> (In (Z.of_nat j) li <-> In (Z.of_nat i) lj))%Z.
Proof.
  intros D0 D1 D2.
  assert (G : forall i l, nth_error (get_voxel_grid d0 d1 d2 px py pz) i = Some l ->
    exists x y z, in_grid d0 d1 d2 x y z /\ Z.of_nat i = cell_index d0 d1 x y z /\ l = voxel_neighbors d0 d1 d2 px py pz (cell_index d0 d1 x y z)).
  { intros i l H. assert (L : (i < length (get_voxel_grid d0 d1 d2 px py pz))%nat) by (apply nth_error_Some; congruence).
    unfold get_voxel_grid in *. rewrite map_length, seq_length in L. unfold vgN in *.
    destruct (cell_index_onto d0 d1 d2 (Z.of_nat i)) as (x & y & z & G & E); auto; [lia|].
    exists x, y, z. split; auto. split; auto. erewrite map_nth_error in H; [|rewrite nth_error_nth' with (d := 0%nat); [reflexivity|rewrite seq_length; lia]].
    rewrite seq_nth in H by lia. cbn [Nat.add] in H. rewrite <- E. congruence. }
  assert (SYM : forall x y z x' y' z', in_grid d0 d1 d2 x y z -> in_grid d0 d1 d2 x' y' z' ->
     In (cell_index d0 d1 x' y' z') (voxel_neighbors d0 d1 d2 px py pz (cell_index d0 d1 x y z)) ->
     In (cell_index d0 d1 x y z) (voxel_neighbors d0 d1 d2 px py pz (cell_index d0 d1 x' y' z'))).
  { intros x y z x' y' z' G1 G2 H. rewrite neighbors_spec in * by auto. destruct H as (a & b & c & A & B & C & E).
    assert (GA : in_grid d0 d1 d2 a b c) by (destruct G1 as (? & ? & ?); split; [|split]; eapply axis_step_range; eauto).
    destruct (cell_index_inj _ _ _ _ _ _ _ _ _ G2 GA E) as (-> & -> & ->).
    exists x, y, z. destruct G1 as (? & ? & ?). repeat split; auto; apply axis_step_sym; auto. }
  intros i li Hi. destruct (G _ _ Hi) as (x & y & z & Gi & Ei & ->). split.
  - rewrite Ei, neighbors_spec by auto. exists x, y, z. destruct Gi as (? & ? & ?). repeat split; auto; apply axis_step_refl; auto.
  - intros j lj Hj. destruct (G _ _ Hj) as (x' & y' & z' & Gj & Ej & ->). rewrite Ei, Ej. split; apply SYM; auto.
Qed.
Example C48_nonvacuous : in_grid 2 1 3 1 0 2 /\ length (get_voxel_grid 2 1 3 true false false) = 6%nat.
Proof. split; [unfold in_grid; lia|reflexivity]. Qed.

(* ---------------- C52 ---------------- *)
Theorem C52_sdist_always_refuted : get_sdist_fun None false false false = Err IndexError.
Proof. reflexivity. Qed.
Theorem C52_sdist_always_partial L px py pz : exists f, get_sdist_fun (Some L) px py pz = Ok f /\
  (px = false -> py = false -> pz = false -> forall p q, f p q = dist p q ^ 2) /\
  (forall p q, f p q = f q p).
Proof.
  eexists. split; [reflexivity|]. split.
  - intros -> -> -> p q. rewrite dist_sq. unfold sdist_coord. rewrite !abs_sq. reflexivity.
  - intros p q. unfold sdist_coord. rewrite (Rabs_minus_sym (vx p)), (Rabs_minus_sym (vy p)), (Rabs_minus_sym (vz p)). reflexivity.
Qed.

(* ---------------- C42 ---------------- *)
(** Neither the place nor the density is honoured: bounding box [10,12]^3 and density 1
    give one atom, at the origin. *)
Theorem C42_amorphous_fills_box_refuted : exists g g' bbox draws atoms species,
  new_amorphous None 1 1 6 = Ok g /\ Forall unit_draw draws /\
  amorphous_supply draws g bbox = Ok (g', (atoms, species)) /\
  (exists a, In a atoms /\ forall b, In b bbox -> vx a < vx b) /\
  Z.of_nat (length atoms) <> ZnearestE (2 * 2 * 2 * am_density g).
Proof.
  assert (N : new_amorphous None 1 1 6 = Ok (mkAm None 6 1 1 None false)).
  { unfold new_amorphous. rewrite (proj2 (Rltb_iff 0 1)) by lra. reflexivity. }
  exists (mkAm None 6 1 1 None false). eexists. exists [mkV 10 10 10; mkV 12 12 12], [mkV 0 0 0], [mkV 0 0 0], [6%Z].
  split; [exact N|]. split; [constructor; [|constructor]; unfold unit_draw, in_box; cbn; lra|]. split; [|split].
  - unfold amorphous_supply. cbn [am_use_old am_old].
    replace (vsub (rows_max (mkV 10 10 10) [mkV 12 12 12]) (rows_min (mkV 10 10 10) [mkV 12 12 12])) with (mkV 2 2 2).
    2:{ apply vec_eq; cbn; rewrite ?Rmax_right, ?Rmin_left by lra; lra. }
    unfold gen_p_substrate, num_atoms. cbn [vx vy vz am_min_dist].
    rewrite (Znearest_imp _ _ 1) by (unfold default_density; rewrite Rabs_left; lra).
    cbn [check_rows Z.ltb Z.compare bind]. change (Z.to_nat 1) with 1%nat. cbn [gen_loop Nat.leb length ps_coords].
    rewrite step_first. replace (vmul (mkV 0 0 0) (mkV 2 2 2)) with (mkV 0 0 0) by (apply vec_eq; vunfold; cbn; lra). reflexivity.
  - exists (mkV 0 0 0). split; [left; auto|]. intros b [<-|[<-|[]]]; cbn; lra.
  - cbn [length am_density]. rewrite (Znearest_imp _ _ 8); [lia|]. replace (2 * 2 * 2 * 1 - 8) with 0 by ring. rewrite Rabs_R0. lra.
Qed.
(** What holds: a block of the right size at the origin, at the default density, of
    the right species, with the minimum separation; a reuse repeats the last result. *)
(** the extent of a point set along each axis *)
Definition spread (box : list vec) (size : vec) : Prop :=
  forall f, In f [vx; vy; vz] -> (exists p q, In p box /\ In q box /\ f size = f p - f q) /\ forall p q, In p box -> In q box -> f p - f q <= f size.
Lemma spread_unique box s s' : spread box s -> spread box s' -> s = s'.
Proof.
  intros A B. assert (E : forall f, In f [vx; vy; vz] -> f s = f s').
  { intros f Hf. destruct (A f Hf) as [(p & q & P & Q & E) U], (B f Hf) as [(p' & q' & P' & Q' & E') U'].
    specialize (U p' q' P' Q'). specialize (U' p q P Q). lra. }
  apply vec_eq; apply E; cbn; auto.
Qed.
Lemma fold_extreme (f : vec -> R) (op : vec -> vec -> vec) (better : R -> R -> Prop) :
  (forall a b, (f (op a b) = f a \/ f (op a b) = f b) /\ better (f (op a b)) (f a) /\ better (f (op a b)) (f b)) ->
  (forall a, better a a) -> (forall a b c, better a b -> better b c -> better a c) ->
  forall l p, (exists q, In q (p :: l) /\ f (fold_left op l p) = f q) /\ forall q, In q (p :: l) -> better (f (fold_left op l p)) (f q).
Proof.
  intros H RF TR. induction l as [|x l IH]; intros p; cbn [fold_left].
  - split; [exists p; split; [left; auto|auto]|intros q [->|[]]; auto].
  - destruct (IH (op p x)) as [(q & Hq & E) U]. destruct (H p x) as (S & B1 & B2). split.
    + destruct Hq as [<-|Hq]; [|exists q; split; [right; right; auto|auto]]. rewrite E. destruct S as [-> | ->]; [exists p|exists x]; cbn; auto.
    + intros r [->|[->|Hr]]; [eapply TR; [apply U; left; reflexivity|auto]..|]. apply U. right; auto.
Qed.
Lemma spread_rows p ps : spread (p :: ps) (vsub (rows_max p ps) (rows_min p ps)).
Proof.
  assert (A : forall f, In f [vx; vy; vz] -> (exists q, In q (p :: ps) /\ f (rows_max p ps) = f q) /\ forall q, In q (p :: ps) -> f q <= f (rows_max p ps)).
  { intros f Hf. destruct (fold_extreme f vmax (fun a b => b <= a)) with (l := ps) (p := p) as [X Y].
    - intros a b. assert (E : f (vmax a b) = Rmax (f a) (f b)) by (destruct Hf as [<-|[<-|[<-|[]]]]; reflexivity). rewrite E.
      split; [unfold Rmax; destruct (Rle_dec (f a) (f b)); auto|]. split; [apply Rmax_l|apply Rmax_r].
    - intros; lra.
    - intros; lra.
    - split; auto. }
  assert (B : forall f, In f [vx; vy; vz] -> (exists q, In q (p :: ps) /\ f (rows_min p ps) = f q) /\ forall q, In q (p :: ps) -> f (rows_min p ps) <= f q).
  { intros f Hf. destruct (fold_extreme f vmin (fun a b => a <= b)) with (l := ps) (p := p) as [X Y].
    - intros a b. assert (E : f (vmin a b) = Rmin (f a) (f b)) by (destruct Hf as [<-|[<-|[<-|[]]]]; reflexivity). rewrite E.
      split; [unfold Rmin; destruct (Rle_dec (f a) (f b)); auto|]. split; [apply Rmin_l|apply Rmin_r].
    - intros; lra.
    - intros; lra.
    - split; auto. }
  intros f Hf. assert (E : f (vsub (rows_max p ps) (rows_min p ps)) = f (rows_max p ps) - f (rows_min p ps)) by (destruct Hf as [<-|[<-|[<-|[]]]]; reflexivity).
  rewrite E. destruct (A f Hf) as [(q & Q1 & Q2) QU], (B f Hf) as [(r & R1 & R2) RU]. split; [exists q, r; rewrite Q2, R2; auto|].
  intros a b Ha Hb. specialize (QU a Ha). specialize (RU b Hb). lra.
Qed.
Theorem C42_amorphous_fills_box_partial draws g p ps size g' atoms species :
  0 < am_min_dist g -> Forall unit_draw draws ->
  spread (p :: ps) size ->
  amorphous_supply draws g (p :: ps) = Ok (g', (atoms, species)) ->
  (am_use_old g = false \/ am_old g = None ->
     species = repeat (am_species g) (length atoms) /\
     Z.of_nat (length atoms) = ZnearestE (volume_of size * default_density) /\
     Forall (in_box size) atoms /\ separated (am_min_dist g) atoms) /\
  (am_use_old g = true -> forall r, am_old g = Some r -> r = (atoms, species)) /\
  am_old g' = (if am_use_old g then match am_old g with Some r => Some r | None => Some (atoms, species) end else Some (atoms, species)) /\
  (am_use_old g', am_species g', am_density g', am_min_dist g', am_origin g') =
  (am_use_old g, am_species g, am_density g, am_min_dist g, am_origin g).
Proof.
  intros Hm HU SP H. apply (spread_unique _ _ _ (spread_rows p ps)) in SP. symmetry in SP. rename SP into size_eq. unfold amorphous_supply in H. rewrite <- size_eq in H. destruct (if am_use_old g then am_old g else None) as [r|] eqn:E.
  - inversion H; subst. destruct (am_use_old g') eqn:E2; [|discriminate]. rewrite E. repeat split; auto.
    + destruct H0; congruence.
    + destruct H0; congruence.
    + destruct H0; congruence.
    + destruct H0; congruence.
    + intros; congruence.
  - inv_bind H. inversion H; subst. clear H. cbn [am_old am_use_old am_species am_density am_min_dist am_origin].
    assert (NN : nonneg (vsub (rows_max p ps) (rows_min p ps))).
    { assert (G : forall l q, vx (rows_min q l) <= vx (rows_max q l) /\ vy (rows_min q l) <= vy (rows_max q l) /\ vz (rows_min q l) <= vz (rows_max q l)).
      { intros l q. unfold rows_min, rows_max. 
        assert (GG : forall l a b, vx a <= vx b -> vy a <= vy b -> vz a <= vz b -> let m := fold_left vmin l a in let M := fold_left vmax l b in vx m <= vx M /\ vy m <= vy M /\ vz m <= vz M).
        { clear. induction l as [|r l IH]; intros a b X Y Z; [cbn; auto|]. cbn [fold_left]. apply IH; cbn;
            [pose proof (Rmin_l (vx a) (vx r)); pose proof (Rmax_l (vx b) (vx r))|pose proof (Rmin_l (vy a) (vy r)); pose proof (Rmax_l (vy b) (vy r))|pose proof (Rmin_l (vz a) (vz r)); pose proof (Rmax_l (vz b) (vz r))]; lra. }
        apply GG; lra. }
      destruct (G ps p) as (A & B & C). unfold nonneg, vsub. cbn. lra. }
    destruct (C44_amorphous_separated _ _ _ _ _ Hm NN HU Ha) as (A1 & A2 & A3).
    split; [|split; [|split]]; auto.
    + intros HT r HR. rewrite HT in E. congruence.
    + destruct (am_use_old g); auto. rewrite E. reflexivity.
Qed.
(** The density attribute has no influence at all. *)
Theorem C42_density_ignored draws o sp d1 d2 md old uo b :
  match amorphous_supply draws (mkAm o sp d1 md old uo) b, amorphous_supply draws (mkAm o sp d2 md old uo) b with
  | Ok (_, r1), Ok (_, r2) => r1 = r2
  | Err e1, Err e2 => e1 = e2
  | _, _ => False
  end.
Proof.
  unfold amorphous_supply. cbn. destruct (if uo then old else None); auto. destruct b; auto.
  destruct (gen_p_substrate _ _ _ _); cbn; auto.
Qed.
Example C42_nonvacuous : exists g draws p ps size g' atoms species, 0 < am_min_dist g /\ Forall unit_draw draws /\ spread (p :: ps) size /\
  amorphous_supply draws g (p :: ps) = Ok (g', (atoms, species)).
Proof.
  destruct C42_amorphous_fills_box_refuted as (g & g' & bbox & draws & atoms & species & N & U & E & _).
  unfold new_amorphous in N. rewrite (proj2 (Rltb_iff 0 1)) in N by lra. injection N as <-.
  destruct bbox as [|p ps]; [discriminate|]. exists (mkAm None 6 1 1 None false), draws, p, ps. eexists. exists g', atoms, species.
  split; [cbn; lra|]. split; [exact U|]. split; [apply spread_rows|exact E].
Qed.
