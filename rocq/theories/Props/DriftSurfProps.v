(** C161: surfaces moved by many transformations in double precision. *)
From Coq Require Import Reals List Bool ZArith Lra Lia Psatz.
From Flocq Require Import Core.
From Verif.Model Require Import Base Vec Algebraic Transform Volume Float FloatRot FloatMove.
From Verif.Spec Require Import Geometry AlgSpec FloatSpec DriftSpec.
From Verif.Proofs Require Import VecFacts AlgFacts VolumeFacts FloatFacts DriftFacts DriftSurfFacts.
From Verif.Props Require Import TransformProps DriftProps FloatProps.
Import ListNotations.
Open Scope R_scope.

Lemma foldM_flat {A} (f : A -> transform -> res A) (ts : list transform) :
  Forall (fun t => forall a, f a t = foldM f (elementary t) a) ts ->
  forall a, foldM f ts a = foldM f (flat_map elementary ts) a.
Proof.
  induction 1 as [|t ts Ht _ IH]; intros a; [reflexivity|]. cbn [flat_map]. rewrite foldM_app. cbn [foldM]. rewrite Ht.
  destruct (foldM f (elementary t) a); cbn [bind]; auto.
Qed.
Lemma one_step {A} (f : A -> transform -> res A) t a : f a t = foldM f [t] a.
Proof. cbn [foldM]. destruct (f a t); reflexivity. Qed.
Lemma flat_alg t : forall a, apply_alg t a = foldM (fun x u => apply_alg u x) (elementary t) a.
Proof.
  induction t as [s lk bo|m o lk bo|o lk bo|pl lk bo|ts IH] using transform_ind'; intros a; try (apply (one_step (fun x u => apply_alg u x))).
  apply (foldM_flat (fun x u => apply_alg u x)). exact IH.
Qed.
Lemma flat_alg_float dotm t : forall a, f_apply_alg dotm t a = foldM (fun x u => f_apply_alg dotm u x) (elementary t) a.
Proof.
  induction t as [s lk bo|m o lk bo|o lk bo|pl lk bo|ts IH] using transform_ind'; intros a; try (apply (one_step (fun x u => f_apply_alg dotm u x))).
  apply (foldM_flat (fun x u => f_apply_alg dotm u x)). exact IH.
Qed.

Lemma minus_id x : mv (mscale (-1) mI) x = vopp x. Proof. vring. Qed.
Lemma matrix_surf dotm d m o a b e a' : accurate dotm -> 0 <= d <= / 4 -> 0 <= e ->
  (forall v, (1 - d) * norm v <= norm (mv m v)) -> (forall v, norm (mv m v) <= (1 + d) * norm v) ->
  same_make a b -> headings_near e (heading a) (heading b) -> matrix_alg m o a = Ok a' ->
  exists b', f_matrix_alg dotm m o b = Ok b' /\ same_make a a' /\ same_make a' b' /\ anchor a' = matrix_pt m o (anchor a) /\
    anchor b' = f_matrix_pt dotm m o (anchor b) /\ headings_near (/ 2 ^ 39 + (1 + (3 * d + / 2 ^ 40)) * e) (heading a') (heading b').
Proof.
  intros ACC D E0 LO UP SM HN H.
  assert (P40 : 0 < / 2 ^ 40) by (apply Rinv_0_lt_compat, pow_lt; lra).
  assert (K : forall x q, near_unit x -> near_unit q -> dist x q <= e -> exists w z, f_direction dotm (f_mv dotm m q) = Ok w /\ check_normal (mv m x) = Ok z /\ check_axis (mv m x) = Ok z /\
      headings_near (/ 2 ^ 39 + (1 + (3 * d + / 2 ^ 40)) * e) (Some z) (Some w)).
  { intros x q HX HQ HE. destruct (dir_step dotm ACC d m q x D LO UP HQ HX) as (w & z & W & Z1 & Z2 & NW & NZ & G). exists w, z. repeat split; auto.
    rewrite dist_sym. eapply Rle_trans; [exact G|]. apply Rplus_le_compat_l, Rmult_le_compat_l; [lra|]. rewrite dist_sym. exact HE. }
  destruct a as [s|pl|c], b as [s'|pl'|c']; cbn [same_make] in SM; try contradiction; cbn [matrix_alg f_matrix_alg] in *.
  - injection H as <-. eexists. split; [reflexivity|]. cbn. tauto.
  - cbn [heading] in HN. destruct HN as (N1 & N2 & N3). destruct (K _ _ N1 N2 N3) as (w & z & W & Z1 & Z2 & G).
    unfold plane_set_normal in H. cbn [plane_set_point p_normal] in H. rewrite Z1 in H. cbn [bind] in H. injection H as <-.
    rewrite W. cbn [bind]. eexists. split; [reflexivity|]. cbn [same_make anchor heading p_tol p_point p_normal plane_set_point]. tauto.
  - cbn [heading] in HN. destruct HN as (N1 & N2 & N3). destruct (K _ _ N1 N2 N3) as (w & z & W & Z1 & Z2 & G).
    unfold cyl_set_axis in H. cbn [cyl_set_point c_axis] in H. rewrite Z2 in H. cbn [bind] in H. injection H as <-.
    rewrite W. cbn [bind]. eexists. split; [reflexivity|]. cbn [same_make anchor heading c_tol c_point c_axis c_radius c_length cyl_set_point]. tauto.
Qed.
Lemma surf_step dotm d B t a b e a' : accurate dotm -> 0 <= d <= / 4 -> 0 <= e -> tame d B t -> stiff d t ->
  same_make a b -> headings_near e (heading a) (heading b) -> apply_alg t a = Ok a' ->
  exists b', f_apply_alg dotm t b = Ok b' /\ same_make a a' /\ same_make a' b' /\ anchor a' = apply_pt t (anchor a) /\
    anchor b' = f_apply_pt dotm t (anchor b) /\ headings_near (/ 2 ^ 39 + (1 + (3 * d + / 2 ^ 40)) * e) (heading a') (heading b').
Proof.
  intros ACC D E0 HT HS SM HN H.
  assert (P40 : 0 < / 2 ^ 40) by (apply Rinv_0_lt_compat, pow_lt; lra). assert (P39 : 0 < / 2 ^ 39) by (apply Rinv_0_lt_compat, pow_lt; lra).
  assert (LE : e <= / 2 ^ 39 + (1 + (3 * d + / 2 ^ 40)) * e) by nra.
  destruct t as [s lk bo|m o lk bo|o lk bo|pl lk bo|ts]; cbn [apply_alg f_apply_alg apply_pt f_apply_pt tame stiff] in *; try contradiction; try discriminate.
  - injection H as <-. eexists. split; [reflexivity|].
    destruct a as [x|x|x], b as [y|y|y]; cbn [same_make] in SM; try contradiction; cbn in *.
    + tauto.
    + repeat split; try tauto. destruct HN as (? & ? & ?). lra.
    + repeat split; try tauto. destruct HN as (? & ? & ?). lra.
  - apply (matrix_surf dotm d m o a b e a'); tauto.
  - apply (matrix_surf dotm d _ o a b e a'); auto; intros v; rewrite minus_id, norm_opp; pose proof (norm_pos v); nra.
Qed.
Lemma make_trans a b c : same_make a b -> same_make b c -> same_make a c.
Proof. destruct a, b, c; cbn; try tauto; intuition congruence. Qed.
Lemma make_refl a : same_make a a.
Proof. destruct a; cbn; tauto. Qed.
Lemma turn_pos d n : 0 <= d -> 0 <= allowed_turn d n.
Proof.
  intros D. unfold allowed_turn. assert (P40 : 0 < / 2 ^ 40) by (apply Rinv_0_lt_compat, pow_lt; lra). assert (P39 : 0 < / 2 ^ 39) by (apply Rinv_0_lt_compat, pow_lt; lra).
  apply Rmult_le_pos; [apply Rmult_le_pos; [apply pos_INR|apply pow_le; lra]|lra].
Qed.
Lemma turn_step d n : 0 <= d -> / 2 ^ 39 + (1 + (3 * d + / 2 ^ 40)) * allowed_turn d n <= allowed_turn d (S n).
Proof.
  intros D. assert (P40 : 0 < / 2 ^ 40) by (apply Rinv_0_lt_compat, pow_lt; lra). assert (P39 : 0 < / 2 ^ 39) by (apply Rinv_0_lt_compat, pow_lt; lra).
  unfold allowed_turn. rewrite S_INR. set (c := / 2 ^ 39) in *. clearbody c. set (f := 3 * d + / 2 ^ 40) in *. assert (0 <= f) by (unfold f; lra). clearbody f. cbn [pow].
  pose proof (pow_R1_Rle (1 + f) n ltac:(lra)) as G. set (g := (1 + f) ^ n) in *. set (k := INR n).
  assert (H1 : 1 * 1 <= (1 + f) * g) by (apply Rmult_le_compat; lra). assert (H2 : 1 * c <= (1 + f) * g * c) by (apply Rmult_le_compat_r; lra).
  replace ((k + 1) * ((1 + f) * g) * c) with ((1 + f) * (k * g * c) + (1 + f) * g * c) by ring. lra.
Qed.
Lemma headings_weaken e e' n n' : e <= e' -> headings_near e n n' -> headings_near e' n n'.
Proof. intros L. destruct n, n'; cbn; try tauto. intros (A & B & C). repeat split; auto. lra. Qed.
Lemma surf_run dotm d B ts a : accurate dotm -> 0 <= d <= / 4 -> Forall (tame d B) ts -> Forall (stiff d) ts ->
  headings_near 0 (heading a) (heading a) ->
  forall a', foldM (fun x u => apply_alg u x) ts a = Ok a' ->
  exists b, foldM (fun x u => f_apply_alg dotm u x) ts a = Ok b /\ same_make a a' /\ same_make a' b /\
    anchor a' = exact_place ts (anchor a) /\ anchor b = fold_left (fun q u => f_apply_pt dotm u q) ts (anchor a) /\
    headings_near (allowed_turn d (length ts)) (heading a') (heading b).
Proof.
  intros ACC D. induction ts as [|t ts IH] using rev_ind; intros HT HS HN a' H.
  - cbn in H. injection H as <-. exists a. repeat split; auto using make_refl. eapply headings_weaken; [|exact HN]. apply turn_pos. lra.
  - apply Forall_app in HT. apply Forall_app in HS. destruct HT as [HT HT1]. destruct HS as [HS HS1]. inversion HT1; subst. inversion HS1; subst.
    rewrite foldM_app in H. apply bind_Ok in H. destruct H as (a1 & H1 & H). rewrite <- (one_step (fun x u => apply_alg u x)) in H.
    destruct (IH HT HS HN a1 H1) as (b1 & F1 & M1 & M2 & A1 & A2 & N1).
    destruct (surf_step dotm d B t a1 b1 _ a' ACC D (turn_pos d (length ts) ltac:(lra)) ltac:(assumption) ltac:(assumption) M2 N1 H) as (b & F & M3 & M4 & A3 & A4 & N2).
    exists b. rewrite foldM_app, F1. cbn [bind]. rewrite <- (one_step (fun x u => f_apply_alg dotm u x)). split; [exact F|]. split; [apply (make_trans _ a1); auto|]. split; [exact M4|].
    unfold exact_place in *. rewrite !fold_left_app. cbn [fold_left]. rewrite A3, A4, A1, A2. split; [reflexivity|]. split; [reflexivity|].
    rewrite app_length. cbn [length]. rewrite Nat.add_1_r. eapply headings_weaken; [|exact N2]. apply turn_step. lra.
Qed.

(** A ball, plane or cylinder moved by any transformation that applyTransformation_alg
    accepts: the computed surface exists too, is of the same make, its anchor is where C159
    says and its direction has turned no more than allowed. *)
Theorem C161_surface : forall dotm d B t a a', accurate dotm -> 0 <= d <= / 4 -> 1 <= B ->
  let n := length (elementary t) in
  Forall (tame d B) (elementary t) -> Forall (stiff d) (elementary t) -> stays B (elementary t) (anchor a) ->
  INR n * (1 + d) ^ n <= 2 ^ 40 -> headings_near 0 (heading a) (heading a) ->
  apply_alg t a = Ok a' ->
  exists b, f_apply_alg dotm t a = Ok b /\ same_make a b /\ same_make a a' /\ anchor a' = apply_pt t (anchor a) /\ dist (anchor b) (anchor a') <= allowed d B n /\
    headings_near (allowed_turn d n) (heading a') (heading b).
Proof.
  intros dotm d B t a a' ACC D HB n HT HS ST HN HH H. rewrite flat_alg in H.
  destruct (surf_run dotm d B (elementary t) a ACC D HT HS HH a' H) as (b & F & M1 & M2 & A1 & A2 & N).
  exists b. rewrite flat_alg_float. split; [exact F|]. split; [apply (make_trans _ a'); auto|]. split; [exact M1|]. split; [rewrite flat_exact; exact A1|]. split; [|exact N].
  rewrite A1, A2. apply run_err; auto. lra.
Qed.

(** ** Which points the moved surface contains *)
Definition proj (n x : vec) : vec := vscale (dot x (unitv n)) (unitv n).
Lemma cyl_within c pad p : 0 < norm (c_axis c) ->
  let x := vsub p (c_point c) in
  (within pad (ACyl c) p <-> norm (vsub x (proj (c_axis c) x)) <= c_radius c + pad /\ norm (proj (c_axis c) x) <= c_length c / 2 + pad).
Proof.
  intros HN x. set (n := c_axis c) in *. assert (NN : norm n * norm n = dot n n) by apply norm_sq. assert (D0 : dot n n <> 0) by nra.
  assert (PR : proj n x = vscale (dot x n / dot n n) n).
  { unfold proj, unitv. rewrite <- NN. replace (dot x (vscale (/ norm n) n)) with (/ norm n * dot x n) by vring.
    replace (vscale (/ norm n * dot x n) (vscale (/ norm n) n)) with (vscale (/ norm n * dot x n * / norm n) n) by vring. f_equal. field. lra. }
  rewrite PR. set (k0 := dot x n / dot n n). cbn [within]. fold n. unfold dist.
  assert (E1 : forall k, vsub p (vadd (c_point c) (vscale k n)) = vsub x (vscale k n)) by (intros; unfold x; vring).
  assert (E2 : forall k, vsub (vadd (c_point c) (vscale k n)) (c_point c) = vscale k n) by (intros; vring).
  split.
  - intros (k & H1 & H2 & H3). rewrite E1 in H1, H2. rewrite E2 in H3.
    assert (K : k = k0). { unfold k0. replace (dot (vsub x (vscale k n)) n) with (dot x n - k * dot n n) in H1 by vring. apply Rmult_eq_reg_r with (dot n n); auto. replace (dot x n / dot n n * dot n n) with (dot x n) by (field; auto). lra. }
    subst k. split; assumption.
  - intros (H2 & H3). exists k0. rewrite E1, E2. split; [|split; assumption].
    replace (dot (vsub x (vscale k0 n)) n) with (dot x n - k0 * dot n n) by vring. unfold k0. field. auto.
Qed.
Lemma proj_near n n' x x' : 0 < norm n' -> 0 < norm n ->
  norm (vsub (proj n x) (proj n' x')) <= norm (vsub x x') + 2 * (norm x * dist (unitv n) (unitv n')).
Proof.
  intros H1 H2. unfold proj. set (u := unitv n). set (u' := unitv n'). assert (U : norm u = 1) by (apply unitv_norm; auto). assert (U' : norm u' = 1) by (apply unitv_norm; auto).
  replace (vsub (vscale (dot x u) u) (vscale (dot x' u') u')) with
    (vadd (vadd (vscale (dot x u) (vsub u u')) (vscale (dot x (vsub u u')) u')) (vscale (dot (vsub x x') u') u')) by (clear; vring).
  eapply Rle_trans; [apply norm_triangle|]. rewrite norm_scale, U'. pose proof (cauchy (vsub x x') u') as C3. rewrite U' in C3.
  eapply Rle_trans; [apply Rplus_le_compat_r, norm_triangle|]. rewrite !norm_scale, U'.
  pose proof (cauchy x u) as C1. rewrite U in C1. pose proof (cauchy x (vsub u u')) as C2. unfold dist.
  assert (Rabs (dot x u) * norm (vsub u u') <= norm x * norm (vsub u u')) by (apply Rmult_le_compat_r; [apply norm_pos|lra]). lra.
Qed.
Lemma diff_norm a b : norm a <= norm b + norm (vsub a b).
Proof. replace a with (vadd b (vsub a b)) at 1 by vring. apply norm_triangle. Qed.
Lemma within_near a b e t p : 0 <= t -> same_make a b -> dist (anchor b) (anchor a) <= e -> headings_near t (heading a) (heading b) ->
  let slip := 4 * (e + dist p (anchor a) * t) in forall s,
  (within s a p -> within (s + slip) b p) /\ (within s b p -> within (s + slip) a p).
Proof.
  intros T0 SM HA HH slip s. assert (E0 : 0 <= e) by (eapply Rle_trans; [apply norm_pos|exact HA]).
  assert (E50 : / 2 ^ 50 <= / 100) by (apply Rinv_le; lra).
  assert (DT : 0 <= dist p (anchor a) * t) by (apply Rmult_le_pos; [apply norm_pos|exact T0]).
  destruct a as [x|x|x], b as [y|y|y]; cbn [same_make] in SM; try contradiction; cbn [anchor heading headings_near] in *; unfold slip; clear slip.
  - destruct SM as [S1 S2]. cbn [within]. rewrite S1.
    pose proof (dist_triangle p (s_center x) (s_center y)) as T1. pose proof (dist_triangle p (s_center y) (s_center x)) as T2. rewrite (dist_sym (s_center x)) in T1. split; lra.
  - cbn [within]. destruct HH as (N1 & N2 & N3). unfold dist in *. set (u := vsub p (p_point x)) in *. set (u' := vsub p (p_point y)). set (n := p_normal x) in *. set (n' := p_normal y) in *.
    apply Rabs_le_inv in N1, N2.
    assert (G : Rabs (dot u n - dot u' n') <= 4 * (e + norm u * t)).
    { replace (dot u n - dot u' n') with (dot u (vsub n n') + dot (vsub (p_point y) (p_point x)) n') by (unfold u, u'; clear; vring).
      eapply Rle_trans; [apply Rabs_triang|]. pose proof (cauchy u (vsub n n')) as C1. pose proof (cauchy (vsub (p_point y) (p_point x)) n') as C2.
      assert (norm u * norm (vsub n n') <= norm u * t) by (apply Rmult_le_compat_l; [apply norm_pos|lra]).
      assert (norm (vsub (p_point y) (p_point x)) * norm n' <= e * 2) by (apply Rmult_le_compat; try apply norm_pos; lra). lra. }
    apply Rabs_le_inv in G. split; lra.
  - destruct SM as (S1 & S2 & S3). destruct HH as (N1 & N2 & N3). apply Rabs_le_inv in N1, N2.
    pose proof (cyl_within x) as W1. pose proof (cyl_within y) as W2. specialize (W1). 
    assert (P1 : 0 < norm (c_axis x)) by lra. assert (P2 : 0 < norm (c_axis y)) by lra.
    cbv zeta in W1, W2. rewrite !W1, !W2 by auto. rewrite S1, S2. unfold dist in HA, DT |- *.
    set (u := vsub p (c_point x)) in *. set (u' := vsub p (c_point y)) in *. set (n := c_axis x) in *. set (n' := c_axis y) in *. clear W1 W2.
    assert (UU : norm (vsub u u') <= e) by (replace (vsub u u') with (vsub (c_point y) (c_point x)) by (unfold u, u'; clear; vring); exact HA).
    pose proof (proj_near n n' u u' P2 P1) as PN.
    pose proof (unit_lip n n' (9 / 10) ltac:(lra) ltac:(lra) ltac:(lra)) as UL.
    assert (M : norm u * dist (unitv n) (unitv n') <= norm u * (10 / 9 * t)).
    { apply Rmult_le_compat_l; [apply norm_pos|]. replace (/ (9 / 10)) with (10 / 9) in UL by field. eapply Rle_trans; [exact UL|]. apply Rmult_le_compat_l; lra. }
    assert (PE : norm (vsub (proj n u) (proj n' u')) <= e + 20 / 9 * (norm u * t)) by lra.
    pose proof (diff_norm (proj n u) (proj n' u')) as D1. pose proof (diff_norm (proj n' u') (proj n u)) as D2.
    assert (SY : forall a b, norm (vsub b a) = norm (vsub a b)) by (intros a b; apply (dist_sym b a)).
    rewrite SY in D2.
    set (r := vsub u (proj n u)) in *. set (r' := vsub u' (proj n' u')) in *.
    assert (RE : norm (vsub r r') <= e + (e + 20 / 9 * (norm u * t))).
    { replace (vsub r r') with (vadd (vsub u u') (vopp (vsub (proj n u) (proj n' u')))) by (unfold r, r'; generalize (proj n u) (proj n' u'); clear; intros; vring).
      eapply Rle_trans; [apply norm_triangle|]. rewrite norm_opp. lra. }
    pose proof (diff_norm r r') as D3. pose proof (diff_norm r' r) as D4. rewrite SY in D4.
    set (h := proj n u) in *. set (h' := proj n' u') in *. clearbody h h' r r'. split; intros [Q1 Q2]; split; lra.
Qed.

(** Points in the exactly moved body are found inside by the computed surface, and points
    further than three tolerances from it outside, as long as the rounding of the history is
    small against the tolerance. *)
Theorem C161_decides : forall dotm dot1 dot2 d B t a a' p, accurate dotm -> accurate dot1 -> accurate dot2 ->
  0 <= d <= / 4 -> 1 <= B <= 2 ^ 19 -> moderate a -> vmid p ->
  let n := length (elementary t) in
  Forall (tame d B) (elementary t) -> Forall (stiff d) (elementary t) -> stays B (elementary t) (anchor a) ->
  INR n * (1 + d) ^ n <= 2 ^ 40 -> apply_alg t a = Ok a' ->
  allowed d B n + dist p (anchor a') * allowed_turn d n <= pad_of a / 8 ->
  exists b, f_apply_alg dotm t a = Ok b /\
    (within 0 a' p -> f_alg_interior dot1 dot2 b p = true) /\
    (~ within (3 * pad_of a) a' p -> f_alg_interior dot1 dot2 b p = false).
Proof.
  intros dotm dot1 dot2 d B t a a' p ACC ACC1 ACC2 D HB MA HP n HT HS ST HN H SL.
  assert (HH : headings_near 0 (heading a) (heading a)).
  { assert (Z : forall v, dist v v <= 0) by (intros v; unfold dist; replace (vsub v v) with v0 by vring; rewrite norm_v0; lra).
    destruct MA as [_ MA]. destruct a; cbn in *; repeat split; try apply Z; tauto. }
  destruct (C161_surface dotm d B t a a' ACC D (proj1 HB) HT HS ST HN HH H) as (b & F & M1 & M2 & A1 & A2 & N). fold n in A2, N.
  exists b. split; [exact F|].
  assert (M3 : same_make a' b) by (clear - M1 M2; destruct a, a', b; cbn in *; try tauto; intuition congruence).
  assert (NB : norm (anchor b) <= 2 ^ 20).
  { assert (X : norm (anchor a') <= B) by (rewrite A1, flat_exact; apply (ST (elementary t) []); rewrite app_nil_r; reflexivity).
    assert (Y : allowed d B n <= B).
    { unfold allowed. assert (I40 : 2 ^ 40 * / 2 ^ 40 = 1) by (apply Rinv_r, pow_nonzero; lra). assert (P40 : 0 < / 2 ^ 40) by (apply Rinv_0_lt_compat, pow_lt; lra).
      apply Rle_trans with (2 ^ 40 * (/ 2 ^ 40 * B)); [apply Rmult_le_compat_r; [apply Rmult_le_pos; lra|exact HN]|]. rewrite <- Rmult_assoc, I40. lra. }
    pose proof (diff_norm (anchor b) (anchor a')) as T. unfold dist in A2. assert (2 ^ 20 = 2 * 2 ^ 19) by lra. lra. }
  assert (VB : vmid (anchor b)) by (destruct (comp_norm (anchor b)) as (c1 & c2 & c3); unfold vmid, mid, big; repeat split; lra).
  assert (PB : pad_of b = pad_of a) by (clear - M1; destruct a, b; cbn in *; tauto).
  assert (MB : moderate b).
  { destruct MA as [MA1 MA2]. split; [rewrite PB; exact MA1|]. clear - MA2 M1 M2 M3 VB N. destruct a, b; cbn in M1; try tauto; destruct a'; cbn in M2; try tauto; cbn [anchor heading headings_near] in *.
    - destruct M1 as [-> _]. tauto.
    - tauto.
    - destruct M1 as (-> & -> & _). tauto. }
  assert (TP : 0 <= allowed_turn d n) by (apply turn_pos; lra).
  pose proof (within_near a' b _ _ p TP M3 A2 N) as W. cbv zeta in W. set (slip := allowed d B n + dist p (anchor a') * allowed_turn d n) in *.
  destruct (C106_surface dot1 dot2 b p ACC1 ACC2 MB HP) as [S1 S2]. rewrite PB in *.
  assert (P0 : 0 < pad_of a). { destruct MA as [[MA _] _]. assert (0 < / big) by (unfold big; apply Rinv_0_lt_compat, pow_lt; lra). lra. }
  split.
  - intros I. apply S1. apply (within_mono (0 + 4 * slip)); [lra|]. apply W. exact I.
  - intros O. apply S2. intros I. apply O. apply (within_mono (2 * pad_of a + 4 * slip)); [lra|]. apply W. exact I.
Qed.

(** A volume bounded by several surfaces, all moved together. *)
Theorem C161_volume : forall w dotm dot1 dot2 d B t l moved p, accurate dotm -> accurate dot1 -> accurate dot2 ->
  0 <= d <= / 4 -> 1 <= B <= 2 ^ 19 -> vmid p -> l_tri l = None ->
  let n := length (elementary t) in
  Forall (tame d B) (elementary t) -> Forall (stiff d) (elementary t) -> INR n * (1 + d) ^ n <= 2 ^ 40 ->
  Forall (fun a => moderate a /\ stays B (elementary t) (anchor a)) (l_alg l) ->
  Forall2 (fun a a' => apply_alg t a = Ok a' /\ allowed d B n + dist p (anchor a') * allowed_turn d n <= pad_of a / 8) (l_alg l) moved ->
  exists computed, Forall2 (fun a b => f_apply_alg dotm t a = Ok b) (l_alg l) computed /\
    (Forall (fun a' => within 0 a' p) moved -> f_leaf_inside w dot1 dot2 (with_alg l computed) p = true) /\
    (Exists (fun a' => ~ within (3 * pad_of a') a' p) moved -> f_leaf_inside w dot1 dot2 (with_alg l computed) p = false).
Proof.
  intros w dotm dot1 dot2 d B t l moved p ACC ACC1 ACC2 D HB HP TR n HT HS HN HM H2.
  unfold f_leaf_inside. cbn [with_alg l_tri l_alg]. rewrite TR.
  assert (K : exists computed, Forall2 (fun a b => f_apply_alg dotm t a = Ok b) (l_alg l) computed /\ forall c0,
    (Forall (fun a' => within 0 a' p) moved -> fold_left (fun c a => c && f_alg_interior dot1 dot2 a p) computed c0 = c0) /\
    (Exists (fun a' => ~ within (3 * pad_of a') a' p) moved -> fold_left (fun c a => c && f_alg_interior dot1 dot2 a p) computed c0 = false)).
  2:{ destruct K as (bs & F & K). exists bs. split; [exact F|]. apply (K true). }
  induction H2 as [|a a' l1 l2 [Ha Hs] _ IH].
  - exists []. split; [constructor|]. intros c0. split; [reflexivity|intros X; inversion X].
  - inversion HM as [|? ? [M1 M2] HM']; subst. destruct (IH HM') as (bs & F & K).
    destruct (C161_decides dotm dot1 dot2 d B t a a' p ACC ACC1 ACC2 D HB M1 HP HT HS M2 HN Ha Hs) as (b & Fb & I1 & I2).
    exists (b :: bs). split; [constructor; auto|]. intros c0. cbn [fold_left].
    assert (PA : pad_of a' = pad_of a).
    { assert (HH : headings_near 0 (heading a) (heading a)).
      { assert (Z : forall v, dist v v <= 0) by (intros v; unfold dist; replace (vsub v v) with v0 by vring; rewrite norm_v0; lra).
        destruct M1 as [_ MA]. destruct a; cbn in *; repeat split; try apply Z; tauto. }
      destruct (C161_surface dotm d B t a a' ACC D (proj1 HB) HT HS M2 HN HH Ha) as (_ & _ & _ & S & _). clear - S. destruct a, a'; cbn in *; tauto. }
    split.
    + intros X. inversion X; subst. rewrite I1 by auto. rewrite andb_true_r. apply K. auto.
    + intros X. inversion X as [? ? X1|? ? X1]; subst.
      * rewrite I2 by (rewrite <- PA; exact X1). rewrite andb_false_r. clear. induction bs; cbn; auto.
      * apply K. exact X1.
Qed.

(** Whatever the Rotation class accepts is stiff with d = 1e-6, an exactly orthogonal matrix
    with d = 0. *)
Theorem C161_accepted : forall m o lk bo t,
  (new_rotation m o lk bo = Ok t -> stiff (/ 10 ^ 6) t) /\
  (orthogonal m -> stiff 0 (TMatrix m o lk bo)).
Proof.
  intros m o lk bo t. split.
  - intros H. unfold new_rotation in H. destruct (rotation_ok m) eqn:E; [|discriminate]. injection H as <-. cbn [stiff].
    intros x. pose proof (C33_near_isometry m E x) as [N _]. rewrite <- !norm_sq in N. pose proof (norm_pos x). pose proof (norm_pos (mv m x)).
    assert (P : 0 < / 10 ^ 6 <= / 10) by (split; [apply Rinv_0_lt_compat, pow_lt; lra|apply Rinv_le; lra]).
    set (f := / 10 ^ 6) in *. clearbody f. apply Rsqr_incr_0_var; auto. unfold Rsqr. eapply Rle_trans; [|exact N].
    assert (0 <= norm x * norm x) by nra. nra.
  - intros OM x. rewrite (orth_norm m x OM). pose proof (norm_pos x). lra.
Qed.

(** For up to a thousand million rigid motions the turn is at most n 2^-38. *)
Theorem C161_rigid_turn : forall n, (n <= 2 ^ 30)%nat -> allowed_turn 0 n <= INR n * / 2 ^ 38.
Proof.
  intros n HN. unfold allowed_turn. replace (3 * 0 + / 2 ^ 40) with (/ 2 ^ 40) by ring.
  assert (P40 : 0 < / 2 ^ 40) by (apply Rinv_0_lt_compat, pow_lt; lra). assert (E38 : / 2 ^ 38 = 2 * / 2 ^ 39) by lra.
  assert (P39 : 0 < / 2 ^ 39) by (apply Rinv_0_lt_compat, pow_lt; lra).
  assert (L : INR n * / 2 ^ 40 <= / 2 ^ 10).
  { apply le_INR in HN. rewrite pow_INR in HN. replace (INR 2) with 2 in HN by (cbn; ring). apply Rle_trans with (2 ^ 30 * / 2 ^ 40); [apply Rmult_le_compat_r; lra|lra]. }
  assert (G : forall k, INR k * / 2 ^ 40 <= / 2 ^ 10 -> (1 + / 2 ^ 40) ^ k <= 1 + 2 * (INR k * / 2 ^ 40)).
  { clear - P40. set (f := / 2 ^ 40) in *. clearbody f. assert (T : / 2 ^ 10 <= / 4) by (apply Rinv_le; lra). set (g := / 2 ^ 10) in *. clearbody g.
    induction k as [|k IH]; intros HK; [cbn; lra|]. rewrite S_INR in *. cbn [pow]. pose proof (pos_INR k). specialize (IH ltac:(nra)).
    set (x := INR k) in *. set (y := (1 + f) ^ k) in *. clearbody x y. assert ((1 + f) * y <= (1 + f) * (1 + 2 * (x * f))) by (apply Rmult_le_compat_l; lra).
    assert (f * (x * f) <= f * / 4) by (apply Rmult_le_compat_l; nra). nra. }
  pose proof (G n L) as Q. assert (T : / 2 ^ 10 <= / 4) by (apply Rinv_le; lra). rewrite E38. pose proof (pos_INR n).
  rewrite Rmult_assoc. apply Rmult_le_compat_l; [lra|]. apply Rmult_le_compat_r; lra.
Qed.

Example C161_nonvacuous :
  let quarter := mkM (mkV 0 (-1) 0) (mkV 1 0 0) (mkV 0 0 1) in
  let t := TMulti [TMatrix quarter (Some (mkV 1 0 0)) true false; TTranslation (mkV 0 0 5) true false] in
  let a := ACyl (mkCyl (mkV 1 0 0) (mkV 3 0 1) 2 8 (/ 100000)) in
  let a' := ACyl (mkCyl (mkV 0 1 0) (mkV 1 2 6) 2 8 (/ 100000)) in
  accurate fdot /\ moderate a /\ Forall (tame 0 100) (elementary t) /\ Forall (stiff 0) (elementary t) /\
  stays 100 (elementary t) (anchor a) /\ apply_alg t a = Ok a' /\
  let p := mkV 1 4 7 in
  vmid p /\ within 0 a' p /\ allowed 0 100 2 + dist p (anchor a') * allowed_turn 0 2 <= pad_of a / 8.
Proof.
  intros quarter t a a'. split; [exact fdot_accurate|].
  assert (N3 : forall a b c, Rabs a <= 10 -> Rabs b <= 10 -> Rabs c <= 10 -> norm (mkV a b c) <= 100).
  { intros x b c Ha Hb Hc. eapply Rle_trans; [apply norm_sum|]. cbn. lra. }
  assert (A : forall x, -10 <= x <= 10 -> Rabs x <= 10) by (intros; apply Rabs_le; lra).
  assert (NX : norm (mkV 1 0 0) = 1) by (unfold norm, dot; cbn; replace (1 * 1 + 0 * 0 + 0 * 0) with 1 by ring; apply sqrt_1).
  assert (NY : norm (mkV 0 1 0) = 1) by (unfold norm, dot; cbn; replace (0 * 0 + 1 * 1 + 0 * 0) with 1 by ring; apply sqrt_1).
  assert (OQ : orthogonal quarter) by (unfold orthogonal, quarter; apply mat_eq; apply vec_eq; cbn; unfold dot; cbn; ring).
  assert (VM : forall x y z, -10 <= x <= 10 -> -10 <= y <= 10 -> -10 <= z <= 10 -> vmid (mkV x y z)).
  { intros. unfold vmid, mid, big. cbn [vx vy vz]. repeat split; apply Rabs_le; lra. }
  split; [|split; [|split; [|split; [|split]]]].
  - split; [cbn; unfold big; lra|]. cbn. rewrite NX. replace (1 - 1) with 0 by ring. rewrite Rabs_R0.
    split; [apply VM; lra|]. split; [lra|]. unfold big. lra.
  - cbn [elementary flat_map app t]. constructor; [|constructor; [|constructor]].
    + split; [|cbn; apply N3; apply A; lra]. intros x. rewrite orth_norm; [lra|exact OQ].
    + cbn. apply N3; apply A; lra.
  - cbn [elementary flat_map app t]. constructor; [|constructor; [|constructor]].
    + intros x. rewrite orth_norm; [pose proof (norm_pos x); lra|exact OQ].
    + exact I.
  - cbn [elementary flat_map app t anchor a c_point]. intros before after E.
    destruct before as [|x before]; [cbn; apply N3; apply A; lra|]. injection E as <- E.
    destruct before as [|x before].
    { unfold exact_place. cbn [fold_left apply_pt matrix_pt]. unfold quarter, mv, vadd, vsub, dot. cbn. apply N3; apply A; lra. }
    injection E as <- E. destruct before as [|x before]; [|discriminate].
    unfold exact_place. cbn [fold_left apply_pt matrix_pt]. unfold quarter, mv, vadd, vsub, dot. cbn. apply N3; apply A; lra.
  - unfold t, a. cbn [apply_alg foldM matrix_alg]. unfold cyl_set_axis. cbn [cyl_set_point c_axis c_point c_radius c_length c_tol].
    assert (E : mv quarter (mkV 1 0 0) = mkV 0 1 0) by (unfold quarter; vunfold; cbn; f_equal; ring). rewrite E.
    unfold check_axis. rewrite NY. replace (Rleb 1 eps) with false.
    2:{ symmetry. apply not_true_iff_false. rewrite Rleb_iff. unfold eps. assert (/ 2 ^ 52 <= / 2 ^ 2) by (apply Rinv_le; [apply pow_lt; lra|apply Rle_pow; [lra|lia]]). lra. }
    cbn [bind]. unfold a'. do 2 f_equal. unfold cyl_set_point, matrix_pt, quarter. vunfold. cbn. f_equal; f_equal; field.
  - intros p. split; [apply VM; lra|]. split.
    + exists 2. cbn [c_point c_axis c_radius c_length]. unfold dist. split; [vunfold; cbn; ring|].
      split; [replace (vsub p _) with (mkV 0 0 1) by (unfold p; vunfold; cbn; f_equal; ring)|replace (vsub _ _) with (mkV 0 2 0) by (vunfold; cbn; f_equal; ring)];
        (eapply Rle_trans; [apply norm_sum|]; cbn [vx vy vz]; rewrite ?Rabs_R0, ?Rabs_R1, ?(Rabs_pos_eq 2) by lra; lra).
    + assert (DP : dist p (anchor a') <= 3).
      { unfold dist. replace (vsub p (anchor a')) with (mkV 0 2 1) by (unfold p; vunfold; cbn; f_equal; ring). eapply Rle_trans; [apply norm_sum|]. cbn [vx vy vz]. rewrite Rabs_R0, Rabs_R1, (Rabs_pos_eq 2) by lra. lra. }
      pose proof (C161_rigid_turn 2 ltac:(apply (Nat.pow_le_mono_r 2 1 30); lia)) as TU. pose proof (turn_pos 0 2 ltac:(lra)) as TP.
      replace (INR 2) with 2 in TU by (cbn; ring).
      assert (dist p (anchor a') * allowed_turn 0 2 <= 3 * (2 * / 2 ^ 38)) by (apply Rmult_le_compat; auto; apply norm_pos).
      unfold allowed. replace (INR 2) with 2 by (cbn; ring). replace ((1 + 0) ^ 2) with 1 by ring. cbn [pad_of a c_tol].
      lra.
Qed.
