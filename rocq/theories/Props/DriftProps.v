(** C159, C160: points and crystals moved by many transformations in double precision. *)
From Coq Require Import Reals List Bool ZArith Lra Lia Psatz.
From Flocq Require Import Core.
From Verif.Model Require Import Base Vec Algebraic Transform Voxel Generator Float FloatRot FloatMove.
From Verif.Spec Require Import Geometry AlgSpec CrystalSpec FloatSpec UndoSpec DriftSpec.
From Verif.Proofs Require Import VecFacts AlgFacts VolumeFacts FloatFacts DriftFacts.
From Verif.Props Require Import TransformProps UndoProps.
Import ListNotations.
Open Scope R_scope.

Lemma flat_exact t : forall p, apply_pt t p = exact_place (elementary t) p.
Proof.
  induction t as [s lk bo|m o lk bo|o lk bo|pl lk bo|ts IH] using transform_ind'; intros p; try reflexivity.
  cbn [apply_pt elementary]. unfold exact_place. revert p.
  induction IH as [|t ts Ht Hts IHl]; intros p; [reflexivity|]. cbn [fold_left flat_map]. rewrite fold_left_app.
  rewrite IHl, Ht. reflexivity.
Qed.
Lemma flat_float dotm t : forall p, f_apply_pt dotm t p = fold_left (fun q u => f_apply_pt dotm u q) (elementary t) p.
Proof.
  induction t as [s lk bo|m o lk bo|o lk bo|pl lk bo|ts IH] using transform_ind'; intros p; try reflexivity.
  cbn [f_apply_pt elementary]. revert p.
  induction IH as [|t ts Ht Hts IHl]; intros p; [reflexivity|]. cbn [fold_left flat_map]. rewrite fold_left_app.
  rewrite IHl, Ht. reflexivity.
Qed.
Lemma growth_mono d n : 0 <= d -> INR n * (1 + d) ^ n <= INR (S n) * (1 + d) ^ S n.
Proof.
  intros D. rewrite S_INR. cbn [pow]. pose proof (pos_INR n). pose proof (pow_R1_Rle (1 + d) n ltac:(lra)) as G. set (g := (1 + d) ^ n) in *. clearbody g. set (k := INR n) in *. clearbody k.
  assert (0 <= k * d) by (apply Rmult_le_pos; lra). assert (0 <= k * d * g) by (apply Rmult_le_pos; lra). assert (0 <= d * g) by (apply Rmult_le_pos; lra).
  replace ((k + 1) * ((1 + d) * g)) with (k * g + k * d * g + g + d * g) by ring. lra.
Qed.
Lemma run_gen (F G : transform -> vec -> vec) d B ts p : 0 <= d <= 1 -> 1 <= B ->
  (forall t q, In t ts -> norm q <= 2 * B -> dist (F t q) (G t q) <= / 2 ^ 40 * B) ->
  (forall t a b, In t ts -> dist (G t a) (G t b) <= (1 + d) * dist a b) ->
  (forall before after, ts = before ++ after -> norm (fold_left (fun q u => G u q) before p) <= B) ->
  INR (length ts) * (1 + d) ^ length ts <= 2 ^ 40 ->
  dist (fold_left (fun q u => F u q) ts p) (fold_left (fun q u => G u q) ts p) <= allowed d B (length ts).
Proof.
  intros D HB. induction ts as [|t ts IH] using rev_ind; intros HE HL HS HN.
  - cbn. unfold allowed, dist. replace (vsub p p) with v0 by vring. rewrite norm_v0. cbn. lra.
  - rewrite app_length in *. cbn [length] in *. rewrite Nat.add_1_r in *. set (n := length ts) in *.
    pose proof (growth_mono d n ltac:(lra)) as M.
    assert (E : dist (fold_left (fun q u => F u q) ts p) (fold_left (fun q u => G u q) ts p) <= allowed d B n).
    { apply IH; auto; [intros; apply HE; auto; apply in_or_app; auto|intros; apply HL; apply in_or_app; auto| |lra].
      intros b a Eq. apply (HS b (a ++ [t])). rewrite Eq, app_assoc. reflexivity. }
    pose proof (HS ts [t] eq_refl) as NB. rewrite !fold_left_app. cbn [fold_left].
    set (q := fold_left (fun q u => F u q) ts p) in *. set (x := fold_left (fun q u => G u q) ts p) in *.
    assert (E40 : 0 < / 2 ^ 40) by (apply Rinv_0_lt_compat, pow_lt; lra).
    assert (I40 : 2 ^ 40 * / 2 ^ 40 = 1) by (apply Rinv_r, pow_nonzero; lra).
    assert (IT : In t (ts ++ [t])) by (apply in_or_app; right; left; reflexivity).
    assert (S0 : norm q <= 2 * B -> dist (F t q) (G t q) <= / 2 ^ 40 * B) by (apply HE; auto).
    pose proof (HL t q x IT) as S2. clear HE HL HS IH.
    set (e := / 2 ^ 40) in *. assert (EB : 0 < e * B) by (apply Rmult_lt_0_compat; lra).
    assert (AB : allowed d B n <= B).
    { unfold allowed. fold e. apply Rle_trans with (2 ^ 40 * (e * B)); [apply Rmult_le_compat_r; lra|]. rewrite <- Rmult_assoc, I40. lra. }
    assert (NQ : norm q <= 2 * B).
    { replace q with (vadd (vsub q x) x) by vring. eapply Rle_trans; [apply norm_triangle|]. unfold dist in E. lra. }
    pose proof (S0 NQ) as S1.
    eapply Rle_trans; [apply (dist_triangle _ (G t q))|].
    assert (S3 : (1 + d) * dist q x <= (1 + d) * allowed d B n) by (apply Rmult_le_compat_l; lra).
    unfold allowed in *. fold e. fold e in S3. rewrite S_INR. cbn [pow].
    pose proof (pow_R1_Rle (1 + d) n ltac:(lra)) as GR. set (g := (1 + d) ^ n) in *. set (k := INR n) in *.
    assert (S4 : e * B <= (1 + d) * g * (e * B)) by (assert (1 <= (1 + d) * g) by nra; nra).
    replace ((k + 1) * ((1 + d) * g) * (e * B)) with ((1 + d) * (k * g * (e * B)) + (1 + d) * g * (e * B)) by ring. lra.
Qed.
Lemma run_err dotm d B ts p : accurate dotm -> 0 <= d <= 1 -> 1 <= B ->
  Forall (tame d B) ts -> stays B ts p -> INR (length ts) * (1 + d) ^ length ts <= 2 ^ 40 ->
  dist (fold_left (fun q u => f_apply_pt dotm u q) ts p) (exact_place ts p) <= allowed d B (length ts).
Proof.
  intros ACC D HB HF HS HN. rewrite Forall_forall in HF. apply (run_gen (f_apply_pt dotm) apply_pt); auto.
  - intros t q HT. apply (step_err dotm ACC d B t q D HB); auto.
  - intros t a b HT. apply (step_stretch d B); auto. lra.
Qed.

(** However many transformations, nested in MultiTransforms or one after the other: the
    computed point is within n (1 + d)^n 2^-40 B of the exact one, where n counts the
    elementary transformations and B bounds the places passed, shifts and origins. *)
Theorem C159_drift : forall dotm d B t p, accurate dotm -> 0 <= d <= 1 -> 1 <= B ->
  Forall (tame d B) (elementary t) -> stays B (elementary t) p ->
  INR (length (elementary t)) * (1 + d) ^ length (elementary t) <= 2 ^ 40 ->
  dist (f_apply_pt dotm t p) (apply_pt t p) <= allowed d B (length (elementary t)).
Proof. intros. rewrite flat_float, flat_exact. apply run_err; auto. Qed.

(** Whatever the Rotation class accepts is tame with d = 1e-6, an exactly orthogonal matrix
    with d = 0; so are, with d = 0, inversions and mirror planes with a unit normal. *)
Theorem C159_accepted : forall B m o lk bo t, origin_within B o ->
  (new_rotation m o lk bo = Ok t -> tame (/ 10 ^ 6) B t) /\
  (orthogonal m -> tame 0 B (TMatrix m o lk bo)) /\
  tame 0 B (TInversion o lk bo) /\
  (forall pl, valid_plane pl -> norm (p_point pl) <= B -> tame 0 B (TReflection pl lk bo)).
Proof.
  intros B m o lk bo t HO. split; [|split; [|split]].
  - intros H. unfold new_rotation in H. destruct (rotation_ok m) eqn:E; [|discriminate]. injection H as <-. split; [|exact HO].
    intros x. pose proof (C33_near_isometry m E x) as [_ N]. rewrite <- !norm_sq in N. pose proof (norm_pos x). pose proof (norm_pos (mv m x)).
    apply Rsqr_incr_0_var; [|assert (0 < / 10 ^ 6) by (apply Rinv_0_lt_compat, pow_lt; lra); nra]. unfold Rsqr. eapply Rle_trans; [exact N|].
    assert (0 < / 10 ^ 6) by (apply Rinv_0_lt_compat, pow_lt; lra). nra.
  - intros OM. split; [|exact HO]. intros x. rewrite (orth_norm m x OM). lra.
  - exact HO.
  - intros pl [HN HT] HP. split; [|exact HP]. rewrite HN. replace (1 - 1) with 0 by ring. rewrite Rabs_R0. apply Rlt_le, Rinv_0_lt_compat, pow_lt. lra.
Qed.

(** Rigid motions (d = 0): the rounding error grows at most linearly with their number, and
    the distance between two atoms moved together changes by no more than twice that. *)
Theorem C159_rigid : forall dotm B t p q, accurate dotm -> 1 <= B ->
  Forall (tame 0 B) (elementary t) -> stays B (elementary t) p -> stays B (elementary t) q ->
  (length (elementary t) <= 2 ^ 40)%nat ->
  let slip := INR (length (elementary t)) * (/ 2 ^ 40 * B) in
  dist (f_apply_pt dotm t p) (apply_pt t p) <= slip /\
  Rabs (dist (f_apply_pt dotm t p) (f_apply_pt dotm t q) - dist (apply_pt t p) (apply_pt t q)) <= 2 * slip.
Proof.
  intros dotm B t p q ACC HB HF HP HQ HN slip.
  assert (G : (1 + 0) ^ length (elementary t) = 1) by (replace (1 + 0) with 1 by ring; apply pow1).
  assert (L : INR (length (elementary t)) * (1 + 0) ^ length (elementary t) <= 2 ^ 40).
  { rewrite G, Rmult_1_r. apply le_INR in HN. rewrite pow_INR in HN. replace (INR 2) with 2 in HN by (cbn; ring). exact HN. }
  assert (A : allowed 0 B (length (elementary t)) = slip) by (unfold allowed, slip; rewrite G; ring).
  assert (K : forall x, stays B (elementary t) x -> dist (f_apply_pt dotm t x) (apply_pt t x) <= slip).
  { intros x Hx. rewrite <- A. apply C159_drift; auto; lra. }
  split; [apply K; auto|]. pose proof (K p HP) as Kp. pose proof (K q HQ) as Kq.
  set (p' := f_apply_pt dotm t p) in *. set (q' := f_apply_pt dotm t q) in *. set (a := apply_pt t p) in *. set (b := apply_pt t q) in *.
  pose proof (dist_triangle p' a q'). pose proof (dist_triangle a b q'). pose proof (dist_triangle a p' b). pose proof (dist_triangle p' q' b).
  rewrite (dist_sym b q') in *. rewrite (dist_sym a p') in *. apply Rabs_le. lra.
Qed.

(** A transformation and the one that undoes it bring every point back to where it was, up
    to the displacement allowed for both together. *)
Theorem C159_undone : forall dotm d B t u p, accurate dotm -> 0 <= d <= 1 -> 1 <= B -> undoes t u ->
  let n := (length (elementary t) + length (elementary u))%nat in
  Forall (tame d B) (elementary t ++ elementary u) -> stays B (elementary t ++ elementary u) p -> INR n * (1 + d) ^ n <= 2 ^ 40 ->
  dist (f_apply_pt dotm u (f_apply_pt dotm t p)) p <= allowed d B n.
Proof.
  intros dotm d B t u p ACC D HB HU n HF HS HN.
  pose proof (C159_drift dotm d B (TMulti [t; u]) p ACC D HB) as K. cbn [elementary flat_map] in K. rewrite app_nil_r in K.
  rewrite app_length in K. fold n in K. specialize (K HF HS HN). cbn [f_apply_pt apply_pt fold_left] in K.
  rewrite (C156_points_partial t u HU p) in K. exact K.
Qed.

Example C159_nonvacuous :
  let quarter := mkM (mkV 0 (-1) 0) (mkV 1 0 0) (mkV 0 0 1) in
  let mirror := mkPlane (mkV 0 0 1) (mkV 0 0 2) 1 in
  let t := TMulti [TMatrix quarter (Some (mkV 1 0 0)) true false;
                   TMulti [TTranslation (mkV 0 0 5) true false; TReflection mirror true false]] in
  accurate fdot /\ Forall (tame 0 100) (elementary t) /\ stays 100 (elementary t) (mkV 3 0 1) /\ apply_pt t (mkV 3 0 1) = mkV 1 2 (-2).
Proof.
  intros quarter mirror t. split; [exact fdot_accurate|].
  assert (N3 : forall a b c, Rabs a <= 10 -> Rabs b <= 10 -> Rabs c <= 10 -> norm (mkV a b c) <= 100).
  { intros a b c Ha Hb Hc. eapply Rle_trans; [apply norm_sum|]. cbn. lra. }
  assert (A : forall x, -10 <= x <= 10 -> Rabs x <= 10) by (intros; apply Rabs_le; lra).
  assert (NZ : norm (mkV 0 0 1) = 1) by (unfold norm, dot; cbn; replace (0 * 0 + 0 * 0 + 1 * 1) with 1 by ring; apply sqrt_1).
  split; [|split].
  - cbn [elementary flat_map app t]. constructor; [|constructor; [|constructor; [|constructor]]].
    + split; [|cbn; apply N3; apply A; lra]. intros x. rewrite orth_norm; [lra|]. unfold orthogonal, quarter. apply mat_eq; apply vec_eq; cbn; unfold dot; cbn; ring.
    + cbn. apply N3; apply A; lra.
    + split; [|cbn; apply N3; apply A; lra]. cbn [p_normal mirror]. rewrite NZ. replace (1 - 1) with 0 by ring. rewrite Rabs_R0. apply Rlt_le, Rinv_0_lt_compat, pow_lt. lra.
  - cbn [elementary flat_map app t]. intros before after E.
    destruct before as [|x before]; [cbn; apply N3; apply A; lra|]. injection E as <- E.
    destruct before as [|x before].
    { unfold exact_place. cbn [fold_left apply_pt matrix_pt]. unfold quarter, mv, vadd, vsub, dot. cbn. apply N3; apply A; lra. }
    injection E as <- E. destruct before as [|x before].
    { unfold exact_place. cbn [fold_left apply_pt matrix_pt]. unfold quarter, mv, vadd, vsub, dot. cbn. apply N3; apply A; lra. }
    injection E as <- E. destruct before as [|x before]; [|discriminate].
    unfold exact_place. cbn [fold_left apply_pt matrix_pt]. unfold quarter, mirror, reflection_matrix, msub, mscale, outer, mI, mv, vadd, vsub, vscale, dot. cbn.
    replace (2 / (0 * 0 + 0 * 0 + 1 * 1)) with 2 by field. apply N3; apply A; lra.
  - cbn. unfold quarter, mirror, reflection_matrix, msub, mscale, outer, mI, mv, vadd, vsub, vscale, dot. cbn.
    replace (2 / (0 * 0 + 0 * 0 + 1 * 1)) with 2 by field. f_equal; lra.
Qed.

(** ** Crystals *)
(** what one transformation does to a cell vector *)
Definition turn (t : transform) (c : vec) : vec :=
  match t with
  | TMatrix m _ _ _ => mv m c | TInversion _ _ _ => mv (mscale (-1) mI) c
  | TReflection pl _ _ => mv (reflection_matrix (p_normal pl)) c | _ => c
  end.
Definition f_turn dotm (t : transform) (c : vec) : vec :=
  match t with
  | TMatrix m _ _ _ => f_mv dotm m c | TInversion _ _ _ => f_mv dotm (mscale (-1) mI) c
  | TReflection pl _ _ => f_mv dotm (f_reflection_matrix dotm (p_normal pl)) c | _ => c
  end.
Lemma mm_cols m b : cell_vectors (mm m b) = map (mv m) (cell_vectors b).
Proof. unfold cell_vectors. cbn [map]. repeat f_equal; vring. Qed.
Lemma f_times_cols dotm m b : cell_vectors (f_times dotm m b) = map (f_mv dotm m) (cell_vectors b).
Proof. unfold cell_vectors, f_times. rewrite mt_mt. reflexivity. Qed.
Lemma map_same {A} (l : list A) (f : A -> A) : (forall x, f x = x) -> l = map f l.
Proof. intros H. induction l; cbn; [|rewrite H]; congruence. Qed.
Lemma cols_exact t : forall b, cell_vectors (apply_bases t b) = map (fun c => fold_left (fun q u => turn u q) (elementary t) c) (cell_vectors b).
Proof.
  induction t as [s lk bo|m o lk bo|o lk bo|pl lk bo|ts IH] using transform_ind'; intros b; cbn [apply_bases elementary fold_left turn]; try apply mm_cols.
  - apply map_same. reflexivity.
  - revert b. induction IH as [|t ts Ht Hts IHl]; intros b; cbn [fold_left flat_map]; [apply map_same; reflexivity|].
    rewrite IHl, Ht, map_map. apply map_ext. intros c. rewrite fold_left_app. reflexivity.
Qed.
Lemma cols_float dotm t : forall b, cell_vectors (f_apply_bases dotm t b) = map (fun c => fold_left (fun q u => f_turn dotm u q) (elementary t) c) (cell_vectors b).
Proof.
  induction t as [s lk bo|m o lk bo|o lk bo|pl lk bo|ts IH] using transform_ind'; intros b; cbn [f_apply_bases elementary fold_left f_turn]; try apply f_times_cols.
  - apply map_same. reflexivity.
  - revert b. induction IH as [|t ts Ht Hts IHl]; intros b; cbn [fold_left flat_map]; [apply map_same; reflexivity|].
    rewrite IHl, Ht, map_map. apply map_ext. intros c. rewrite fold_left_app. reflexivity.
Qed.
Lemma turn_err dotm d A B t q : accurate dotm -> 0 <= d <= 1 -> 1 <= A -> tame d B t -> norm q <= 2 * A ->
  dist (f_turn dotm t q) (turn t q) <= / 2 ^ 40 * A.
Proof.
  intros ACC [D0 D1] HA HT HQ.
  assert (Z : dist q q <= / 2 ^ 40 * A).
  { unfold dist. replace (vsub q q) with v0 by vring. rewrite norm_v0. assert (0 < / 2 ^ 40) by (apply Rinv_0_lt_compat, pow_lt; lra). nra. }
  destruct t as [s lk bo|m o lk bo|o lk bo|pl lk bo|ts]; cbn [tame f_turn turn] in *; auto.
  - destruct HT as [HM HO]. apply (matrix_step dotm ACC A m m None q); cbn; auto using close_refl.
    intros x. eapply Rle_trans; [apply HM|]. apply Rmult_le_compat_r; [apply norm_pos|lra].
  - apply (matrix_step dotm ACC A (mscale (-1) mI) (mscale (-1) mI) None q); cbn [origin_within]; auto using close_refl.
    intros x. replace (mv (mscale (-1) mI) x) with (vopp x) by vring. rewrite norm_opp. pose proof (norm_pos x). lra.
  - destruct HT as [HN HP]. apply (matrix_step dotm ACC A _ _ None q); cbn [origin_within]; auto using refl_close.
    intros x. rewrite refl_norm by (apply normal_nonzero; auto). pose proof (norm_pos x). lra.
Qed.
Lemma turn_stretch d B t p q : 0 <= d -> tame d B t -> dist (turn t p) (turn t q) <= (1 + d) * dist p q.
Proof.
  intros D0 HT. assert (W : forall x, norm x <= (1 + d) * norm x) by (intros x; pose proof (norm_pos x); nra).
  destruct t as [s lk bo|m o lk bo|o lk bo|pl lk bo|ts]; cbn [tame turn] in *; unfold dist; rewrite <- ?mv_sub; try apply W.
  - apply HT.
  - replace (mv (mscale (-1) mI) (vsub p q)) with (vopp (vsub p q)) by vring. rewrite norm_opp. apply W.
  - rewrite refl_norm by (apply normal_nonzero, HT). apply W.
Qed.
Lemma elementary_flat ts : elementary (TMulti ts) = flat_map elementary ts. Proof. reflexivity. Qed.
Lemma f_history dotm ts : forall b o, fold_left (f_move dotm) ts (b, o) =
  (f_apply_bases dotm (TMulti ts) b, f_apply_pt dotm (TMulti (filter (fun t => negb (basis_only t)) ts)) o).
Proof.
  induction ts as [|t ts IH]; intros b o; [reflexivity|]. cbn [fold_left]. unfold f_move at 2. cbn [fst snd]. rewrite IH.
  cbn [f_apply_bases filter]. destruct (basis_only t); cbn [negb f_apply_pt]; reflexivity.
Qed.
Lemma exact_history ts : forall g g', foldM crystal_transform ts g = Ok g' ->
  vo_bases (g_voxel g') = apply_bases (TMulti ts) (vo_bases (g_voxel g)) /\
  vo_origin (g_voxel g') = apply_pt (TMulti (filter (fun t => negb (basis_only t)) ts)) (vo_origin (g_voxel g)).
Proof.
  induction ts as [|t ts IH]; intros g g' H; cbn [foldM] in H; [injection H as <-; split; reflexivity|].
  apply bind_Ok in H. destruct H as [g1 [T H]]. apply IH in H. destruct H as [H1 H2].
  unfold crystal_transform in T. apply bind_Ok in T. destruct T as [v [V T]]. injection T as <-.
  unfold set_bases in V. apply bind_Ok in V. destruct V as [b [C V]]. injection V as <-.
  assert (E : b = apply_bases t (vo_bases (g_voxel g))).
  { unfold check_bases in C. destruct (collinear _ _); [discriminate|]. destruct (collinear _ _); [discriminate|]. destruct (collinear _ _); [discriminate|]. congruence. }
  subst b. cbn [g_voxel] in H1, H2. cbn [apply_bases fold_left filter].
  destruct (basis_only t); cbn [negb set_vorigin vo_bases vo_origin] in *; split; auto.
Qed.

(** A crystal transformed by any history of Generator.transform calls: its computed cell
    vectors, origin and sites against the exact ones.  [A] bounds the cell vectors on the
    way, [B] the origin. *)
Theorem C160_crystal : forall dotm d A B ts g g', accurate dotm -> 0 <= d <= 1 -> 1 <= A -> 1 <= B ->
  foldM crystal_transform ts g = Ok g' ->
  let all := flat_map elementary ts in
  let moving := flat_map elementary (filter (fun t => negb (basis_only t)) ts) in
  Forall (tame d B) all -> cell_within A all (vo_bases (g_voxel g)) -> stays B moving (vo_origin (g_voxel g)) ->
  INR (length all) * (1 + d) ^ length all <= 2 ^ 40 ->
  let '(b, o) := fold_left (f_move dotm) ts (vo_bases (g_voxel g), vo_origin (g_voxel g)) in
  let v := g_voxel g' in
  Forall2 (fun c c' => dist c c' <= allowed d A (length all)) (cell_vectors b) (cell_vectors (vo_bases v)) /\
  dist o (vo_origin v) <= allowed d B (length moving) /\
  forall na nb nc f,
    dist (lattice_site b o (na, nb, nc) f) (lattice_site (vo_bases v) (vo_origin v) (na, nb, nc) f) <=
      (Rabs (IZR na + vx f) + Rabs (IZR nb + vy f) + Rabs (IZR nc + vz f)) * allowed d A (length all) + allowed d B (length moving).
Proof.
  intros dotm d A B ts g g' ACC D HA HB HG all moving HF HC HS HN. rewrite f_history.
  destruct (exact_history ts g g' HG) as [E1 E2]. cbv zeta. rewrite E1, E2. clear E1 E2 HG.
  set (b0 := vo_bases (g_voxel g)) in *. set (o0 := vo_origin (g_voxel g)) in *.
  assert (HM : Forall (tame d B) moving).
  { rewrite Forall_forall in *. intros u Hu. apply HF. unfold moving, all in *. apply in_flat_map in Hu. destruct Hu as (t & Ht & Hu).
    apply filter_In in Ht. apply in_flat_map. exists t. tauto. }
  assert (LE : (length moving <= length all)%nat).
  { unfold moving, all. clear. induction ts as [|t ts IH]; [apply le_n|]. cbn [filter flat_map]. rewrite app_length. destruct (basis_only t); cbn [negb flat_map]; [lia|]. rewrite app_length. lia. }
  assert (HN' : INR (length moving) * (1 + d) ^ length moving <= 2 ^ 40).
  { eapply Rle_trans; [|exact HN]. apply Rmult_le_compat; [apply pos_INR|apply pow_le; lra|apply le_INR; exact LE|apply Rle_pow; [lra|exact LE]]. }
  assert (F2 : Forall2 (fun c c' => dist c c' <= allowed d A (length all)) (cell_vectors (f_apply_bases dotm (TMulti ts) b0)) (cell_vectors (apply_bases (TMulti ts) b0))).
  { rewrite cols_float, cols_exact, elementary_flat. fold all.
    assert (K : forall c, In c (cell_vectors b0) -> dist (fold_left (fun q u => f_turn dotm u q) all c) (fold_left (fun q u => turn u q) all c) <= allowed d A (length all)).
    { intros c Hc. rewrite Forall_forall in HF. apply run_gen; auto.
      - intros t q Ht Hq. apply (turn_err dotm d A B t q); auto.
      - intros t x y Ht. apply (turn_stretch d B); auto. lra.
      - intros before after E. pose proof (HC before after E) as W. rewrite cols_exact, elementary_flat in W.
        assert (EL : flat_map elementary before = before).
        { assert (EA : Forall (tame d B) before) by (apply Forall_forall; intros u Hu; apply HF; rewrite E; apply in_or_app; auto).
          clear - EA. induction EA as [|u l Hu _ IH]; [reflexivity|]. cbn [flat_map]. rewrite IH. destruct u; cbn in *; try reflexivity. destruct Hu. }
        rewrite EL in W. rewrite Forall_forall in W. apply W. apply in_map_iff. exists c. auto. }
    clear - K. induction (cell_vectors b0) as [|c l IH]; cbn [map]; constructor; [apply K; left; auto|apply IH; intros; apply K; right; auto]. }
  assert (FO : dist (f_apply_pt dotm (TMulti (filter (fun t => negb (basis_only t)) ts)) o0) (apply_pt (TMulti (filter (fun t => negb (basis_only t)) ts)) o0) <= allowed d B (length moving)).
  { apply (C159_drift dotm d B (TMulti (filter (fun t => negb (basis_only t)) ts)) o0); auto. }
  split; [exact F2|]. split; [exact FO|]. intros na nb nc f.
  set (b := f_apply_bases dotm (TMulti ts) b0) in *. set (b' := apply_bases (TMulti ts) b0) in *.
  set (o := f_apply_pt dotm _ o0) in *. set (o' := apply_pt _ o0) in *.
  unfold cell_vectors in F2. inversion F2 as [|? ? ? ? G0 F3]; subst. inversion F3 as [|? ? ? ? G1 F4]; subst. inversion F4 as [|? ? ? ? G2 _]; subst.
  unfold lattice_site, zvec. set (x := IZR na + vx f). set (y := IZR nb + vy f). set (z := IZR nc + vz f).
  assert (E : vsub (vadd (mv b (vadd (mkV (IZR na) (IZR nb) (IZR nc)) f)) o) (vadd (mv b' (vadd (mkV (IZR na) (IZR nb) (IZR nc)) f)) o') =
     vadd (vadd (vadd (vscale x (vsub (r0 (mt b)) (r0 (mt b')))) (vscale y (vsub (r1 (mt b)) (r1 (mt b'))))) (vscale z (vsub (r2 (mt b)) (r2 (mt b'))))) (vsub o o')).
  { unfold x, y, z. clear. vring. }
  unfold dist in *. rewrite E. eapply Rle_trans; [apply norm_triangle|]. apply Rplus_le_compat; [|exact FO].
  eapply Rle_trans; [apply norm_triangle|]. rewrite !Rmult_plus_distr_r. apply Rplus_le_compat; [eapply Rle_trans; [apply norm_triangle|apply Rplus_le_compat]|];
    rewrite norm_scale; (apply Rmult_le_compat_l; [apply Rabs_pos|assumption]).
Qed.
Lemma not_collinear a b : dot a b = 0 -> collinear a b = false.
Proof.
  intros H. unfold collinear. destruct (Reqb (norm a * norm b) 0) eqn:E; [reflexivity|]. rewrite H. unfold Rdiv. rewrite Rmult_0_l, Rabs_R0.
  apply Reqb_false. lra.
Qed.
Example C160_nonvacuous :
  let quarter := mkM (mkV 0 (-1) 0) (mkV 1 0 0) (mkV 0 0 1) in
  let ts := [TMatrix quarter (Some (mkV 1 0 0)) true false; TMulti [TTranslation (mkV 0 0 5) true false]; TInversion None true true] in
  let g := mkCrystal (mkStruct (mscale 4 mI) [v0] [14%Z]) (mkVoxel (mscale 4 mI) (SAll 1) (mkV 3 0 1)) None None in
  let all := flat_map elementary ts in
  let moving := flat_map elementary (filter (fun t => negb (basis_only t)) ts) in
  Forall (tame 0 100) all /\ cell_within 4 all (vo_bases (g_voxel g)) /\ stays 100 moving (vo_origin (g_voxel g)) /\
  exists g', foldM crystal_transform ts g = Ok g' /\ vo_origin (g_voxel g') = mkV 1 2 6.
Proof.
  intros quarter ts g all moving.
  assert (N3 : forall a b c, Rabs a <= 10 -> Rabs b <= 10 -> Rabs c <= 10 -> norm (mkV a b c) <= 100).
  { intros a b c Ha Hb Hc. eapply Rle_trans; [apply norm_sum|]. cbn. lra. }
  assert (A : forall x, -10 <= x <= 10 -> Rabs x <= 10) by (intros; apply Rabs_le; lra).
  assert (OQ : orthogonal quarter) by (unfold orthogonal, quarter; apply mat_eq; apply vec_eq; cbn; unfold dot; cbn; ring).
  assert (HF : Forall (tame 0 100) all).
  { unfold all, ts. cbn [flat_map elementary app]. constructor; [|constructor; [|constructor; [|constructor]]].
    - split; [|cbn; apply N3; apply A; lra]. intros x. rewrite orth_norm; [lra|exact OQ].
    - cbn. apply N3; apply A; lra.
    - exact I. }
  split; [exact HF|]. split; [|split].
  - intros before after E. rewrite cols_exact, elementary_flat.
    assert (EL : Forall (tame 0 100) before) by (rewrite E in HF; apply Forall_app in HF; tauto).
    assert (K : forall c, norm (fold_left (fun q u => turn u q) (flat_map elementary before) c) <= norm c).
    { clear - EL. induction EL as [|u l Hu _ IH]; intros c; [apply Rle_refl|]. cbn [flat_map]. rewrite fold_left_app. eapply Rle_trans; [apply IH|].
      pose proof (turn_stretch 0 100 u c v0 ltac:(lra) Hu) as S. unfold dist in S.
      assert (Z : forall x, vsub x v0 = x) by (intros; vring). assert (Z' : forall m, mv m v0 = v0) by (intros; vring).
      destruct u as [s lk bo|m o lk bo|o lk bo|pl lk bo|us]; cbn [turn elementary fold_left tame] in *; rewrite ?Z', ?Z in S; try lra. }
    apply Forall_forall. intros c Hc. apply in_map_iff in Hc. destruct Hc as (c0 & <- & Hc). eapply Rle_trans; [apply K|].
    assert (N4 : sqrt (4 * 4) = 4) by (apply sqrt_square; lra).
    cbn in Hc. destruct Hc as [<-|[<-|[<-|[]]]]; unfold norm, dot; cbn; (apply Rle_trans with (sqrt (4 * 4)); [apply Req_le; f_equal; ring|rewrite N4; apply Rle_refl]).
  - unfold moving, ts. cbn [filter basis_only negb existsb orb flat_map elementary app]. intros before after E.
    destruct before as [|x before]; [cbn; apply N3; apply A; lra|]. injection E as <- E.
    destruct before as [|x before].
    { unfold exact_place. cbn [fold_left apply_pt matrix_pt]. unfold quarter, mv, vadd, vsub, dot. cbn. apply N3; apply A; lra. }
    injection E as <- E. destruct before as [|x before]; [|discriminate].
    unfold exact_place. cbn [fold_left apply_pt matrix_pt]. unfold quarter, mv, vadd, vsub, dot. cbn. apply N3; apply A; lra.
  - assert (CK : forall b, dot (r0 b) (r1 b) = 0 -> dot (r0 b) (r2 b) = 0 -> dot (r1 b) (r2 b) = 0 -> check_bases b = Ok b).
    { intros b H1 H2 H3. unfold check_bases. rewrite !not_collinear by auto. reflexivity. }
    eexists. split.
    + unfold ts, g. cbn [foldM]. unfold crystal_transform at 1, set_bases. cbn [g_voxel vo_bases vo_scale vo_origin apply_bases].
      rewrite CK by (unfold quarter; vunfold; cbn; ring). cbn [bind].
      unfold crystal_transform at 1, set_bases. cbn [g_voxel vo_bases vo_scale vo_origin apply_bases basis_only existsb orb set_vorigin fold_left g_structure g_strain g_post].
      rewrite CK by (unfold quarter; vunfold; cbn; ring). cbn [bind].
      unfold crystal_transform at 1, set_bases. cbn [g_voxel vo_bases vo_scale vo_origin apply_bases basis_only existsb orb set_vorigin fold_left g_structure g_strain g_post].
      rewrite CK by (unfold quarter; vunfold; cbn; ring). cbn [bind]. reflexivity.
    + cbn [g_voxel set_vorigin vo_origin basis_only existsb orb apply_pt fold_left matrix_pt]. unfold quarter. vunfold. cbn. f_equal; ring.
Qed.
