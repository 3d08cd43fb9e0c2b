(** C162: a volume and its crystal moved many times and then populated, in double
    precision. *)
From Coq Require Import Reals List Bool ZArith Lra Lia Psatz Classical.
From Flocq Require Import Core.
From Verif.Model Require Import Base Vec Algebraic Transform Voxel Generator Volume Float FloatRot FloatMove.
From Verif.Spec Require Import Geometry AlgSpec CrystalSpec FloatSpec DriftSpec.
From Verif.Proofs Require Import VecFacts AlgFacts VolumeFacts FloatFacts DriftFacts DriftSurfFacts.
From Verif.Props Require Import TransformProps GeneratorProps DriftProps DriftSurfProps FloatProps FloatSupplyProps.
Import ListNotations.
Open Scope R_scope.

Lemma allowed_mono d B n m : 0 <= d -> 0 <= B -> (n <= m)%nat -> allowed d B n <= allowed d B m.
Proof.
  intros D HB L. unfold allowed. assert (P40 : 0 < / 2 ^ 40) by (apply Rinv_0_lt_compat, pow_lt; lra).
  apply Rmult_le_compat_r; [apply Rmult_le_pos; lra|]. apply Rmult_le_compat; [apply pos_INR|apply pow_le; lra|apply le_INR; exact L|apply Rle_pow; [lra|exact L]].
Qed.
Lemma allowed_pos d B n : 0 <= d -> 0 <= B -> 0 <= allowed d B n.
Proof. intros. pose proof (allowed_mono d B 0 n ltac:(lra) ltac:(lra) ltac:(lia)) as M. unfold allowed in M at 1. cbn in M. lra. Qed.
Lemma allowed_bound d B n : 0 <= B -> INR n * (1 + d) ^ n <= 2 ^ 40 -> allowed d B n <= B.
Proof.
  intros HB HN. unfold allowed. assert (I40 : 2 ^ 40 * / 2 ^ 40 = 1) by (apply Rinv_r, pow_nonzero; lra). assert (P40 : 0 < / 2 ^ 40) by (apply Rinv_0_lt_compat, pow_lt; lra).
  apply Rle_trans with (2 ^ 40 * (/ 2 ^ 40 * B)); [apply Rmult_le_compat_r; [apply Rmult_le_pos; lra|exact HN]|]. rewrite <- Rmult_assoc, I40. lra.
Qed.
Lemma norm_vmid v : norm v <= 2 ^ 20 -> vmid v.
Proof. intros H. destruct (comp_norm v) as (c1 & c2 & c3). unfold vmid, mid, big. repeat split; lra. Qed.

(** what the computed surface [b] is to the exact one [a'] *)
Definition follows (e t : R) (a' b : alg) : Prop :=
  same_make a' b /\ dist (anchor b) (anchor a') <= e /\ headings_near t (heading a') (heading b) /\ moderate a' /\ moderate b /\ pad_of b = pad_of a'.
Lemma surfaces_follow dotm d B t algs moved : accurate dotm -> 0 <= d <= / 4 -> 1 <= B <= 2 ^ 19 ->
  let n := length (elementary t) in
  Forall (tame d B) (elementary t) -> Forall (stiff d) (elementary t) -> INR n * (1 + d) ^ n <= 2 ^ 40 ->
  Forall (fun a => moderate a /\ stays B (elementary t) (anchor a)) algs ->
  Forall2 (fun a a' => apply_alg t a = Ok a') algs moved ->
  exists computed, Forall2 (fun a b => f_apply_alg dotm t a = Ok b) algs computed /\ Forall2 (follows (allowed d B n) (allowed_turn d n)) moved computed /\
    ((exists s, In (ASphere s) algs) -> exists s, In (ASphere s) computed).
Proof.
  intros ACC D HB n HT HS HN HM H2. induction H2 as [|a a' l1 l2 Ha _ IH].
  - exists []. repeat split; try constructor. intros [s []].
  - inversion HM as [|? ? [MA ST] HM']; subst. destruct (IH HM') as (bs & F1 & F2 & SP).
    assert (HH : headings_near 0 (heading a) (heading a)).
    { assert (Z : forall v, dist v v <= 0) by (intros v; unfold dist; replace (vsub v v) with v0 by vring; rewrite norm_v0; lra).
      destruct MA as [_ MA]. destruct a; cbn in *; repeat split; try apply Z; tauto. }
    destruct (C161_surface dotm d B t a a' ACC D (proj1 HB) HT HS ST HN HH Ha) as (b & F & M1 & M2 & A1 & A2 & N). fold n in A2, N.
    exists (b :: bs). split; [constructor; auto|].
    assert (M3 : same_make a' b) by (clear - M1 M2; destruct a, a', b; cbn in *; try tauto; intuition congruence).
    assert (X : norm (anchor a') <= B) by (rewrite A1, flat_exact; apply (ST (elementary t) []); rewrite app_nil_r; reflexivity).
    pose proof (allowed_bound d B n ltac:(lra) HN) as Y.
    assert (NB : norm (anchor b) <= 2 ^ 20).
    { pose proof (diff_norm (anchor b) (anchor a')) as T. unfold dist in A2. assert (2 ^ 20 = 2 * 2 ^ 19) by lra. lra. }
    assert (VA : vmid (anchor a')) by (apply norm_vmid; lra). assert (VB : vmid (anchor b)) by (apply norm_vmid; exact NB).
    assert (PA : pad_of a' = pad_of a) by (clear - M2; destruct a, a'; cbn in *; tauto).
    assert (PB : pad_of b = pad_of a') by (clear - M3; destruct a', b; cbn in *; tauto).
    destruct MA as [MA1 MA2]. split.
    + constructor; [|exact F2]. split; [exact M3|]. split; [exact A2|]. split; [exact N|]. split; [|split; [|exact PB]].
      * split; [rewrite PA; exact MA1|]. clear - MA2 M2 M3 VA N. destruct a, a'; cbn in M2; try tauto; destruct b; cbn in M3; try tauto; cbn [anchor heading headings_near] in *.
        -- destruct M2 as [-> _]. tauto.
        -- tauto.
        -- destruct M2 as (-> & -> & _). tauto.
      * split; [rewrite PB, PA; exact MA1|]. clear - MA2 M1 M2 M3 VB N. destruct a, b; cbn in M1; try tauto; destruct a'; cbn in M2; try tauto; cbn [anchor heading headings_near] in *.
        -- destruct M1 as [-> _]. tauto.
        -- tauto.
        -- destruct M1 as (-> & -> & _). tauto.
    + intros [s [->|I]].
      * destruct b as [s'| |]; cbn in M1; try contradiction. exists s'. left. reflexivity.
      * destruct SP as [s' I']; [exists s; exact I|]. exists s'. right. exact I'.
Qed.

Lemma triple_bound u v w : Rabs (dot u (cross v w)) <= norm u * (norm v * norm w).
Proof.
  eapply Rle_trans; [apply cauchy|]. apply Rmult_le_compat_l; [apply norm_pos|].
  pose proof (norm_pos v). pose proof (norm_pos w). pose proof (norm_pos (cross v w)).
  apply Rsqr_incr_0; [|auto|apply Rmult_le_pos; auto]. unfold Rsqr.
  replace (norm v * norm w * (norm v * norm w)) with ((norm v * norm v) * (norm w * norm w)) by ring. rewrite !norm_sq.
  assert (L : dot v v * dot w w - dot (cross v w) (cross v w) = dot v w * dot v w) by (vunfold; cbn; ring).
  pose proof (Rle_0_sqr (dot v w)) as Q. unfold Rsqr in Q. lra.
Qed.
Lemma solid_det A e b b' : 0 <= e <= A ->
  Forall2 (fun c c' => dist c c' <= e) (cell_vectors b) (cell_vectors b') -> Forall (fun c => norm c <= A) (cell_vectors b') ->
  7 * (A * A * e) < Rabs (det b') -> det b <> 0.
Proof.
  intros HE F N HD Z. unfold cell_vectors in *.
  inversion F as [|? ? ? ? F0 F']; subst. inversion F' as [|? ? ? ? F1 F'']; subst. inversion F'' as [|? ? ? ? F2 _]; subst.
  inversion N as [|? ? N0 N']; subst. inversion N' as [|? ? N1 N'']; subst. inversion N'' as [|? ? N2 _]; subst.
  change (dist (r0 (mt b)) (r0 (mt b')) <= e) in F0. change (dist (r1 (mt b)) (r1 (mt b')) <= e) in F1. change (dist (r2 (mt b)) (r2 (mt b')) <= e) in F2.
  change (norm (r0 (mt b')) <= A) in N0. change (norm (r1 (mt b')) <= A) in N1. change (norm (r2 (mt b')) <= A) in N2. clear F F' F'' N N' N''.
  rewrite <- det_mt in Z. rewrite <- det_mt in HD. unfold det in Z, HD.
  set (x := r0 (mt b)) in *. set (y := r1 (mt b)) in *. set (z := r2 (mt b)) in *. set (x' := r0 (mt b')) in *. set (y' := r1 (mt b')) in *. set (z' := r2 (mt b')) in *. clearbody x y z x' y' z'.
  assert (E : dot x' (cross y' z') = dot x (cross y z) - (dot (vsub x x') (cross y z) + dot x' (cross (vsub y y') z) + dot x' (cross y' (vsub z z')))) by (vunfold; cbn; ring).
  rewrite E, Z in HD.
  pose proof (diff_norm y y') as Ly. pose proof (diff_norm z z') as Lz. unfold dist in *.
  assert (My : norm y <= 2 * A) by lra. assert (Mz : norm z <= 2 * A) by lra.
  assert (P : forall v, 0 <= norm v) by apply norm_pos.
  assert (T1 : Rabs (dot (vsub x x') (cross y z)) <= e * (2 * A * (2 * A))).
  { eapply Rle_trans; [apply triple_bound|]. apply Rmult_le_compat; auto; [apply Rmult_le_pos; auto|]. apply Rmult_le_compat; auto. }
  assert (T2 : Rabs (dot x' (cross (vsub y y') z)) <= A * (e * (2 * A))).
  { eapply Rle_trans; [apply triple_bound|]. apply Rmult_le_compat; auto; [apply Rmult_le_pos; auto|]. apply Rmult_le_compat; auto. }
  assert (T3 : Rabs (dot x' (cross y' (vsub z z'))) <= A * (A * e)).
  { eapply Rle_trans; [apply triple_bound|]. apply Rmult_le_compat; auto; [apply Rmult_le_pos; auto|]. apply Rmult_le_compat; auto. }
  set (t1 := dot (vsub x x') (cross y z)) in *. set (t2 := dot x' (cross (vsub y y') z)) in *. set (t3 := dot x' (cross y' (vsub z z'))) in *. clearbody t1 t2 t3.
  assert (T : Rabs (0 - (t1 + t2 + t3)) <= Rabs t1 + Rabs t2 + Rabs t3).
  { replace (0 - (t1 + t2 + t3)) with (- (t1 + t2 + t3)) by ring. rewrite Rabs_Ropp. pose proof (Rabs_triang (t1 + t2) t3). pose proof (Rabs_triang t1 t2). lra. }
  assert (e * (2 * A * (2 * A)) + A * (e * (2 * A)) + A * (A * e) = 7 * (A * A * e)) by ring. lra.
Qed.
Lemma flat_elementary ts : flat_map elementary (flat_map elementary ts) = flat_map elementary ts.
Proof.
  assert (G : forall t, flat_map elementary (elementary t) = elementary t).
  { induction t as [s lk bo|m o lk bo|o lk bo|pl lk bo|us IH] using transform_ind'; try reflexivity. cbn [elementary].
    induction IH as [|u us Hu _ IHl]; [reflexivity|]. cbn [flat_map]. rewrite flat_map_app, Hu, IHl. reflexivity. }
  induction ts as [|t ts IH]; [reflexivity|]. cbn [flat_map]. rewrite flat_map_app, G, IH. reflexivity.
Qed.
Lemma light_site A b k f : 0 <= A -> Forall (fun c => norm c <= 2 * A) (cell_vectors b) -> moderate_site A k f -> light b k f.
Proof.
  intros HA H. unfold cell_vectors in H. inversion H as [|? ? H0 H']; subst. inversion H' as [|? ? H1 H'']; subst. inversion H'' as [|? ? H2 _]; subst.
  destruct k as [[x y] z]. unfold moderate_site, light, big. intros M.
  destruct (comp_norm (r0 (mt b))) as (a1 & a2 & a3), (comp_norm (r1 (mt b))) as (b1 & b2 & b3), (comp_norm (r2 (mt b))) as (c1 & c2 & c3).
  assert (G : forall u v w' s t r, Rabs u <= 2 * A -> Rabs v <= 2 * A -> Rabs w' <= 2 * A -> 0 <= s -> 0 <= t -> 0 <= r -> (s + t + r) * A <= 2 ^ 21 ->
    Rabs u * s + Rabs v * t + Rabs w' * r <= 4 * 2 ^ 20).
  { intros u v w' s t r U V W S T R Q. assert (Rabs u * s <= 2 * A * s) by (apply Rmult_le_compat_r; auto). assert (Rabs v * t <= 2 * A * t) by (apply Rmult_le_compat_r; auto).
    assert (Rabs w' * r <= 2 * A * r) by (apply Rmult_le_compat_r; auto). assert (2 * A * s + 2 * A * t + 2 * A * r = 2 * ((s + t + r) * A)) by ring. assert (4 * 2 ^ 20 = 2 * 2 ^ 21) by lra. lra. }
  assert (P : forall u v, 0 <= Rabs u + Rabs v) by (intros u v; pose proof (Rabs_pos u); pose proof (Rabs_pos v); lra).
  cbn [mt r0 r1 r2 vx vy vz] in *. repeat split; (apply G; [..|exact M]; try apply P); eapply Rle_trans; eassumption.
Qed.

(** Computed surfaces, cell and origin exist.  Every atom of the populated volume is, up to
    slip and drift, a site of the exactly moved crystal, of the right species, and within four
    tolerances of every exactly moved surface; and every site that lies deeper in the exactly
    moved bodies than the drift is there. *)
Theorem C162_filled : forall w dotm dot1 dot2 frac d A B ts l moved g g', accurate dotm -> accurate dot1 -> accurate dot2 ->
  carried d A B ts l moved g g' ->
  let n := length (flat_map elementary ts) in
  let p k f := lattice_site (basis_of g') (origin_of g') k f in
  let drift a' k f := 4 * (allowed d B n + (dist (p k f) (anchor a') + site_drift d A B n k f) * allowed_turn d n) + 2 * site_drift d A B n k f in
  exists computed b o,
    Forall2 (fun a c => f_apply_alg dotm (TMulti ts) a = Ok c) (l_alg l) computed /\
    fold_left (f_move dotm) ts (vo_bases (g_voxel g), vo_origin (g_voxel g)) = (b, o) /\
    let l1 := with_alg l computed in
    let g1 := mkCrystal (g_structure g') (mkVoxel b (SAll 1) o) None None in
    (forall ats q z, f_populate w dotm dot1 dot2 frac l1 g1 = Ok ats -> In (q, z) ats ->
       exists k f, In (f, z) (cell_sites g') /\ (moderate_site A k f ->
         dist q (p k f) <= slip + site_drift d A B n k f /\
         (norm (p k f) + site_drift d A B n k f <= 2 ^ 18 -> Forall (fun a' => drift a' k f <= pad_of a') moved ->
          Forall (fun a' => within (4 * pad_of a') a' (p k f)) moved))) /\
    (forall delta, (exists s, In (ASphere s) (l_alg l)) -> solid_cell A (allowed d A n) g' ->
       (forall box, get_bounding_box w l1 = BArr box -> corners_within delta b o frac box) ->
       exists ats, f_populate w dotm dot1 dot2 frac l1 g1 = Ok ats /\
       forall k f z, In (f, z) (cell_sites g') -> clear_of delta f -> moderate_site A k f -> norm (p k f) + site_drift d A B n k f <= 2 ^ 18 ->
         Forall (fun a' => within (- drift a' k f) a' (p k f)) moved ->
         exists q, In (q, z) ats /\ dist q (p k f) <= slip + site_drift d A B n k f).
Proof.
  intros w dotm dot1 dot2 frac d A B ts l moved g g' ACC ACC1 ACC2 (D & HA & HB & HT & HS & HN & LP & LT & HM & H2 & HG & SC & CW & SO) n p drift.
  destruct (surfaces_follow dotm d B (TMulti ts) (l_alg l) moved ACC D HB HT HS HN HM H2) as (computed & F1 & F2 & SP).
  change (length (elementary (TMulti ts))) with n in F2.
  pose proof (C160_crystal dotm d A B ts g g' ACC ltac:(lra) HA (proj1 HB) HG HT CW SO HN) as K.
  destruct (fold_left (f_move dotm) ts (vo_bases (g_voxel g), vo_origin (g_voxel g))) as [b o] eqn:EF. cbv zeta in K. destruct K as (KC & KO & KS).
  set (mv_ := flat_map elementary (filter (fun t => negb (basis_only t)) ts)) in *.
  assert (LE : (length mv_ <= n)%nat).
  { unfold mv_, n. clear. induction ts as [|t ts IH]; [apply le_n|]. cbn [filter flat_map]. rewrite app_length. destruct (basis_only t); cbn [negb flat_map]; [lia|]. rewrite app_length. lia. }
  pose proof (allowed_mono d B _ _ ltac:(lra) ltac:(lra) LE) as LO. fold n in KS.
  exists computed, b, o. split; [exact F1|]. split; [reflexivity|]. intros l1 g1.
  assert (EB : basis_of g' = vo_bases (g_voxel g')) by (unfold sbases; rewrite SC; apply mscale_1).
  assert (E1 : basis_of g1 = b) by (apply mscale_1). assert (EO : origin_of g1 = o) by reflexivity.
  set (p1 := fun k f => lattice_site b o k f).
  assert (DP : forall k f, dist (p1 k f) (p k f) <= site_drift d A B n k f).
  { intros [[a b'] c] f. unfold p1, p. rewrite EB. eapply Rle_trans; [apply KS|]. cbn [site_drift]. lra. }
  assert (SD0 : forall k f, 0 <= site_drift d A B n k f) by (intros k f; eapply Rle_trans; [apply norm_pos|apply (DP k f)]).
  assert (VO : vmid o).
  { apply norm_vmid. pose proof (diff_norm o (vo_origin (g_voxel g'))) as T. unfold dist in KO.
    destruct (exact_history ts g g' HG) as [_ E2].
    assert (NO : norm (vo_origin (g_voxel g')) <= B) by (rewrite E2, flat_exact, elementary_flat; apply (SO mv_ []); rewrite app_nil_r; reflexivity).
    pose proof (allowed_bound d B n ltac:(lra) HN). assert (2 ^ 20 = 2 * 2 ^ 19) by lra. lra. }
  assert (MC : Forall moderate (l_alg l1)) by (clear - F2; cbn; induction F2 as [|? ? ? ? (_ & _ & _ & _ & ? & _)]; constructor; auto).
  assert (IN : forall k f, norm (p k f) + site_drift d A B n k f <= 2 ^ 18 -> inner (p1 k f)).
  { intros k f H. assert (NP : norm (p1 k f) <= 2 ^ 18) by (pose proof (diff_norm (p1 k f) (p k f)) as T; pose proof (DP k f) as T2; unfold dist in T2; lra).
    unfold inner. apply norm_vmid. rewrite norm_scale, Rabs_pos_eq by lra. lra. }
  assert (TP : 0 <= allowed_turn d n) by (apply turn_pos; lra).
  destruct (exact_history ts g g' HG) as [E0 _].
  pose proof (CW (flat_map elementary ts) [] ltac:(rewrite app_nil_r; reflexivity)) as CN.
  assert (EC : cell_vectors (apply_bases (TMulti (flat_map elementary ts)) (vo_bases (g_voxel g))) = cell_vectors (vo_bases (g_voxel g')))
    by (rewrite E0, !cols_exact, !elementary_flat, flat_elementary; reflexivity).
  rewrite EC in CN. fold n in KC. pose proof (allowed_bound d A n ltac:(lra) HN) as YA.
  assert (LS : forall k f, moderate_site A k f -> light b k f).
  { intros k f. apply light_site; [lra|]. revert KC CN. generalize (cell_vectors (vo_bases (g_voxel g'))) (cell_vectors b). clear - YA.
    intros es cs KC. induction KC as [|c c' l1 l2 H _ IH]; intros CN; [constructor|].
    inversion CN as [|? ? C1 C2]; subst. constructor; [|apply IH; exact C2]. pose proof (diff_norm c c') as T. unfold dist in H. lra. }
  split.
  - intros ats q z HP HI. destruct (C115_sound w dotm dot1 dot2 frac l1 g1 ats q z ACC ACC1 ACC2 MC VO HP HI) as (k & f & IS & K). exists k, f. split; [exact IS|].
    cbv zeta in K. rewrite E1, EO in K. fold (p1 k f) in K. intros HL. destruct (K (LS _ _ HL)) as [K1 K2]. pose proof (DP k f) as DK. split.
    + eapply Rle_trans; [apply (dist_triangle _ (p1 k f))|]. lra.
    + intros HN1 HD. specialize (K2 (IN k f HN1)). clear - K2 F2 HD DK TP SD0. cbn [l1 with_alg l_alg] in K2. revert K2 HD. induction F2 as [|a' c m1 m2 (S1 & S2 & S3 & S4 & S5 & S6) _ IH]; intros K2 HD; [constructor|].
      inversion K2 as [|? ? W K2']; subst. inversion HD as [|? ? HD1 HD']; subst. constructor; [|apply IH; auto].
      destruct (within_near a' c _ _ (p1 k f) TP S1 S2 S3 (3 * pad_of c)) as [_ W2]. specialize (W2 W). rewrite S6 in W2.
      rewrite dist_sym in DK. pose proof (within_move a' _ _ (p k f) (p1 k f) S4 DK W2) as W3. eapply within_mono; [|exact W3].
      assert (T : dist (p1 k f) (anchor a') <= dist (p k f) (anchor a') + site_drift d A B n k f) by (pose proof (dist_triangle (p1 k f) (p k f) (anchor a')) as T; rewrite (dist_sym (p1 k f) (p k f)) in T; lra).
      assert (dist (p1 k f) (anchor a') * allowed_turn d n <= (dist (p k f) (anchor a') + site_drift d A B n k f) * allowed_turn d n) by (apply Rmult_le_compat_r; lra).
      unfold drift in HD1. lra.
  - intros delta HSp SO1 HC.
    assert (WF : well_formed g1).
    { split; [exact (proj1 SO1)|]. rewrite E1. apply (solid_det A (allowed d A n) b (vo_bases (g_voxel g'))); auto; [split; [apply allowed_pos; lra|exact YA]|apply SO1]. }
    destruct (C115_complete w dotm dot1 dot2 frac l1 g1 delta ACC ACC1 ACC2 LP LT MC (SP HSp) WF VO) as (ats & EP & K).
    { intros box EBx. rewrite E1, EO. apply HC. exact EBx. }
    exists ats. split; [exact EP|]. intros k f z IS CF HL HN1 HW. rewrite E1, EO in K. pose proof (DP k f) as DK.
    destruct (K k f z IS CF (LS _ _ HL) (IN k f HN1)) as (q & IQ & DQ).
    + clear - F2 HW DK TP SD0. cbn [l1 with_alg l_alg]. fold (p1 k f). revert HW. induction F2 as [|a' c m1 m2 (S1 & S2 & S3 & S4 & S5 & S6) _ IH]; intros HW; [constructor|].
      inversion HW as [|? ? W HW']; subst. constructor; [|apply IH; auto].
      destruct (within_near a' c _ _ (p k f) TP S1 S2 S3 (- drift a' k f)) as [W2 _]. specialize (W2 W).
      pose proof (within_move c _ _ (p1 k f) (p k f) S5 DK W2) as W3. eapply within_mono; [|exact W3]. unfold drift.
      assert (0 <= site_drift d A B n k f * allowed_turn d n) by (apply Rmult_le_pos; auto). lra.
    + exists q. split; [exact IQ|]. eapply Rle_trans; [apply (dist_triangle _ (p1 k f))|]. fold (p1 k f) in DQ. lra.
Qed.

(** In numbers: a hundred rigid motions within 1000 Angstrom displace a site by less than
    2e-7 and add up to less than a third of the default tolerance, 1e-5. *)
Theorem C162_rigid : forall A B n k f D, 0 <= B <= 1000 -> (n <= 100)%nat -> 0 <= D <= 1000 ->
  (let '(a, b, c) := k in (Rabs (IZR a + vx f) + Rabs (IZR b + vy f) + Rabs (IZR c + vz f)) * A <= 1000) ->
  0 <= A ->
  site_drift 0 A B n k f <= 2 / 10000000 /\
  4 * (allowed 0 B n + (D + site_drift 0 A B n k f) * allowed_turn 0 n) + 2 * site_drift 0 A B n k f <= 3 / 1000000.
Proof.
  intros A B n [[a b] c] f D HB HN HD HS HA. unfold site_drift. set (S := Rabs (IZR a + vx f) + Rabs (IZR b + vy f) + Rabs (IZR c + vz f)) in *.
  assert (S0 : 0 <= S) by (unfold S; pose proof (Rabs_pos (IZR a + vx f)); pose proof (Rabs_pos (IZR b + vy f)); pose proof (Rabs_pos (IZR c + vz f)); lra). clearbody S.
  assert (NN : 0 <= INR n <= 100) by (split; [apply pos_INR|]; apply le_INR in HN; replace (INR 100) with 100 in HN by (cbn; ring); exact HN).
  assert (AL : forall X, allowed 0 X n = INR n * (/ 2 ^ 40 * X)) by (intros X; unfold allowed; rewrite Rplus_0_r, pow1; ring).
  assert (GB : forall X, 0 <= X <= 1000 -> 0 <= INR n * (/ 2 ^ 40 * X) <= 100 * (/ 2 ^ 40 * 1000)).
  { intros X HX. assert (0 <= / 2 ^ 40 * X) by (apply Rmult_le_pos; lra). split; [apply Rmult_le_pos; lra|]. apply Rmult_le_compat; try lra. }
  pose proof (C161_rigid_turn n ltac:(eapply Nat.le_trans; [exact HN|]; apply Nat.le_trans with (2 ^ 7)%nat; [vm_compute; lia|apply Nat.pow_le_mono_r; lia])) as TU.
  pose proof (turn_pos 0 n ltac:(lra)) as TP. rewrite !AL.
  replace (S * (INR n * (/ 2 ^ 40 * A))) with (INR n * (/ 2 ^ 40 * (S * A))) by ring.
  pose proof (GB B HB) as G1. pose proof (GB (S * A) ltac:(split; [apply Rmult_le_pos; lra|exact HS])) as G2.
  set (u := INR n * (/ 2 ^ 40 * B)) in *. set (v := INR n * (/ 2 ^ 40 * (S * A))) in *. clearbody u v.
  assert (T2 : allowed_turn 0 n <= 100 * / 2 ^ 38) by (assert (INR n * / 2 ^ 38 <= 100 * / 2 ^ 38) by (apply Rmult_le_compat_r; lra); lra).
  set (t := allowed_turn 0 n) in *. clearbody t. split; [lra|].
  assert ((D + (v + u)) * t <= 1001 * (100 * / 2 ^ 38)) by (apply Rmult_le_compat; lra). lra.
Qed.

Example C162_nonvacuous :
  let quarter := mkM (mkV 0 (-1) 0) (mkV 1 0 0) (mkV 0 0 1) in
  let ts := [TMatrix quarter (Some (mkV 1 0 0)) true false; TTranslation (mkV 0 0 5) true false] in
  let l := mkLeaf PNone None None [ASphere (mkSphere 3 (mkV 3 0 1) (/ 100000))] None 0%Z 1 None in
  let moved := [ASphere (mkSphere 3 (mkV 1 2 6) (/ 100000))] in
  let g := mkCrystal (mkStruct (mscale 4 mI) [v0] [14%Z]) (mkVoxel (mscale 4 mI) (SAll 1) (mkV 3 0 1)) None None in
  exists g', carried 0 4 100 ts l moved g g' /\ solid_cell 4 (allowed 0 4 2) g' /\ In (v0, 14%Z) (cell_sites g') /\
  let p := lattice_site (basis_of g') (origin_of g') (0, 0, 0)%Z v0 in
  let e := site_drift 0 4 100 2 (0, 0, 0)%Z v0 in
  clear_of (/ 100) v0 /\ moderate_site 4 (0, 0, 0)%Z v0 /\ norm p + e <= 2 ^ 18 /\
  Forall (fun a' => within (- (4 * (allowed 0 100 2 + (dist p (anchor a') + e) * allowed_turn 0 2) + 2 * e)) a' p) moved.
Proof.
  intros quarter ts l moved g.
  assert (N3 : forall a b c, Rabs a <= 10 -> Rabs b <= 10 -> Rabs c <= 10 -> norm (mkV a b c) <= 100).
  { intros a b c Ha Hb Hc. eapply Rle_trans; [apply norm_sum|]. cbn. lra. }
  assert (A : forall x, -10 <= x <= 10 -> Rabs x <= 10) by (intros; apply Rabs_le; lra).
  assert (OQ : orthogonal quarter) by (unfold orthogonal, quarter; apply mat_eq; apply vec_eq; cbn; unfold dot; cbn; ring).
  assert (HF : Forall (tame 0 100) (flat_map elementary ts)).
  { unfold ts. cbn [flat_map elementary app]. constructor; [|constructor; [|constructor]].
    - split; [|cbn; apply N3; apply A; lra]. intros x. rewrite orth_norm; [lra|exact OQ].
    - cbn. apply N3; apply A; lra. }
  assert (ST : stays 100 (flat_map elementary ts) (mkV 3 0 1)).
  { unfold ts. cbn [flat_map elementary app]. intros before after E.
    destruct before as [|x before]; [cbn; apply N3; apply A; lra|]. injection E as <- E.
    destruct before as [|x before].
    { unfold exact_place. cbn [fold_left apply_pt matrix_pt]. unfold quarter, mv, vadd, vsub, dot. cbn. apply N3; apply A; lra. }
    injection E as <- E. destruct before as [|x before]; [|discriminate].
    unfold exact_place. cbn [fold_left apply_pt matrix_pt]. unfold quarter, mv, vadd, vsub, dot. cbn. apply N3; apply A; lra. }
  assert (CK : forall b, dot (r0 b) (r1 b) = 0 -> dot (r0 b) (r2 b) = 0 -> dot (r1 b) (r2 b) = 0 -> check_bases b = Ok b).
  { intros b H1 H2 H3. unfold check_bases. rewrite !not_collinear by auto. reflexivity. }
  assert (HG : exists b, foldM crystal_transform ts g = Ok (mkCrystal (g_structure g) (mkVoxel b (SAll 1) (mkV 1 2 6)) None None)).
  { eexists. unfold ts, g. cbn [foldM]. unfold crystal_transform at 1, set_bases. cbn [g_voxel vo_bases vo_scale vo_origin apply_bases].
    rewrite CK by (unfold quarter; vunfold; cbn; ring). cbn [bind].
    unfold crystal_transform at 1, set_bases. cbn [g_voxel vo_bases vo_scale vo_origin apply_bases basis_only set_vorigin g_structure g_strain g_post].
    rewrite CK by (unfold quarter; vunfold; cbn; ring). cbn [bind basis_only set_vorigin vo_bases vo_scale vo_origin apply_pt matrix_pt].
    replace (vadd (vadd (mv quarter (vsub (mkV 3 0 1) (mkV 1 0 0))) (mkV 1 0 0)) (mkV 0 0 5)) with (mkV 1 2 6) by (unfold quarter; vunfold; cbn; f_equal; ring). reflexivity. }
  destruct HG as [b HG]. eexists. split; [|split; [|split]].
  - unfold carried. cbv zeta. split; [lra|]. split; [lra|]. split; [lra|]. split; [exact HF|]. split; [|split; [|split; [reflexivity|split; [reflexivity|split; [|split; [|split; [exact HG|split; [reflexivity|split]]]]]]]].
    + unfold ts. cbn [flat_map elementary app]. constructor; [|constructor; [exact I|constructor]]. intros x. rewrite orth_norm; [pose proof (norm_pos x); lra|exact OQ].
    + cbn. lra.
    + constructor; [|constructor]. split; [|exact ST]. split; [cbn; unfold big; lra|]. cbn. split; [apply norm_vmid; pose proof (N3 3 0 1 ltac:(apply A; lra) ltac:(apply A; lra) ltac:(apply A; lra)); lra|unfold big; lra].
    + constructor; [|constructor]. cbn [apply_alg foldM ts matrix_alg bind]. unfold sphere_set_center. cbn [s_radius s_center s_tol]. do 3 f_equal. unfold matrix_pt, quarter. vunfold. cbn. f_equal; ring.
    + intros before after E. rewrite cols_exact, elementary_flat.
      assert (EL : Forall (tame 0 100) before) by (rewrite E in HF; apply Forall_app in HF; tauto).
      assert (K : forall c, norm (fold_left (fun q u => turn u q) (flat_map elementary before) c) <= norm c).
      { clear - EL. induction EL as [|u l Hu _ IH]; intros c; [apply Rle_refl|]. cbn [flat_map]. rewrite fold_left_app. eapply Rle_trans; [apply IH|].
        pose proof (turn_stretch 0 100 u c v0 ltac:(lra) Hu) as S. unfold dist in S.
        assert (Z : forall x, vsub x v0 = x) by (intros; vring). assert (Z' : forall m, mv m v0 = v0) by (intros; vring).
        destruct u as [s lk bo|m o lk bo|o lk bo|pl lk bo|us]; cbn [turn elementary fold_left tame] in *; rewrite ?Z', ?Z in S; try lra. }
      apply Forall_forall. intros c Hc. apply in_map_iff in Hc. destruct Hc as (c0 & <- & Hc). eapply Rle_trans; [apply K|].
      assert (N4 : sqrt (4 * 4) = 4) by (apply sqrt_square; lra).
      cbn in Hc. destruct Hc as [<-|[<-|[<-|[]]]]; unfold norm, dot; cbn; (apply Rle_trans with (sqrt (4 * 4)); [apply Req_le; f_equal; ring|rewrite N4; apply Rle_refl]).
    + cbn [filter basis_only negb ts]. exact ST.
  - split; [reflexivity|]. destruct (exact_history ts g _ HG) as [EB _]. rewrite EB. cbn [ts fold_left apply_bases g g_voxel vo_bases].
    assert (DE : det (mm quarter (mscale 4 mI)) = 64) by (rewrite det_mm; unfold quarter; vunfold; cbn; ring).
    unfold allowed. replace (INR 2) with 2 by (cbn; ring). replace ((1 + 0) ^ 2) with 1 by ring.
    match goal with |- _ < Rabs ?x => replace x with 64 end. rewrite Rabs_pos_eq by lra. lra.
  - left. reflexivity.
  - intros p e. assert (EP : p = mkV 1 2 6) by (unfold p, lattice_site, zvec; cbn [g_voxel vo_origin]; vring).
    assert (EE : e = 200 * / 2 ^ 40). { unfold e, site_drift, allowed. replace (INR 2) with 2 by (cbn; ring). replace ((1 + 0) ^ 2) with 1 by ring. cbn [vx vy vz v0]. replace (0 + 0) with 0 by ring. rewrite Rabs_R0. lra. }
    pose proof (N3 1 2 6 ltac:(apply A; lra) ltac:(apply A; lra) ltac:(apply A; lra)) as N. clearbody p e. subst p. rewrite EE. split; [unfold clear_of; cbn; rewrite Rabs_R0; lra|]. split; [unfold moderate_site; cbn [vx vy vz v0]; rewrite Rabs_R0; lra|]. split; [lra|].
    constructor; [|constructor]. cbn [within anchor s_center s_radius].
    assert (Z : dist (mkV 1 2 6) (mkV 1 2 6) = 0) by (unfold dist; replace (vsub (mkV 1 2 6) (mkV 1 2 6)) with v0 by vring; apply norm_v0). rewrite Z.
    pose proof (C161_rigid_turn 2 ltac:(apply (Nat.pow_le_mono_r 2 1 30); lia)) as TU. replace (INR 2) with 2 in TU by (cbn; ring).
    assert (X : (0 + 200 * / 2 ^ 40) * allowed_turn 0 2 <= (0 + 200 * / 2 ^ 40) * (2 * / 2 ^ 38)) by (apply Rmult_le_compat_l; lra).
    unfold allowed. replace (INR 2) with 2 by (cbn; ring). replace ((1 + 0) ^ 2) with 1 by ring. lra.
Qed.
