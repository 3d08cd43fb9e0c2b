(** Populating volumes with rounded arithmetic: C115. *)
From Coq Require Import Reals List ZArith Bool Lra Lia Psatz Classical.
From Flocq Require Import Core.Raux.
From Verif.Model Require Import Base Vec Algebraic Voxel Generator Volume Float.
From Verif.Spec Require Import Geometry AlgSpec CrystalSpec FloatSpec.
From Verif.Proofs Require Import VecFacts HullFacts GenFacts FloatFacts FloatCyl.
From Verif.Props Require Import BoxProps GeneratorProps FloatProps.
Import ListNotations.
Open Scope R_scope.

Lemma slip_val : slip = 8 * e28. Proof. unfold slip, e28. replace (2 ^ 25) with 33554432 by lra. lra. Qed.

Lemma coord_err : forall dotm r x y o, accurate dotm ->
  Rabs (vx r) * (Rabs (vx x) + Rabs (vx y)) + Rabs (vy r) * (Rabs (vy x) + Rabs (vy y)) + Rabs (vz r) * (Rabs (vz x) + Rabs (vz y)) <= 4 * big ->
  mid o -> Rabs (b64 (b64 (dotm r x + dotm r y) + o) - (dot r x + dot r y + o)) <= 3 * e28.
Proof.
  intros dotm r x y o HA HW HO. unfold mid in HO. rewrite big_val in *.
  pose proof (HA r x) as E1. pose proof (HA r y) as E2.
  assert (W : weight r x + weight r y <= 4194304).
  { unfold weight. rewrite !Rabs_mult. lra. }
  change (Rabs (vx r * vx x) + Rabs (vy r * vy x) + Rabs (vz r * vz x)) with (weight r x) in E1.
  change (Rabs (vx r * vx y) + Rabs (vy r * vy y) + Rabs (vz r * vz y)) with (weight r y) in E2.
  pose proof (tiny_le 60 ltac:(lia)) as T. replace (2 ^ 60) with 1152921504606846976 in T by lra. pose proof tiny_pos as T0.
  assert (DX : Rabs (dot r x + dot r y) <= weight r x + weight r y).
  { unfold dot, weight. eapply Rle_trans; [apply Rabs_triang|]. apply Rplus_le_compat;
    (eapply Rle_trans; [apply Rabs_triang|]; apply Rplus_le_compat; [apply Rabs_triang|apply Rle_refl]). }
  set (wx := weight r x) in *. set (wy := weight r y) in *. rewrite ulp1_val in *.
  set (D1 := dotm r x) in *. set (D2 := dotm r y) in *. set (S := dot r x + dot r y) in *.
  assert (F : Rabs (D1 + D2 - S) <= 3 / 4 * e28).
  { replace (D1 + D2 - S) with ((D1 - dot r x) + (D2 - dot r y)) by (unfold S; ring).
    eapply Rle_trans; [apply Rabs_triang|]. unfold e28. lra. }
  apply Rabs_le_inv in F. apply Rabs_le_inv in DX. apply Rabs_le_inv in HO.
  assert (A : Rabs (D1 + D2) <= 8388608) by (apply Rabs_le; unfold e28 in *; lra).
  pose proof (b64_abs (D1 + D2) ltac:(lra)) as B1. set (S1 := b64 (D1 + D2)) in *. apply Rabs_le_inv in B1. apply Rabs_le_inv in A.
  assert (A2 : Rabs (S1 + o) <= 16777216) by (apply Rabs_le; unfold e28 in *; lra).
  pose proof (b64_abs (S1 + o) A2) as B2. apply Rabs_le_inv in B2. apply Rabs_le. lra.
Qed.

(** Every computed position is the exact one up to 2^-25. *)
Theorem C115_positions : forall dotm v n f, accurate dotm -> light (sbases v) n f -> vmid (vo_origin v) ->
  dist (f_site_pos dotm v n f) (lattice_site (sbases v) (vo_origin v) n f) <= slip.
Proof.
  intros dotm v [[a b] c] f HA (L0 & L1 & L2) (O1 & O2 & O3). rewrite slip_val.
  set (B := sbases v) in *. set (o := vo_origin v) in *. set (x := mkV (IZR a) (IZR b) (IZR c)).
  pose proof (coord_err dotm (r0 B) x f (vx o) HA L0 O1) as E0.
  pose proof (coord_err dotm (r1 B) x f (vy o) HA L1 O2) as E1.
  pose proof (coord_err dotm (r2 B) x f (vz o) HA L2 O3) as E2.
  unfold dist. pose proof e28_pos as EP.
  pose proof (norm_err v0 (vsub (f_site_pos dotm v (a, b, c) f) (lattice_site B o (a, b, c) f)) 0 (3 * e28) ltac:(lra) ltac:(lra)) as N.
  eapply Rle_trans; [apply N|].
  all: rewrite ?Rmult_0_l, ?Rplus_0_l.
  - eapply Rle_trans; [|exact E0]. right. f_equal. unfold f_site_pos, lattice_site, fadd, f_mv, zvec. fold B o x. unfold x. vunfold. cbn. ring.
  - eapply Rle_trans; [|exact E1]. right. f_equal. unfold f_site_pos, lattice_site, fadd, f_mv, zvec. fold B o x. unfold x. vunfold. cbn. ring.
  - eapply Rle_trans; [|exact E2]. right. f_equal. unfold f_site_pos, lattice_site, fadd, f_mv, zvec. fold B o x. unfold x. vunfold. cbn. ring.
  - lra.
Qed.

(** ** moving a point a little *)
Lemma within_move : forall a t e p q, moderate a -> dist p q <= e -> within t a q -> within (t + 2 * e) a p.
Proof.
  intros a t e p q HM HD HW. assert (E0 : 0 <= e) by (pose proof (norm_pos (vsub p q)); unfold dist in HD; lra).
  destruct a as [s|pl|c]; cbn [within] in *.
  - pose proof (norm_triangle (vsub p q) (vsub q (s_center s))) as T. replace (vadd (vsub p q) (vsub q (s_center s))) with (vsub p (s_center s)) in T by vring.
    unfold dist in *. lra.
  - destruct HM as (_ & _ & ML). rewrite half50 in ML. apply Rabs_le_inv in ML.
    replace (dot (vsub p (p_point pl)) (p_normal pl)) with (dot (vsub q (p_point pl)) (p_normal pl) + dot (vsub p q) (p_normal pl)) by vring.
    assert (C : dot (vsub p q) (p_normal pl) <= norm (vsub p q) * norm (p_normal pl)).
    { eapply Rle_trans; [apply Rle_abs|]. apply cauchy. }
    unfold dist in HD. pose proof (norm_pos (vsub p q)) as NP.
    assert (norm (vsub p q) * norm (p_normal pl) <= e * 2) by (apply Rmult_le_compat; try apply norm_pos; lra). lra.
  - destruct HM as (_ & _ & ML & _). rewrite half50 in ML. apply Rabs_le_inv in ML. set (a := c_axis c) in *.
    destruct HW as (k & H1 & H2 & H3). set (ft := vadd (c_point c) (vscale k a)) in *.
    assert (AA : 0 < dot a a). { rewrite <- norm_sq. apply Rmult_lt_0_compat; lra. }
    set (v := vsub p q) in *. set (s := dot v a / dot a a).
    assert (SA : s * dot a a = dot v a) by (unfold s; field; lra).
    assert (CS : dot v a * dot v a <= dot v v * dot a a).
    { pose proof (cauchy v a) as C. assert (0 <= Rabs (dot v a)) by apply Rabs_pos.
      assert (Rabs (dot v a) * Rabs (dot v a) <= (norm v * norm a) * (norm v * norm a)) by (apply Rmult_le_compat; auto).
      rewrite <- Rabs_mult, Rabs_pos_eq in H0 by (apply Rle_0_sqr). rewrite <- !norm_sq. lra. }
    assert (SV : s * s * dot a a <= dot v v).
    { apply Rmult_le_reg_r with (dot a a); [auto|]. replace (s * s * dot a a * dot a a) with ((s * dot a a) * (s * dot a a)) by ring. rewrite SA. lra. }
    assert (N1 : norm (vscale s a) <= norm v).
    { unfold norm. apply sqrt_le_1_alt. replace (dot (vscale s a) (vscale s a)) with (s * s * dot a a) by vring. exact SV. }
    assert (N2 : norm (vsub v (vscale s a)) <= norm v).
    { unfold norm. apply sqrt_le_1_alt. replace (dot (vsub v (vscale s a)) (vsub v (vscale s a))) with (dot v v - 2 * s * dot v a + s * s * dot a a) by vring.
      rewrite <- SA. replace (2 * s * (s * dot a a)) with (2 * (s * s * dot a a)) by ring.
      assert (0 <= s * s * dot a a) by (apply Rmult_le_pos; [apply Rle_0_sqr|lra]). lra. }
    unfold dist in *. fold v in HD. exists (k + s).
    replace (vadd (c_point c) (vscale (k + s) a)) with (vadd ft (vscale s a)) by (unfold ft; vring).
    split; [|split].
    + replace (dot (vsub p (vadd ft (vscale s a))) a) with (dot (vsub q ft) a + dot v a - s * dot a a) by (unfold v; vring). rewrite H1, SA. ring.
    + pose proof (norm_triangle (vsub q ft) (vsub v (vscale s a))) as T.
      replace (vadd (vsub q ft) (vsub v (vscale s a))) with (vsub p (vadd ft (vscale s a))) in T by (unfold v; vring). lra.
    + pose proof (norm_triangle (vsub ft (c_point c)) (vscale s a)) as T.
      replace (vadd (vsub ft (c_point c)) (vscale s a)) with (vsub (vadd ft (vscale s a)) (c_point c)) in T by vring. lra.
Qed.
Lemma inner_move : forall p q, inner p -> dist q p <= slip -> vmid q.
Proof.
  intros p q (H1 & H2 & H3) HD. rewrite slip_val in HD. unfold e28 in HD. unfold dist in HD.
  destruct (comp_norm (vsub q p)) as (C1 & C2 & C3). unfold vmid, mid in *. rewrite big_val in *. cbn in *.
  assert (K : forall x y, Rabs (2 * y) <= 1048576 -> Rabs (x - y) <= norm (vsub q p) -> Rabs x <= 1048576).
  { intros x y Hy Hx. replace x with ((x - y) + y) by ring. rewrite Rabs_mult, (Rabs_pos_eq 2) in Hy by lra. pose proof (Rabs_triang (x - y) y). lra. }
  split; [exact (K _ _ H1 C1)|split; [exact (K _ _ H2 C2)|exact (K _ _ H3 C3)]].
Qed.

(** ** the block *)
Lemma f_extents_cover : forall delta v box frac n f, det (sbases v) <> 0 -> box <> [] ->
  corners_within delta (sbases v) (vo_origin v) frac box -> clear_of delta f ->
  in_hull box (lattice_site (sbases v) (vo_origin v) n f) ->
  exists lo hi, f_extents frac box = Ok (lo, hi) /\ In n (cells lo hi).
Proof.
  intros delta v box frac n f Hd HB HC (F1 & F2 & F3) HH. unfold f_extents. destruct (map frac box) as [|e es] eqn:E.
  { destruct box; [congruence|discriminate]. }
  do 2 eexists. split; [reflexivity|]. set (dv := mkV delta delta delta).
  assert (HR : vle (vsub (rows_min e es) dv) (fcoord v (lattice_site (sbases v) (vo_origin v) n f)) /\
               vle (fcoord v (lattice_site (sbases v) (vo_origin v) n f)) (vadd (rows_max e es) dv)).
  { refine (in_hull_ind (fun q => vle (vsub (rows_min e es) dv) (fcoord v q) /\ vle (fcoord v q) (vadd (rows_max e es) dv)) _ box _ _ HH).
    - intros x y t (A1 & A2) (B1 & B2) Ht. rewrite fcoord_lerp. unfold vle, lerp in *.
      revert A1 A2 B1 B2. generalize (fcoord v x) (fcoord v y) (vsub (rows_min e es) dv) (vadd (rows_max e es) dv). intros a b lo hi A1 A2 B1 B2.
      cbn [vx vy vz vadd vscale vsub]. repeat split; nra.
    - intros x Hx. assert (I : In (frac x) (e :: es)) by (rewrite <- E; apply in_map; auto).
      destruct (HC x Hx) as (y & Ey & D1 & D2 & D3).
      assert (fcoord v x = y) as ->. { unfold fcoord. rewrite <- Ey. apply mv_minv_l; auto. }
      pose proof (rows_min_le es e _ I) as RM. pose proof (rows_max_ge es e _ I) as RX. unfold vle in *. cbn.
      apply Rabs_le_inv in D1. apply Rabs_le_inv in D2. apply Rabs_le_inv in D3. lra. }
  destruct n as [[a b] c]. rewrite fcoord_site in HR by auto. destruct HR as [(L1 & L2 & L3) (U1 & U2 & U3)].
  apply in_cells. unfold in_block, vfloor, vceil. cbn [vadd vsub zvec vx vy vz dv] in *.
  apply Rabs_def2 in F1. apply Rabs_def2 in F2. apply Rabs_def2 in F3.
  assert (FL : forall x k t, x - delta <= IZR k + t -> t < 1 - delta -> (Zfloor x <= k)%Z).
  { intros x k t H1 H2. pose proof (Zfloor_lb x). apply Zlt_succ_le. apply lt_IZR. unfold Z.succ. rewrite plus_IZR. lra. }
  assert (CE : forall x k t, IZR k + t <= x + delta -> - (1 - delta) < t -> (k <= Zceil x)%Z).
  { intros x k t H1 H2. pose proof (Zceil_ub x). apply Zlt_succ_le. apply lt_IZR. unfold Z.succ. rewrite plus_IZR. lra. }
  repeat split; [eapply FL|eapply CE|eapply FL|eapply CE|eapply FL|eapply CE]; eauto; lra.
Qed.
Lemma f_supply_in : forall dotm frac g box ats, f_supply dotm frac g box = Ok ats -> forall q z,
  In (q, z) ats <-> exists lo hi n f, f_extents frac box = Ok (lo, hi) /\ In n (cells lo hi) /\ In (f, z) (cell_sites g) /\ q = f_site_pos dotm (g_voxel g) n f.
Proof.
  intros dotm frac g box ats H q z. unfold f_supply in H. destruct (f_extents frac box) as [[lo hi]|] eqn:E; [|discriminate].
  cbn [bind fst snd] in H. inversion H; subst ats. rewrite in_flat_map. split.
  - intros (n & Hn & Hi). apply in_map_iff in Hi as ([f z'] & Ei & Hf). inversion Ei; subst. exists lo, hi, n, f. auto.
  - intros (lo' & hi' & n & f & E' & Hn & Hf & ->). inversion E'; subst lo' hi'. exists n. split; [exact Hn|]. apply in_map_iff. exists (f, z). auto.
Qed.
Lemma f_populate_inv : forall w dotm dot1 dot2 frac l g ats, f_populate w dotm dot1 dot2 frac l g = Ok ats ->
  exists box all, get_bounding_box w l = BArr box /\ f_supply dotm frac g box = Ok all /\
    ats = filter (fun q => f_leaf_inside w dot1 dot2 l (fst q)) all.
Proof.
  intros until ats. unfold f_populate. destruct (get_bounding_box w l); try discriminate.
  destruct (f_supply _ _ _ _) eqn:E; [|discriminate]. cbn [bind]. intros H. inversion H. do 2 eexists. split; [reflexivity|]. split; [exact E|reflexivity].
Qed.

Lemma ball_box w l : l_points l = PNone -> Forall moderate (l_alg l) -> (exists s, In (ASphere s) (l_alg l)) ->
  exists b box, In (ASphere b) (l_alg l) /\ get_bounding_box w l = BArr box /\ length box = 8%nat /\
    (forall p, dist p (s_center b) <= s_radius b -> in_hull box p).
Proof.
  intros HP HM [s0 Hs0]. unfold get_bounding_box. rewrite HP.
  destruct (spheres_of (l_alg l)) as [|s ss] eqn:E; [apply in_spheres_of in Hs0; rewrite E in Hs0; destruct Hs0|].
  destruct (smallest_sphere_spec ss s) as [I _]. set (b := smallest_sphere s ss) in *.
  assert (IB : In (ASphere b) (l_alg l)) by (apply in_spheres_of; rewrite E; auto).
  assert (RB : 0 <= s_radius b) by (rewrite Forall_forall in HM; destruct (HM _ IB) as (_ & _ & ?); lra).
  exists b. eexists. split; [exact IB|]. split; [reflexivity|]. split; [reflexivity|].
  intros p Hp. apply cube_hull; [lra|]. apply comp_le_norm in Hp. exact Hp.
Qed.

(** A volume with a sphere, and further surfaces of any kind, filled with a crystal.  The
    fractional coordinates of the corners may be off by delta.  Nothing is lost: *)
Theorem C115_complete : forall w dotm dot1 dot2 frac l g delta,
  accurate dotm -> accurate dot1 -> accurate dot2 ->
  l_points l = PNone -> l_tri l = None -> Forall moderate (l_alg l) ->
  (exists s, In (ASphere s) (l_alg l)) ->
  well_formed g -> vmid (origin_of g) ->
  (forall box, get_bounding_box w l = BArr box -> corners_within delta (basis_of g) (origin_of g) frac box) ->
  exists ats, f_populate w dotm dot1 dot2 frac l g = Ok ats /\
  forall n f z, In (f, z) (cell_sites g) -> clear_of delta f -> light (basis_of g) n f ->
    let p := lattice_site (basis_of g) (origin_of g) n f in
    inner p -> Forall (fun a => within 0 a p) (l_alg l) ->
    exists q, In (q, z) ats /\ dist q p <= slip.
Proof.
  intros w dotm dot1 dot2 frac l g delta HA H1 H2 HP HT HM HS [HL HD] HO HC.
  destruct (ball_box w l HP HM HS) as (b & box & IB & EB & LB & HH).
  assert (BN : box <> []) by (intros ->; discriminate). specialize (HC box EB).
  assert (S : exists all, f_supply dotm frac g box = Ok all).
  { unfold f_supply, f_extents. destruct (map frac box) eqn:E; [destruct box; [congruence|discriminate]|]. eexists. reflexivity. }
  destruct S as [all S]. unfold f_populate. rewrite EB, S. cbn [bind]. eexists. split; [reflexivity|].
  intros n f z Hf CF LT IP WP. set (p := lattice_site _ _ n f) in *. pose proof (C115_positions dotm (g_voxel g) n f HA LT HO) as DP. fold p in DP.
  exists (f_site_pos dotm (g_voxel g) n f). split; [|exact DP]. apply filter_In. cbn [fst]. split.
  - apply (f_supply_in _ _ _ _ _ S). rewrite Forall_forall in WP. pose proof (WP _ IB) as WB. cbn in WB. rewrite Rplus_0_r in WB.
    destruct (f_extents_cover delta (g_voxel g) box frac n f HD BN HC CF (HH _ WB)) as (lo & hi & E & I). exists lo, hi, n, f. auto.
  - pose proof (inner_move _ _ IP DP) as VM.
    destruct (C106_volume w dot1 dot2 l (f_site_pos dotm (g_voxel g) n f) H1 H2 HM VM) as [K _]. rewrite K, HT; [reflexivity|].
    rewrite Forall_forall in *. intros a Ha. specialize (HM a Ha). pose proof HM as [MT _]. rewrite big_val in MT.
    apply within_mono with (0 + 2 * slip); [rewrite slip_val; unfold e28; lra|]. eapply within_move; eauto.
Qed.
(** and nothing is added: every atom is a rounded site of the crystal, of the right
    species, inside or within three tolerances of every surface, *)
Theorem C115_sound : forall w dotm dot1 dot2 frac l g ats q z,
  accurate dotm -> accurate dot1 -> accurate dot2 -> Forall moderate (l_alg l) -> vmid (origin_of g) ->
  f_populate w dotm dot1 dot2 frac l g = Ok ats -> In (q, z) ats ->
  exists n f, In (f, z) (cell_sites g) /\
    let p := lattice_site (basis_of g) (origin_of g) n f in
    (light (basis_of g) n f -> dist q p <= slip /\
      (inner p -> Forall (fun a => within (3 * pad_of a) a p) (l_alg l))).
Proof.
  intros w dotm dot1 dot2 frac l g ats q z HA H1 H2 HM HO HP HI. apply f_populate_inv in HP as (box & all & EB & S & ->).
  apply filter_In in HI as [HI HF]. cbn [fst] in HF. apply (f_supply_in _ _ _ _ _ S) in HI as (lo & hi & n & f & _ & _ & Hf & ->).
  exists n, f. split; [exact Hf|]. intros p LT. pose proof (C115_positions dotm (g_voxel g) n f HA LT HO) as DP. fold p in DP.
  split; [exact DP|]. intros IP. pose proof (inner_move _ _ IP DP) as VM.
  destruct (C106_volume w dot1 dot2 l (f_site_pos dotm (g_voxel g) n f) H1 H2 HM VM) as [_ K].
  rewrite Forall_forall in *. intros a Ha. destruct (classic (within (2 * pad_of a) a (f_site_pos dotm (g_voxel g) n f))) as [W|W].
  - specialize (HM a Ha). pose proof HM as [MT _]. rewrite big_val in MT.
    apply within_mono with (2 * pad_of a + 2 * slip); [rewrite slip_val; unfold e28; lra|].
    eapply within_move; eauto. rewrite dist_sym. exact DP.
  - exfalso. rewrite K in HF; [discriminate|]. apply Exists_exists. exists a. auto.
Qed.
(** and no site is used twice. *)
Theorem C115_once : forall w dotm dot1 dot2 frac l g ats, f_populate w dotm dot1 dot2 frac l g = Ok ats ->
  exists used : list ((Z * Z * Z) * nat), NoDup used /\
    Forall2 (fun u a => exists f, nth_error (cell_sites g) (snd u) = Some (f, snd a) /\
                                  fst a = f_site_pos dotm (g_voxel g) (fst u) f) used ats.
Proof.
  intros w dotm dot1 dot2 frac l g ats H. apply f_populate_inv in H as (box & all & _ & S & ->).
  assert (A : exists used : list ((Z * Z * Z) * nat), NoDup used /\
    Forall2 (fun u a => exists f, nth_error (cell_sites g) (snd u) = Some (f, snd a) /\
                                  fst a = f_site_pos dotm (g_voxel g) (fst u) f) used all).
  { unfold f_supply in S. destruct (f_extents frac box) as [[lo hi]|]; [|discriminate]. cbn [bind fst snd] in S. inversion S; subst all; clear S.
    exists (flat_map (fun n => map (fun i => (n, i)) (seq 0 (length (cell_sites g)))) (cells lo hi)). split.
    - apply NoDup_flat_map; [apply NoDup_cells| |].
      + intros x _. apply FinFun.Injective_map_NoDup; [|apply seq_NoDup]. intros i j E. congruence.
      + intros x y u _ _ Hx Hy. apply in_map_iff in Hx as (i & <- & _). apply in_map_iff in Hy as (j & E & _). congruence.
    - induction (cells lo hi) as [|n t IH]; cbn [flat_map]; [constructor|]. apply Forall2_app; [|exact IH].
      fold (cell_sites g).
      assert (G : forall (pre l0 : list (vec * Z)), Forall2 (fun (u : (Z * Z * Z) * nat) (a : vec * Z) => exists f, nth_error (pre ++ l0) (snd u) = Some (f, snd a) /\ fst a = f_site_pos dotm (g_voxel g) (fst u) f)
        (map (fun i => (n, i)) (seq (length pre) (length l0))) (map (fun fz => (f_site_pos dotm (g_voxel g) n (fst fz), snd fz)) l0)).
      { intros pre l0. revert pre. induction l0 as [|[f z] l0 IHl]; intros pre; cbn [length seq map]; [constructor|]. constructor.
        - exists f. cbn. rewrite nth_error_app2, Nat.sub_diag by lia. auto.
        - specialize (IHl (pre ++ [(f, z)])). rewrite app_length in IHl. cbn [length] in IHl. rewrite Nat.add_1_r in IHl.
          rewrite <- app_assoc in IHl. exact IHl. }
      exact (G [] (cell_sites g)). }
  destruct A as (used & ND & F). clear S. revert ND. induction F as [|u a us al Hu F IH]; intros ND.
  - exists []. split; [constructor|constructor].
  - inversion ND; subst. destruct (IH H2) as (used & ND' & F'). cbn [filter].
    assert (G : exists us', NoDup us' /\ incl us' us /\ Forall2 (fun u a => exists f, nth_error (cell_sites g) (snd u) = Some (f, snd a) /\
                                  fst a = f_site_pos dotm (g_voxel g) (fst u) f) us' (filter (fun q => f_leaf_inside w dot1 dot2 l (fst q)) al)).
    { clear - F H2. revert H2. induction F as [|u a us al Hu F IH]; intros ND; cbn [filter].
      - exists []. split; [constructor|]. split; [intros ? []|constructor].
      - inversion ND; subst. destruct (IH H2) as (us' & N & I & F'). destruct (f_leaf_inside _ _ _ _ _).
        + exists (u :: us'). split; [constructor; auto|]. split; [|constructor; auto]. intros x [->|Hx]; [left; auto|right; auto].
        + exists us'. split; [auto|]. split; [|auto]. intros x Hx. right. auto. }
    destruct G as (us' & N & I & F''). destruct (f_leaf_inside _ _ _ _ _).
    + exists (u :: us'). split; [constructor; auto|constructor; auto].
    + exists us'. auto.
Qed.

(** Rock salt with edge 2 in a ball cut by a plane; the site at (1,1,1) is kept. *)
Example C115_nonvacuous : forall w,
  let s := mkSphere 3 (mkV 0 0 0) default_tol in
  let pl := mkPlane (mkV 0 0 1) (mkV 0 0 2) default_tol in
  let l := mkLeaf PNone None None [ASphere s; APlane pl] None 0 default_vtol None in
  let g := ex_crystal in let f := mkV (1/2) (1/2) (1/2) in let n := (0, 0, 0)%Z in
  Forall valid_alg (l_alg l) /\ Forall moderate (l_alg l) /\ well_formed g /\ vmid (origin_of g) /\
  (forall box, get_bounding_box w l = BArr box -> corners_within (/ 4) (basis_of g) (origin_of g) (fcoord (g_voxel g)) box) /\
  In (f, 17%Z) (cell_sites g) /\ clear_of (/ 4) f /\ light (basis_of g) n f /\
  inner (lattice_site (basis_of g) (origin_of g) n f) /\
  Forall (fun a => within 0 a (lattice_site (basis_of g) (origin_of g) n f)) (l_alg l).
Proof.
  intros w s pl l g f n.
  assert (D : / big <= default_tol <= 1) by (rewrite big_val; unfold default_tol; lra).
  assert (EB : basis_of g = mkM (mkV 2 0 0) (mkV 0 2 0) (mkV 0 0 2)) by (unfold g, ex_crystal, sbases; cbn [g_voxel vo_scale vo_bases]; apply mscale_1).
  assert (EP : lattice_site (basis_of g) (origin_of g) n f = mkV 1 1 1).
  { rewrite EB. unfold n, f, lattice_site, zvec. cbn. apply vec_eq; vunfold; cbn; lra. }
  assert (A : forall x, -2 <= x <= 2 -> Rabs x <= 2) by (intros; apply Rabs_le; lra).
  split; [|split; [|split; [|split; [|split; [|split; [|split; [|split; [|split]]]]]]]].
  - apply Forall_cons; [|apply Forall_cons; [|apply Forall_nil]].
    + split; cbn; unfold default_tol; lra.
    + split; cbn; [unfold norm, dot; cbn; replace (0 * 0 + 0 * 0 + 1 * 1) with 1 by ring; apply sqrt_1|unfold default_tol; lra].
  - apply Forall_cons; [|apply Forall_cons; [|apply Forall_nil]].
    + split; [exact D|]. cbn. unfold vmid, mid. rewrite big_val. cbn. rewrite Rabs_R0. lra.
    + split; [exact D|]. cbn. split; [unfold vmid, mid; rewrite big_val; cbn; rewrite Rabs_R0; repeat split; try lra; eapply Rle_trans; [apply A; lra|lra]|].
      unfold norm, dot; cbn. replace (0 * 0 + 0 * 0 + 1 * 1) with 1 by ring. rewrite sqrt_1, Rminus_diag_eq, Rabs_R0 by reflexivity. apply Rlt_le, Rinv_0_lt_compat; lra.
  - exact ex_wf.
  - unfold vmid, mid. rewrite big_val. cbn. rewrite Rabs_R0. lra.
  - intros box _ p _. exists (fcoord (g_voxel g) p). split.
    + unfold fcoord. apply mv_minv_r. apply ex_wf.
    + rewrite !Rminus_diag_eq, Rabs_R0 by reflexivity. lra.
  - right. left. reflexivity.
  - unfold clear_of, f. cbn. rewrite Rabs_pos_eq by lra. lra.
  - rewrite EB. unfold light, n, f. rewrite big_val. cbn. rewrite !Rabs_R0, !(Rabs_pos_eq 2), !(Rabs_pos_eq (1/2)) by lra. lra.
  - rewrite EP. unfold inner, vmid, mid. rewrite big_val. cbn. rewrite Rabs_pos_eq by lra. lra.
  - rewrite EP. apply Forall_cons; [|apply Forall_cons; [|apply Forall_nil]]; cbn [within].
    + cbn. apply Rsqr_incr_0; [|apply norm_pos|lra]. unfold Rsqr, dist. rewrite norm_sq. unfold dot; cbn. lra.
    + cbn. unfold dot; cbn. lra.
Qed.
