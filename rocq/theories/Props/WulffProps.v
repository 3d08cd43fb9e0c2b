(** Wulff constructions: C70, C71, C91 - C96. *)
From Coq Require Import Reals List ZArith Bool Lra Lia.
From Flocq Require Import Core.Raux.
From Verif.Model Require Import Base Vec Algebraic Transform Voxel Strain Generator Volume Wulff.
From Verif.Spec Require Import WulffSpec.
From Verif.Proofs Require Import VecFacts AlgFacts VolumeFacts VolTransFacts GenFacts PrefabFacts WulffFacts.
From Verif.Props Require Import GeneratorProps PrefabProps.
Import ListNotations.
Open Scope R_scope.

(** C70.  Forms whose facet counts are multiples of n are dealt in n equal consecutive
    blocks: grain j gets the j-th block of every form, as planes bounding exactly the
    facets' half spaces; the blocks of a form together are the form. *)
Theorem C70_facets_dealt : forall n forms, (0 < n)%nat ->
  Forall unit_facets forms -> Forall (fun form => exists k, length form = n * k)%nat forms ->
  exists grains, grain_planes n forms = Ok grains /\ length grains = n /\
    (forall j, (j < n)%nat -> Forall2 bounds (concat (map (block n j) forms)) (nth j grains [])) /\
    Forall (fun form => concat (map (fun j => block n j form) (seq 0 n)) = form) forms.
Proof.
  intros n forms Hn HU HK.
  assert (G : forall ls, length ls = n -> exists grains,
    foldM (fun ls form => planes <- planes_from_form form ;; deal_form n ls planes) forms ls = Ok grains /\ length grains = n /\
    forall j, (j < n)%nat -> nth j grains [] = nth j ls [] ++ map fplane (concat (map (block n j) forms))).
  { induction forms as [|form forms IH]; intros ls HL.
    - exists ls. cbn. repeat split; auto. intros. rewrite app_nil_r. reflexivity.
    - inversion HU as [|? ? U1 U2]; subst. inversion HK as [|? ? [k K1] K2]; subst.
      cbn [foldM]. rewrite planes_form_ok by assumption. cbn [bind].
      destruct (deal_form_ok (length ls) ls (map fplane form) k) as (l1 & E1 & L1 & N1); [assumption|reflexivity|rewrite map_length; assumption|].
      rewrite E1. cbn [bind]. destruct (IH U2 K2 l1 L1) as (gs & E2 & L2 & N2). exists gs. split; [exact E2|]. split; [exact L2|].
      intros j Hj. rewrite N2, N1 by assumption. cbn [map concat]. rewrite map_app, block_map, app_assoc. reflexivity. }
  destruct (G (repeat [] n)) as (gs & E & L & N); [apply repeat_length|]. exists gs. split; [exact E|]. split; [exact L|]. split.
  - intros j Hj. rewrite N by assumption.
    replace (nth j (repeat [] n) []) with (@nil plane) by (symmetry; apply nth_repeat).
    assert (Q : Forall (fun f => norm (f_normal f) = 1) (concat (map (block n j) forms))).
    { clear -HU. induction HU as [|form forms U1 U2 IH]; [constructor|]. cbn. apply Forall_app. split; [|exact IH].
      unfold block, unit_facets in *. rewrite Forall_forall in *. intros x Hx. apply U1.
      rewrite <- (firstn_skipn (j * (length form / n)) form). apply in_or_app. right.
      rewrite <- (firstn_skipn (length form / n) (skipn _ _)). apply in_or_app. left. exact Hx. }
    cbn [app]. induction Q; cbn; constructor; auto using fplane_bounds.
  - rewrite Forall_forall in *. intros form Hf. destruct (HK _ Hf) as [k K]. eapply blocks_concat; eauto.
Qed.

(** ... and no other facet count is ever accepted: otherwise the call raises. *)
Theorem C70_only_multiples : forall n forms grains, (0 < n)%nat ->
  grain_planes n forms = Ok grains -> Forall (fun form => exists k, length form = n * k)%nat forms.
Proof.
  intros n forms grains Hn. unfold grain_planes.
  assert (G : forall ls, length ls = n -> foldM (fun ls form => planes <- planes_from_form form ;; deal_form n ls planes) forms ls = Ok grains ->
    Forall (fun form => exists k, length form = n * k)%nat forms).
  { induction forms as [|form forms IH]; intros ls HL H; [constructor|]. cbn [foldM] in H. inv_bind H. inv_bind Ha.
    constructor.
    - destruct (deal_form_mult n ls a a0) as [k K]; auto. exists k. rewrite <- K. symmetry. eapply mapM_length; eauto.
    - eapply IH; [|exact H]. rewrite (deal_form_len _ _ _ _ Ha). exact HL. }
  apply G, repeat_length.
Qed.

(** C71: none of the four convenience constructors ever returns, whatever the crystal,
    the size, and the surface energies. *)
Theorem C71_convenience_refuted : forall w wp g n energies,
  convenience w wp g (VInt n) energies = Err AttributeError /\ convenience w wp g default_natoms energies = Err AttributeError.
Proof. split; reflexivity. Qed.

(** C71: neither does the decahedron nor the icosahedron. *)
Theorem C71_decahedron_refuted : forall w wp d V, decahedron_construction w wp d <> Ok V.
Proof.
  intros w wp d V H. unfold decahedron_construction in H.
  inv_bind H. destruct a as [p sf]. do 9 inv_bind H. discriminate.
Qed.
Theorem C71_icosahedron_refuted : forall w wp d V, icosahedron_construction w wp d <> Ok V.
Proof. intros w wp d V H. unfold icosahedron_construction in H. inv_bind H. destruct a as [p sf]. do 2 inv_bind H. discriminate. Qed.

(** a small world for the examples: six facets of a cube *)
Definition cube_facets (d : R) : list facet :=
  map (fun n => mkFacet n d [mkV d d d]) [mkV 1 0 0; mkV (-1) 0 0; mkV 0 1 0; mkV 0 (-1) 0; mkV 0 0 1; mkV 0 0 (-1)].
Definition cube_particle (d : R) : particle := mkParticle [cube_facets d] [([1; 0; 0]%Z, 1)].
Definition cube_pack : wulffpack :=
  mkWP (fun _ _ n => Ok (cube_particle (IZR n))) (fun _ _ _ _ n => Ok (cube_particle (IZR n)))
       (fun _ _ _ n => Ok (mkParticle [repeat (mkFacet (mkV 1 0 0) (IZR n) [mkV 1 1 1]) 20] [], 1)).

Lemma unit_axis x : norm x = 1 <-> dot x x = 1.
Proof. split; [apply unit_dot|apply dot_unit]. Qed.
Lemma cube_unit d : unit_facets (cube_facets d).
Proof. unfold cube_facets, unit_facets. cbn [map]. repeat constructor; cbn [f_normal]; apply unit_axis; unfold dot; cbn; ring. Qed.

Example C70_nonvacuous : exists grains, grain_planes 5 [repeat (mkFacet (mkV 1 0 0) 3 []) 10; repeat (mkFacet (mkV 0 1 0) 2 []) 5] = Ok grains /\
  length grains = 5%nat /\ length (nth 4 grains []) = 3%nat.
Proof.
  destruct (C70_facets_dealt 5 [repeat (mkFacet (mkV 1 0 0) 3 []) 10; repeat (mkFacet (mkV 0 1 0) 2 []) 5]) as (g & E & L & N & _).
  - lia.
  - assert (U : forall n d m, dot n n = 1 -> unit_facets (repeat (mkFacet n d []) m)).
    { intros n d m U. apply Forall_forall. intros f Hf. apply repeat_spec in Hf. subst. apply unit_axis. exact U. }
    constructor; [apply U; unfold dot; cbn; ring|]. constructor; [apply U; unfold dot; cbn; ring|constructor].
  - constructor; [exists 2%nat; reflexivity|]. constructor; [exists 1%nat; reflexivity|constructor].
  - exists g. split; [exact E|]. split; [exact L|]. specialize (N 4%nat ltac:(lia)).
    assert (Q : forall (a : list facet) (b : list plane), Forall2 bounds a b -> length b = length a) by (induction 1; cbn; congruence).
    rewrite (Q _ _ N). reflexivity.
Qed.

(** C91.  The particle returned by get_construction (first call) or winterbottom is the
    intersection of the facets' half spaces, filled with the given crystal. *)
Definition wulff_shape (w : world) (V : volume) (g : crystal) (fs : list facet) : Prop :=
  exists l, V = VLeaf l /\ l_gen l = Some (GCrystal g) /\
    forall x, vol_inside w V x = true <-> Forall (fun f => in_facet f x) fs.

Lemma plane_volume_shape w g fs : unit_facets fs ->
  exists l, plane_volume w (map fplane fs) (Some (GCrystal g)) = Ok l /\ l_points l = PNone /\ l_gen l = Some (GCrystal g) /\ l_prio l = 0%Z /\
    l_alg l = map APlane (map fplane fs) /\ forall x, vol_inside w (VLeaf l) x = true <-> Forall (fun f => in_facet f x) fs.
Proof.
  intros U. eexists. split; [reflexivity|]. repeat split; cbn [l_gen l_alg l_points with_alg with_prio with_gen empty_leaf].
  - intros H. cbn [vol_inside] in H. rewrite leaf_inside_eq in H. cbn [l_tri l_alg with_alg with_prio with_gen empty_leaf app] in H.
    cbn [andb] in H. rewrite forallb_forall in H. apply Forall_forall. intros f Hf. unfold unit_facets in U. rewrite Forall_forall in U.
    apply (fplane_bounds f (U f Hf)). apply (H (APlane (fplane f))). apply in_map, in_map. exact Hf.
  - intros H. cbn [vol_inside]. rewrite leaf_inside_eq. cbn [l_tri l_alg with_alg with_prio with_gen empty_leaf app andb].
    apply forallb_forall. intros a Ha. apply in_map_iff in Ha. destruct Ha as (pl & <- & Ha). apply in_map_iff in Ha. destruct Ha as (f & <- & Hf).
    unfold unit_facets in U. rewrite Forall_forall in U, H. apply (fplane_bounds f (U f Hf)). auto.
Qed.

Theorem C91_single_shape : forall w wp g energies natoms s p,
  new_single g energies natoms = Ok s ->
  wp_single wp (ws_energies s) (g_structure g) (ws_natoms s) = Ok p -> unit_facets (concat (pa_forms p)) ->
  exists s' V, single_construction w wp s = Ok (s', V) /\ wulff_shape w V g (concat (pa_forms p)).
Proof.
  intros w wp g e n s p H HP U. unfold new_single in H. inv_bind H. inv_bind H. injection H as <-. cbn [ws_energies ws_natoms] in HP.
  destruct (plane_volume_shape w g _ U) as (l & E & _ & G & _ & _ & I).
  unfold single_construction, single_wulff. cbn [ws_wulff ws_energies ws_gen ws_natoms]. rewrite HP. cbn [bind snd fst].
  rewrite planes_wulff_ok by assumption. cbn [bind]. rewrite E. cbn [bind].
  eexists _, (VLeaf l). split; [reflexivity|]. exists l. auto.
Qed.
Theorem C91_winterbottom_shape : forall w wp s interface e p,
  wp_winterbottom wp (ws_energies s) interface e (g_structure (ws_gen s)) (ws_natoms s) = Ok p -> unit_facets (concat (pa_forms p)) ->
  exists V, single_winterbottom w wp s interface e = Ok V /\ wulff_shape w V (ws_gen s) (concat (pa_forms p)).
Proof.
  intros w wp s i e p HP U. destruct (plane_volume_shape w (ws_gen s) _ U) as (l & E & _ & G & _ & _ & I).
  unfold single_winterbottom. rewrite HP. cbn [bind]. rewrite planes_wulff_ok by assumption. cbn [bind]. rewrite E. cbn [bind].
  exists (VLeaf l). split; [reflexivity|]. exists l. auto.
Qed.

Definition cube_object : wulff_single := mkWS cube_crystal 10 cube_energies None.
Example C91_nonvacuous : exists s' V, single_construction cube_world cube_pack cube_object = Ok (s', V) /\
  vol_inside cube_world V (mkV 9 9 9) = true /\ vol_inside cube_world V (mkV 11 0 0) = false.
Proof.
  destruct (C91_single_shape cube_world cube_pack cube_crystal (VDict [(KTuple [1; 0; 0]%Z, VFloat 1)]) (VInt 10) cube_object (cube_particle 10)) as (s' & V & E & l & -> & G & I).
  - reflexivity.
  - reflexivity.
  - cbn [pa_forms cube_particle concat]. rewrite app_nil_r. apply cube_unit.
  - exists s', (VLeaf l). split; [exact E|]. split.
    + apply I. unfold cube_particle, cube_facets, in_facet, dot. cbn. repeat constructor; cbn; lra.
    + apply not_true_is_false. intros H. apply I in H. unfold cube_particle, cube_facets in H. cbn in H.
      inversion H as [|? ? H1 _]. unfold in_facet, dot in H1. cbn in H1. lra.
Qed.

(** C92: a Wulff construction cannot be filled: every particle with at least four facets
    makes populate_atoms raise ValueError. *)
Theorem C92_populate_refuted : forall w wp g energies natoms s p s' V c,
  new_single g energies natoms = Ok s ->
  wp_single wp (ws_energies s) (g_structure g) (ws_natoms s) = Ok p -> unit_facets (concat (pa_forms p)) ->
  (4 <= length (concat (pa_forms p)))%nat -> single_construction w wp s = Ok (s', V) ->
  vol_populate w c V = Err ValueError.
Proof.
  intros w wp g e n s p s' V c H HP U L HC. unfold new_single in H. inv_bind H. inv_bind H. injection H as <-. cbn [ws_energies ws_natoms] in HP.
  destruct (plane_volume_shape w g _ U) as (l & E & PN & G & _ & AL & _).
  unfold single_construction, single_wulff in HC. cbn [ws_wulff ws_energies ws_gen ws_natoms] in HC. rewrite HP in HC. cbn [bind snd fst] in HC.
  rewrite planes_wulff_ok in HC by assumption. cbn [bind] in HC. rewrite E in HC. cbn [bind] in HC. injection HC as _ <-.
  cbn [vol_populate]. unfold leaf_populate, get_bounding_box. rewrite G, PN, AL.
  assert (SP : forall ps, spheres_of (map APlane ps) = []) by (induction ps; cbn; auto).
  assert (PL : forall ps, planes_of (map APlane ps) = ps) by (induction ps as [|q ps IH]; [reflexivity|]; cbn; f_equal; exact IH).
  rewrite SP, PL. rewrite map_length. destruct (Nat.ltb_spec 3 (length (concat (pa_forms p)))) as [_|Q]; [|lia].
  destruct (bounding_box_planes (w_linprog w) (w_halfspace w) (map fplane (concat (pa_forms p)))) as [v st]. reflexivity.
Qed.
Example C92_nonvacuous : exists s' V, single_construction cube_world cube_pack cube_object = Ok (s', V) /\
  vol_populate cube_world 0 V = Err ValueError.
Proof.
  destruct C91_nonvacuous as (s' & V & E & _). exists s', V. split; [exact E|].
  apply (C92_populate_refuted cube_world cube_pack cube_crystal (VDict [(KTuple [1; 0; 0]%Z, VFloat 1)]) (VInt 10) cube_object (cube_particle 10) s'); try assumption; try reflexivity.
  - cbn [pa_forms cube_particle concat]. rewrite app_nil_r. apply cube_unit.
  - cbn. lia.
Qed.

(** C93: the settings of a WulffSingle can be changed, but after the first call of
    get_construction the changes are ignored. *)
Theorem C93_settings_refuted : exists wp s s1 s2 V1 V2 Vnew,
  single_construction cube_world wp s = Ok (s1, V1) /\
  single_set_natoms s1 (VInt 20) = Ok s2 /\
  (exists s3, single_construction cube_world wp s2 = Ok (s3, V2)) /\ V2 = V1 /\
  (exists s4, single_construction cube_world wp (mkWS (ws_gen s) 20 (ws_energies s) None) = Ok (s4, Vnew)) /\
  vol_inside cube_world V2 (mkV 15 0 0) = false /\ vol_inside cube_world Vnew (mkV 15 0 0) = true.
Proof.
  assert (U : forall d, unit_facets (concat (pa_forms (cube_particle d)))).
  { intros d. cbn [pa_forms cube_particle concat]. rewrite app_nil_r. apply cube_unit. }
  destruct (plane_volume_shape cube_world cube_crystal _ (U 10)) as (l & E & _ & _ & _ & _ & I).
  destruct (plane_volume_shape cube_world cube_crystal _ (U 20)) as (l' & E' & _ & _ & _ & _ & I').
  exists cube_pack, cube_object, (mkWS cube_crystal 10 cube_energies (Some (cube_particle 10))), (mkWS cube_crystal 20 cube_energies (Some (cube_particle 10))), (VLeaf l), (VLeaf l), (VLeaf l').
  unfold single_construction, single_wulff.
  cbn [cube_object ws_wulff ws_energies ws_gen ws_natoms bind fst snd wp_single cube_pack].
  rewrite !planes_wulff_ok by apply U. cbn [bind]. rewrite E, E'. cbn [bind].
  split; [reflexivity|]. split; [reflexivity|]. split; [eexists; reflexivity|]. split; [reflexivity|]. split; [eexists; reflexivity|]. split.
  - apply not_true_is_false. intros H. apply I in H. unfold cube_particle, cube_facets in H. cbn in H.
    inversion H as [|? ? H1 _]. unfold in_facet, dot in H1. cbn in H1. lra.
  - apply I'. unfold cube_particle, cube_facets, in_facet, dot. cbn. repeat constructor; cbn; lra.
Qed.

(** what remains true: constructing twice gives the same particle, for every object *)
Theorem C93_repeatable_partial : forall w wp s s1 V,
  single_construction w wp s = Ok (s1, V) -> single_construction w wp s1 = Ok (s1, V).
Proof.
  intros w wp s s1 V H. unfold single_construction in *. inv_bind H. inv_bind H. inv_bind H. injection H as <- <-.
  destruct a as [s2 p]. cbn [fst snd] in *. unfold single_wulff in Ha. destruct (ws_wulff s) as [q|] eqn:Q.
  - injection Ha as <- <-. unfold single_wulff. rewrite Q. cbn [bind snd fst]. rewrite Ha0. cbn [bind]. rewrite Ha1. reflexivity.
  - inv_bind Ha. injection Ha as <- <-. unfold single_wulff. cbn [ws_wulff bind snd fst ws_gen]. rewrite Ha0. cbn [bind]. rewrite Ha1. reflexivity.
Qed.

(** C94: _strain_from_111 leaves the component along the crystal's [111] direction alone
    and scales the perpendicular part by sf. *)
Theorem C94_strain_111 : forall basis sf pts,
  let axis := mv basis (mkV 1 1 1) in
  norm axis <> 0 ->
  exists qs, strain_from_111 pts basis sf = Ok qs /\
    Forall2 (fun p q => exists along perp, p = vadd along perp /\ (exists c, along = vscale c axis) /\ dot perp axis = 0 /\
                        q = vadd along (vscale sf perp)) pts qs.
Proof.
  intros basis sf pts axis HN. unfold strain_from_111. fold axis. destruct (Reqb (norm axis) 0) eqn:E; [apply Reqb_iff in E; contradiction|].
  eexists. split; [reflexivity|]. set (u := vscale (/ norm axis) axis).
  assert (NP : 0 < norm axis). { pose proof (norm_pos axis). lra. }
  induction pts as [|p pts IH]; constructor; [|exact IH].
  exists (vscale (dot p u) u), (vsub p (vscale (dot p u) u)). split; [|split; [|split]].
  - vring.
  - exists (dot p u * / norm axis). unfold u at 2. vring.
  - assert (D : dot u axis = norm axis).
    { unfold u. transitivity (/ norm axis * dot axis axis); [vring|]. rewrite <- norm_sq. field. lra. }
    transitivity (dot p axis - dot p u * dot u axis); [vring|]. rewrite D. unfold u.
    transitivity (dot p axis - (/ norm axis * norm axis) * dot p axis); [vring|]. rewrite Rinv_l by lra. ring.
  - vring.
Qed.
Theorem C94_scale_expands : 1 < icosahedral_scale_factor.
Proof.
  unfold icosahedral_scale_factor, icosahedral_k. rewrite <- sqrt_1 at 1.
  assert (H5 : 2 < sqrt 5 < 3).
  { split; [apply Rsqr_incrst_0|apply Rsqr_incrst_0]; try (rewrite Rsqr_sqrt by lra; unfold Rsqr; lra); try apply sqrt_pos; lra. }
  apply sqrt_lt_1_alt. split; [lra|].
  apply (Rmult_lt_reg_r (3 * ((5 + sqrt 5) / 8) - 1)); [lra|]. unfold Rdiv at 2. rewrite Rmult_assoc, Rinv_l by lra. lra.
Qed.
Example C94_nonvacuous : norm (mv mI (mkV 1 1 1)) <> 0.
Proof. intros H. apply norm_zero in H. unfold mv, dot, mI, v0 in H. cbn in H. injection H. lra. Qed.

(** C95: which constructor arguments WulffSingle accepts. *)
Theorem C95_accepted : forall g energies natoms,
  (exists s, new_single g energies natoms = Ok s) <->
  (exists n, natoms = VInt n \/ exists r, natoms = VFloat r) /\
  (exists l, energies = VDict l /\ forall k v, In (k, v) l -> (exists h, k = KTuple h) /\ exists r, v = VFloat r).
Proof.
  intros g e n. split.
  - intros [s H]. unfold new_single in H. inv_bind H. inv_bind H. split.
    + unfold set_natoms in Ha. destruct n; try discriminate; [exists n|exists 0%Z]; eauto.
    + destruct e; try discriminate. exists l. split; [reflexivity|]. intros k v Hk. cbn [set_energies] in Ha0. apply mapM_Forall2 in Ha0.
      clear -Ha0 Hk. induction Ha0 as [|x y l l' X _ IH]; [contradiction|]. destruct Hk as [->|Hk]; [|auto].
      destruct k, v; try discriminate. eauto.
  - intros ([m M] & l & -> & L). unfold new_single. assert (exists z, set_natoms n = Ok z) as [z ->] by (destruct M as [-> | [r ->]]; cbn; eauto).
    cbn [bind set_energies]. assert (exists q, mapM energy_item l = Ok q) as [q ->].
    { induction l as [|[k v] l IH]; [cbn; eauto|]. destruct (L k v (or_introl eq_refl)) as ((h & ->) & r & ->).
      destruct IH as [q IH]. { intros. apply L. right. assumption. } cbn. rewrite IH. cbn. eauto. }
    cbn [bind]. eauto.
Qed.
(** and the settings it ends up with *)
Theorem C95_stored : forall g l n s, new_single g (VDict l) (VInt n) = Ok s ->
  ws_gen s = g /\ ws_natoms s = n /\ map (fun kv => (KTuple (fst kv), VFloat (snd kv))) (ws_energies s) = l.
Proof.
  intros g l n s H. unfold new_single in H. cbn [set_natoms bind set_energies] in H. inv_bind H. injection H as <-. cbn [ws_gen ws_natoms ws_energies].
  repeat split. apply mapM_Forall2 in Ha. induction Ha as [|[k v] y l l' X _ IH]; [reflexivity|]. cbn. rewrite IH. destruct k, v; try discriminate.
  injection X as <-. reflexivity.
Qed.
Example C95_nonvacuous : exists s, new_single cube_crystal (VDict [(KTuple [1; 1; 1]%Z, VFloat 1)]) (VInt 500) = Ok s.
Proof. eexists. reflexivity. Qed.

(** C96: get_areas needs an earlier call of get_construction. *)
Theorem C96_areas_refuted : forall g energies natoms s, new_single g energies natoms = Ok s -> single_areas s = Err AttributeError.
Proof. intros g e n s H. unfold new_single in H. inv_bind H. inv_bind H. injection H as <-. reflexivity. Qed.
Theorem C96_areas_partial : forall w wp s s1 V, single_construction w wp s = Ok (s1, V) ->
  exists p, single_areas s1 = Ok (pa_fractions p) /\ (ws_wulff s = None -> wp_single wp (ws_energies s) (g_structure (ws_gen s)) (ws_natoms s) = Ok p).
Proof.
  intros w wp s s1 V H. unfold single_construction in H. inv_bind H. inv_bind H. inv_bind H. injection H as <- <-.
  destruct a as [s2 p]. cbn [fst snd] in *. unfold single_wulff in Ha. exists p. destruct (ws_wulff s) as [q|] eqn:Q.
  - injection Ha as <- <-. unfold single_areas. rewrite Q. split; [reflexivity|discriminate].
  - inv_bind Ha. injection Ha as <- <-. split; [reflexivity|auto].
Qed.
Example C93_C96_nonvacuous : exists s1 V, single_construction cube_world cube_pack cube_object = Ok (s1, V) /\ ws_wulff cube_object = None.
Proof. destruct C91_nonvacuous as (s1 & V & E & _). exists s1, V. split; [exact E|reflexivity]. Qed.
