(** Volumes: C05, C09, C11, C14-C18, C75. *)
From Coq Require Import Reals List ZArith Bool Lra Lia Permutation.
From Verif.Model Require Import Base Vec Algebraic Transform Voxel Post Generator Volume Priority.
From Verif.Spec Require Import PrioritySpec Geometry AlgSpec.
From Verif.Proofs Require Import PriorityFacts VecFacts VolumeFacts HullFacts AlgFacts VolTransFacts.
Import ListNotations.
Open Scope R_scope.

(* ------------------------------------------------------------------ *)
(** * C05: MultiVolume *)

(** Interior of a MultiVolume is the union of its members'. *)
Theorem C05_interior_is_union : forall w prio vols cache p,
  vol_inside w (VMulti prio vols cache) p = true <-> exists v, In v vols /\ vol_inside w v p = true.
Proof. intros. cbn [vol_inside]. rewrite existsb_exists. reflexivity. Qed.

(** After populate_atoms() a MultiVolume holds, as a multiset of (position, species)
    pairs, exactly its members' atoms that are outside every other member of priority
    <= theirs; each such atom is interior.  Members may be MultiVolumes, to which the
    theorem applies again. *)
Theorem C05_multivolume_precedence : forall w c prio vols cache c' v',
  vol_populate w c (VMulti prio vols cache) = Ok (c', v') ->
  exists pvols ats sps,
    Forall2 (fun v pv => exists c1 c2, vol_populate w c1 v = Ok (c2, pv)) vols pvols /\
    vol_result v' = Some (ats, sps) /\ length ats = length sps /\
    Permutation (combine ats sps) (contents vol_prio vol_atoms vol_species (vol_inside w) pvols) /\
    (forall p, In p ats -> vol_inside w v' p = true) /\
    vol_prio v' = prio /\ (forall p, vol_inside w v' p = vol_inside w (VMulti prio vols cache) p).
Proof.
  intros w c prio vols cache c' v' H. pose proof (vol_populate_static _ _ _ _ _ H) as [HS1 HS2].
  pose proof (populate_settled _ _ _ _ _ H) as HSet. cbn [vol_populate] in H. inv_bind H. destruct a as [c1 vs1].
  cbn [fst snd] in H.
  assert (HSm : Forall (settled w) vs1).
  { apply mapMS_Forall2 in Ha. clear -Ha.
    induction Ha as [|a b la lb (s1 & s2 & Hab) _ IHl]; constructor; auto. eapply populate_settled; eauto. }
  assert (HA : forall o, In o vs1 -> length (vol_atoms o) = length (vol_species o)).
  { rewrite Forall_forall in HSm. intros; eapply settled_aligned; eauto. }
  destruct (resolve_correct vol_prio vol_atoms vol_species (vol_inside w) vs1 HA) as [R1 R2].
  destruct (sort_by vol_prio vs1) as [|x xs] eqn:E; [discriminate|]. inversion H; subst.
  exists vs1. do 2 eexists. split; [eapply mapMS_Forall2; eauto|]. split; [reflexivity|]. split; [exact R2|].
  split; [exact R1|]. split; [|split; [reflexivity|exact HS2]].
  intros p Hp. eapply settled_inside; [exact HSet|]. exact Hp.
Qed.

(** All Volumes of a tree, at any depth. *)
Fixpoint leaves (v : volume) : list leaf :=
  match v with VLeaf l => [l] | VMulti _ vs _ => flat_map leaves vs end.
(** At any depth nothing is invented: an atom of a populated tree is an atom of one
    of its Volumes, and is interior to that Volume. *)
Theorem C05_atoms_come_from_leaves : forall w v c c' v' p z,
  vol_populate w c v = Ok (c', v') -> In (p, z) (combine (vol_atoms v') (vol_species v')) ->
  exists l ats sps, In l (leaves v') /\ l_atoms l = Some (ats, sps) /\
    In (p, z) (combine ats sps) /\ leaf_inside w l p = true.
Proof.
  intros w v c c' v' p z H. apply populate_settled in H. clear v c c'. revert H.
  induction v' as [l|pr vs ca IH] using volume_ind'; intros H HI; inversion H; subst.
  - cbn [leaves]. unfold vol_atoms, vol_species, vol_result in *. destruct (l_atoms l) as [[ats sps]|] eqn:E; [|destruct HI].
    exists l, ats, sps. cbn [fst snd] in *. repeat split; auto; [left; auto|]. apply H2. eapply in_combine_l; eauto.
  - cbn [vol_atoms vol_species vol_result fst snd] in HI. apply (Permutation_in _ H6) in HI. unfold contents in HI.
    apply in_flat_map in HI as ([o os] & Ho & HI). unfold contribution in HI. apply filter_In in HI as [HI _]. cbn [fst snd] in HI.
    apply in_each in Ho as [Ho _]. rewrite Forall_forall in IH, H4. destruct (IH o Ho (H4 o Ho) HI) as (l & ats' & sps' & Hl & R).
    exists l, ats', sps'. split; [|exact R]. cbn [leaves]. apply in_flat_map. eauto.
Qed.

(** Witness: two overlapping balls inside a MultiVolume, the void first. *)
Definition amorph : amorphous := mkAm None 6 1 1 (Some ([mkV 0 0 0; mkV 5 0 0], [6; 8]%Z)) true.
Definition big_ball : leaf := mkLeaf PNone None None [ASphere (mkSphere 10 v0 1)] (Some (GAmorphous amorph)) 1 1 None.
Definition small_void : leaf := mkLeaf PNone None None [ASphere (mkSphere 1 v0 1)] (Some GNull) 0 1 None.
Definition any_world : world :=
  mkWorld (fun _ _ _ => true) (fun _ => true) (fun _ => LPfail 2) (fun _ _ => None) (fun _ _ _ => 0) [].
Lemma big_in0 : sphere_interior (mkSphere 10 v0 1) (mkV 0 0 0) = true.
Proof. unfold sphere_interior, v0; cbn. apply Rltb_iff. lra. Qed.
Lemma big_in5 : sphere_interior (mkSphere 10 v0 1) (mkV 5 0 0) = true.
Proof. unfold sphere_interior, v0; cbn. apply Rltb_iff. lra. Qed.
Lemma small_in0 : sphere_interior (mkSphere 1 v0 1) (mkV 0 0 0) = true.
Proof. unfold sphere_interior, v0; cbn. apply Rltb_iff. lra. Qed.
Lemma small_in5 : sphere_interior (mkSphere 1 v0 1) (mkV 5 0 0) = false.
Proof. unfold sphere_interior, v0; cbn. apply Rltb_false. lra. Qed.
Example C05_nonvacuous : exists v',
  vol_populate any_world 0 (VMulti 3 [VMulti 1 [VLeaf big_ball] None; VLeaf small_void] None) = Ok (0%nat, v') /\
  vol_atoms v' = [mkV 5 0 0] /\ vol_species v' = [8%Z].
Proof.
  eexists. split.
  { cbn -[sphere_interior leaf_check]. rewrite !leaf_check_map. cbn -[sphere_interior leaf_check].
    unfold leaf_inside. cbn -[sphere_interior]. unfold big_ball; cbn -[sphere_interior].
    rewrite big_in0, big_in5. cbn -[sphere_interior]. reflexivity. }
  cbn -[sphere_interior]. unfold leaf_inside; cbn -[sphere_interior]. rewrite ?small_in0, ?small_in5. cbn -[sphere_interior]. auto.
Qed.

(* ------------------------------------------------------------------ *)
(** * C09: populate_atoms keeps exactly the supplied interior atoms *)
Theorem C09_populate_keeps_interior : forall w c l c' l',
  leaf_populate w c l = Ok (c', l') ->
  exists g g' coords species ats sps,
    l_gen l = Some g /\
    supply_atoms (w_mk w) (w_draws w) c g (get_bounding_box w l) = Ok (c', g', (coords, species)) /\
    length coords = length species /\ l_atoms l' = Some (ats, sps) /\ length ats = length sps /\
    combine ats sps = filter (fun q => leaf_inside w l (fst q)) (combine coords species) /\
    (* everything else about the volume is as before *)
    l_points l' = l_points l /\ l_hull l' = l_hull l /\ l_tri l' = l_tri l /\ l_alg l' = l_alg l /\
    l_prio l' = l_prio l /\ l_tol l' = l_tol l.
Proof.
  intros w c l c' l' H. apply leaf_populate_inv in H as (g & g' & co & sp & HG & HS & L & ->).
  exists g, g', co, sp. do 2 eexists. split; [auto|]. split; [exact HS|]. split; [auto|]. split; [reflexivity|].
  assert (Q : forall co sp, length sp = length co ->
    length (filter (leaf_inside w l) co) = length (map snd (filter (fun ps => leaf_inside w l (fst ps)) (@combine vec Z co sp))) /\
    combine (filter (leaf_inside w l) co) (map snd (filter (fun ps => leaf_inside w l (fst ps)) (@combine vec Z co sp))) =
    filter (fun q => leaf_inside w l (fst q)) (@combine vec Z co sp)).
  { clear. induction co as [|x co IH]; intros [|y sp] L; cbn in *; try discriminate; auto. injection L as L.
    destruct (IH sp L) as [I1 I2]. destruct (leaf_inside w l x); cbn; [rewrite I1, I2|]; auto. }
  destruct (Q co sp L) as [Q1 Q2]. split; [exact Q1|]. split; [exact Q2|]. cbn. repeat split; reflexivity.
Qed.
Example C09_nonvacuous : exists l', leaf_populate any_world 0 big_ball = Ok (0%nat, l') /\
  l_atoms l' = Some ([mkV 0 0 0; mkV 5 0 0], [6; 8]%Z).
Proof.
  eexists. split.
  { unfold leaf_populate. cbn -[sphere_interior leaf_check]. rewrite leaf_check_map. cbn -[sphere_interior].
    unfold leaf_inside. cbn -[sphere_interior]. rewrite big_in0, big_in5. cbn. reflexivity. }
  reflexivity.
Qed.

(* ------------------------------------------------------------------ *)
(** * C11: plane-bounded volumes can never be populated with a crystal *)
Theorem C11_plane_bounded_populate_refuted : forall w c l g,
  l_points l = PNone -> spheres_of (l_alg l) = [] -> (4 <= length (planes_of (l_alg l)))%nat ->
  l_gen l = Some (GCrystal g) -> leaf_populate w c l = Err ValueError.
Proof.
  intros w c l g HP HS HN HG. unfold leaf_populate. rewrite HG. unfold get_bounding_box. rewrite HP, HS.
  destruct (Nat.ltb_spec 3 (length (planes_of (l_alg l)))); [|lia].
  destruct (bounding_box_planes _ _ _) as [v st]. reflexivity.
Qed.
Definition half (n : vec) : alg := APlane (mkPlane n n 1).
Definition cube6 : leaf := mkLeaf PNone None None
  [half (mkV 1 0 0); half (mkV (-1) 0 0); half (mkV 0 1 0); half (mkV 0 (-1) 0); half (mkV 0 0 1); half (mkV 0 0 (-1))]
  (Some (GCrystal (mkCrystal (mkStruct mI [v0] [6%Z]) (mkVoxel mI (SAll 1) v0) None None))) 0 1 None.
Example C11_nonvacuous : Forall valid_alg (l_alg cube6) /\ forall w c, leaf_populate w c cube6 = Err ValueError.
Proof.
  split; [|intros; eapply C11_plane_bounded_populate_refuted; cbn; try reflexivity; lia].
  repeat constructor; cbn; try lra; apply dot_unit; vring.
Qed.

(* ------------------------------------------------------------------ *)
(** * C14: volumes defined by points can not be transformed *)

(** Every transformation of such a volume raises ValueError and leaves it without
    usable points: populating it with a crystal then raises as well. *)
Theorem C14_point_volume_transform_refuted : forall w l pts t,
  l_points l = PArr pts ->
  exists l', leaf_transform w l t = (l', Err ValueError) /\ l_points l' = PBad /\
    forall c g, l_gen l' = Some (GCrystal g) -> leaf_populate w c l' = Err ValueError.
Proof.
  intros w l pts t H. unfold leaf_transform. rewrite H. cbn. eexists. split; [reflexivity|]. split; [reflexivity|].
  intros c g HG. unfold leaf_populate. rewrite HG. unfold get_bounding_box. cbn [l_points with_points]. reflexivity.
Qed.

(* ------------------------------------------------------------------ *)
(** * C15: adding points *)

(** The interior test is unchanged by addPoints once a hull exists, for every point. *)
Theorem C15_add_points_refuted : forall w l old h a l',
  l_points l = PArr old -> l_hull l = Some h ->
  add_points w l a = (l', Ok tt) ->
  (exists new, l_points l' = PArr (old ++ new) /\ l_hull l' = Some (h ++ new)) /\
  forall p, leaf_inside w l' p = leaf_inside w l p.
Proof.
  intros w l old h a l' HP HH H. unfold add_points in H. rewrite HP in H. destruct a as [v|new]; cbn in H; rewrite HH in H;
    inversion H; subst; cbn; split; eauto.
Qed.
(** So with exact triangulation queries a point of the enlarged hull is reported
    outside. *)
Definition exact_find (w : world) (tol : R) (pts : list vec) : Prop :=
  forall p, w_find w pts tol p = true <-> in_hull pts p.
Theorem C15_added_point_outside_refuted : forall w l old a l' p,
  l_points l = PArr old -> l_hull l = Some old -> l_tri l = Some old -> exact_find w (l_tol l) old ->
  add_points w l a = (l', Ok tt) -> ~ in_hull old p -> leaf_inside w l' p = false.
Proof.
  intros w l old a l' p HP HH HT EF H HN.
  destruct (C15_add_points_refuted w l old old a l' HP HH H) as [_ ->]. rewrite leaf_inside_eq, HT.
  destruct (w_find w old (l_tol l) p) eqn:E; [|reflexivity]. exfalso. apply HN, EF, E.
Qed.
(** Without a previous hull the interior is that of all the points. *)
Theorem C15_add_points_partial : forall w l pts l' p,
  l_points l = PNone -> l_hull l = None -> l_alg l = [] -> exact_find w (l_tol l) pts ->
  add_points w l (A2 pts) = (l', Ok tt) -> (leaf_inside w l' p = true <-> in_hull pts p).
Proof.
  intros w l pts l' p HP HH HA EF H. unfold add_points in H. rewrite HP in H. cbn [l_hull with_points] in H. rewrite HH in H.
  unfold createHull in H. cbn [l_points with_points] in H. destruct (Nat.leb (length pts) 3); [discriminate|].
  destruct (w_qhull w pts); [|discriminate]. inversion H; subst. rewrite leaf_inside_eq. cbn. rewrite HA. cbn.
  rewrite andb_true_r. apply EF.
Qed.
(** The hypotheses can be met: a tetrahedron and an oracle exact on it. *)
Definition tetra : list vec := [mkV 0 0 0; mkV 1 0 0; mkV 0 1 0; mkV 0 0 1].
Lemma tetra_hull p : in_hull tetra p <-> 0 <= vx p /\ 0 <= vy p /\ 0 <= vz p /\ vx p + vy p + vz p <= 1.
Proof.
  split.
  - intros (ws & L & F & S & ->). destruct ws as [|a [|b [|c [|d [|e ws]]]]]; try discriminate.
    inversion F as [|? ? Fa F1]; inversion F1 as [|? ? Fb F2]; inversion F2 as [|? ? Fc F3]; inversion F3 as [|? ? Fd _]; subst.
    cbn in *. lra.
  - intros (X & Y & Z & S). exists [1 - vx p - vy p - vz p; vx p; vy p; vz p]. split; [reflexivity|]. split.
    { repeat apply Forall_cons; try apply Forall_nil; lra. } split; [cbn; lra|]. destruct p; cbn in *. apply vec_eq; cbn; lra.
Qed.
Definition tetra_find (tol : R) (p : vec) : bool :=
  Rleb (- tol) (vx p) && Rleb (- tol) (vy p) && Rleb (- tol) (vz p) && Rleb (- tol) (1 - vx p - vy p - vz p).
Definition tetra_world (exact : bool) : world :=
  mkWorld (fun _ tol p => tetra_find (if exact then 0 else tol) p)
          (fun _ => true) (fun _ => LPfail 2) (fun _ _ => None) (fun _ _ _ => 0) [].
Lemma tetra_exact tol : exact_find (tetra_world true) tol tetra.
Proof.
  intros p. rewrite tetra_hull. cbn. unfold tetra_find. rewrite !andb_true_iff, !Rleb_iff. lra.
Qed.
Example C15_nonvacuous :
  exists l l', new_volume (tetra_world true) (Some tetra) [] None None 0 default_vtol = Ok l /\
    add_points (tetra_world true) l (A2 [mkV 2 2 2]) = (l', Ok tt) /\
    l_points l = PArr tetra /\ l_hull l = Some tetra /\ l_tri l = Some tetra /\
    exact_find (tetra_world true) (l_tol l) tetra /\
    in_hull (tetra ++ [mkV 2 2 2]) (mkV 2 2 2) /\ ~ in_hull tetra (mkV 2 2 2).
Proof.
  do 2 eexists. split; [reflexivity|]. split; [reflexivity|]. split; [reflexivity|]. split; [reflexivity|].
  split; [reflexivity|]. split; [apply tetra_exact|]. split; [|rewrite tetra_hull; cbn; lra].
  apply in_hull_mem. cbn. auto 10.
Qed.

(* ------------------------------------------------------------------ *)
(** * C16: from_volume *)

(** A volume whose hull and triangulation are those of its points. *)
Definition fresh_hull (w : world) (l : leaf) : Prop :=
  match l_points l with
  | PNone => l_hull l = None /\ l_tri l = None
  | PArr p => l_hull l = Some p /\ l_tri l = Some p /\ (4 <= length p)%nat /\ w_qhull w p = true
  | PBad => False
  end.
(** The copy has the same points, objects, generator and priority, but always the
    default tolerance; the same interior if the original has that tolerance or no
    points. *)
Theorem C16_from_volume_partial : forall w l gen,
  fresh_hull w l -> l_gen l = Some gen ->
  exists l', leaf_from_volume w l None [] = Ok l' /\
    l_points l' = l_points l /\ l_hull l' = l_hull l /\ l_tri l' = l_tri l /\ l_alg l' = l_alg l /\
    l_gen l' = l_gen l /\ l_prio l' = l_prio l /\ l_tol l' = default_vtol /\ fresh_hull w l' /\
    ((l_points l = PNone \/ l_tol l = default_vtol) -> forall p, leaf_inside w l' p = leaf_inside w l p).
Proof.
  intros w l gen HF HG. unfold leaf_from_volume, fresh_hull in *.
  destruct (l_points l) as [|pts|] eqn:EP; [| |destruct HF].
  - destruct HF as [H1 H2]. unfold new_volume. cbn [bind add_generator]. rewrite HG. destruct gen; cbn; eexists; (split; [reflexivity|]);
      cbn -[leaf_inside]; rewrite ?H1, ?H2; repeat (split; [auto|]); intros _ p; rewrite !leaf_inside_eq; cbn; rewrite H2; reflexivity.
  - destruct HF as (H1 & H2 & H3 & H4). unfold new_volume, add_points. cbn [l_points empty_leaf l_hull with_points].
    unfold createHull. cbn [l_points with_points]. rewrite (proj2 (Nat.leb_gt _ _)) by lia. rewrite H4. cbn [rmap bind].
    rewrite HG. destruct gen; cbn; eexists; (split; [reflexivity|]);
      cbn -[leaf_inside]; rewrite ?H1, ?H2; repeat (split; [auto|]); intros [E|E] p; try discriminate; rewrite !leaf_inside_eq; cbn; rewrite H2, E; reflexivity.
Qed.
Lemma last_cons_default {A} : forall (l : list A) a d, last (a :: l) d = last l a.
Proof. induction l as [|x l IH]; intros a d; [reflexivity|]. rewrite IH, <- (IH x d). reflexivity. Qed.
(** Copying with transformations is copying and then transforming in order; a
    generator keyword replaces the generator. *)
Theorem C16_from_volume_transformations : forall w l g ts l',
  leaf_from_volume w l g ts = Ok l' <->
  exists l0 vs, leaf_from_volume w l g [] = Ok l0 /\ length vs = length ts /\
    (forall i t a b, nth_error ts i = Some t -> nth_error (l0 :: vs) i = Some a -> nth_error vs i = Some b ->
       leaf_transform w a t = (b, Ok tt)) /\
    last vs l0 = l'.
Proof.
  intros w l g ts l'. unfold leaf_from_volume.
  set (A := match l_points l with PNone => _ | PArr p => _ | PBad => _ end).
  destruct A as [a|e]; cbn [bind]; [|split; [discriminate|intros (l0 & vs & H & _); discriminate]].
  set (B := match match g with Some g0 => Some g0 | None => l_gen l end with Some g0 => _ | None => _ end).
  destruct B as [b|e]; cbn [bind foldM]; [|split; [discriminate|intros (l0 & vs & H & _); discriminate]].
  split.
  - intros H. exists b. revert b H. induction ts as [|t ts IH]; intros b H; cbn [foldM] in H.
    + inversion H; subst. exists []. repeat split; auto. intros [|i] ? ? ? Hi; discriminate.
    + inv_bind H. destruct (leaf_transform w b t) as [v' [[]|]] eqn:E; cbn in Ha; inversion Ha; subst.
      destruct (IH _ H) as (vs & _ & L & HS & HL). exists (a0 :: vs). split; [reflexivity|]. split; [cbn; auto|]. split.
      * intros [|i] t0 x y Hi Hx Hy; cbn in Hi, Hx, Hy; [inversion Hi; inversion Hx; inversion Hy; subst; auto|].
        eapply HS; eauto.
      * rewrite last_cons_default. exact HL.
  - intros (l0 & vs & E & L & HS & HL). inversion E; subst l0. clear E. revert b vs L HS HL.
    induction ts as [|t ts IH]; intros b [|v vs] L HS HL; cbn in L; try discriminate; cbn [foldM].
    + cbn in HL. subst. reflexivity.
    + rewrite (HS 0%nat t b v eq_refl eq_refl eq_refl). cbn [rmap bind]. apply (IH v vs); auto.
      * intros i t0 x y Hi Hx Hy. apply (HS (S i) t0 x y); auto.
      * rewrite last_cons_default in HL. exact HL.
Qed.
(** The tolerance is not copied: with find_simplex accepting points within the
    tolerance, a point can be inside the original and outside the copy. *)
Theorem C16_tolerance_refuted : exists l l' p,
  new_volume (tetra_world false) (Some tetra) [] (Some GNull) None 0 (1/2) = Ok l /\
  leaf_from_volume (tetra_world false) l None [] = Ok l' /\
  leaf_inside (tetra_world false) l p = true /\ leaf_inside (tetra_world false) l' p = false.
Proof.
  do 2 eexists. exists (mkV (-1/4) (1/4) (1/4)). split; [reflexivity|]. split; [reflexivity|].
  split; rewrite leaf_inside_eq; cbn.
  - unfold tetra_find. cbn. rewrite andb_true_r. rewrite !andb_true_iff, !Rleb_iff. lra.
  - unfold tetra_find. cbn. rewrite (proj2 (Rleb_false _ _)); [reflexivity|]. unfold default_vtol. lra.
Qed.
(** A volume that has no generator yet can not be copied at all. *)
Theorem C16_copy_without_generator_refuted : forall w l ts,
  fresh_hull w l -> l_gen l = None -> leaf_from_volume w l None ts = Err TypeError.
Proof.
  intros w l ts HF HG. unfold leaf_from_volume, fresh_hull in *.
  destruct (l_points l) as [|pts|] eqn:EP; [| |destruct HF].
  - unfold new_volume. cbn [bind]. rewrite HG. reflexivity.
  - destruct HF as (H1 & H2 & H3 & H4). unfold new_volume, add_points. cbn [l_points empty_leaf l_hull with_points].
    unfold createHull. cbn [l_points with_points]. rewrite (proj2 (Nat.leb_gt _ _)) by lia. rewrite H4. cbn [rmap bind].
    rewrite HG. reflexivity.
Qed.
Example C16_nonvacuous : exists l,
  new_volume (tetra_world true) (Some tetra) [half (mkV 1 0 0)] (Some GNull) None 3 default_vtol = Ok l /\
  fresh_hull (tetra_world true) l /\ l_gen l = Some GNull /\ l_tol l = default_vtol.
Proof. eexists. split; [reflexivity|]. repeat split; auto; cbn; lia. Qed.

(* ------------------------------------------------------------------ *)
(** * C17: the interior of a volume is the intersection of its parts *)
Theorem C17_interior_is_intersection : forall w l p,
  leaf_inside w l p = true <->
  (forall t, l_tri l = Some t -> w_find w t (l_tol l) p = true) /\
  (forall a, In a (l_alg l) -> alg_interior a p = true).
Proof.
  intros w l p. rewrite leaf_inside_eq, andb_true_iff, forallb_forall. destruct (l_tri l) as [t|]; split; intros [H1 H2]; split; auto.
  intros t' E. inversion E; subst; auto.
  intros t' E; discriminate.
Qed.
(** With exact triangulation queries "inside the hull" is membership in the convex
    hull of the points. *)
Theorem C17_interior_of_point_volume : forall w l pts p,
  l_tri l = Some pts -> exact_find w (l_tol l) pts ->
  (leaf_inside w l p = true <-> in_hull pts p /\ forall a, In a (l_alg l) -> alg_interior a p = true).
Proof.
  intros w l pts p HT EF. rewrite C17_interior_is_intersection. rewrite HT. split.
  - intros [H1 H2]. split; auto. apply EF. auto.
  - intros [H1 H2]. split; auto. intros t E. inversion E; subst. apply EF; auto.
Qed.
Theorem C17_order_irrelevant : forall w l algs p,
  Permutation (l_alg l) algs -> leaf_inside w (with_alg l algs) p = leaf_inside w l p.
Proof.
  intros w l algs p HP. apply bool_iff_eq. rewrite !C17_interior_is_intersection. cbn [with_alg l_tri l_tol l_alg].
  split; intros [H1 H2]; split; auto; intros a Ha; apply H2.
  - eapply Permutation_in; eauto.
  - eapply Permutation_in; [symmetry|]; eauto.
Qed.
Theorem C17_adding_only_removes : forall w l a p,
  leaf_inside w (with_alg l (l_alg l ++ [a])) p = leaf_inside w l p && alg_interior a p.
Proof.
  intros w l a p. rewrite !leaf_inside_eq. cbn [with_alg l_tri l_tol l_alg]. rewrite forallb_app. cbn [forallb].
  rewrite andb_true_r, andb_assoc. reflexivity.
Qed.
Theorem C17_unbounded_volume : forall w tol prio g p l,
  new_volume w None [] g None prio tol = Ok l -> leaf_inside w l p = true.
Proof.
  intros w tol prio g p l H. unfold new_volume in H. cbn [bind] in H.
  destruct g as [g|]; [destruct g|]; cbn in H; inversion H; subst; reflexivity.
Qed.
(** The array version of checkIfInterior (masks combined over the whole batch) gives
    for each row the answer for that point, for Volumes and MultiVolumes. *)
Theorem C17_batch_is_pointwise : forall w v ps,
  length (vol_check w v ps) = length ps /\
  forall i p b, nth_error ps i = Some p -> nth_error (vol_check w v ps) i = Some b -> b = vol_inside w v p.
Proof.
  intros w v ps. rewrite vol_check_map. split; [apply map_length|]. intros i p b Hp Hb.
  rewrite nth_error_map, Hp in Hb. inversion Hb. reflexivity.
Qed.

(* ------------------------------------------------------------------ *)
(** * C18: rigid motions of algebraically bounded volumes *)

(** The object is moved even when transforming its generator fails (see C75). *)
Theorem C18_rigid_motion_of_volume : forall w l t,
  l_points l = PNone -> l_tri l = None -> Forall valid_alg (l_alg l) -> rigid t ->
  forall p, leaf_inside w (fst (leaf_transform w l t)) (apply_pt t p) = leaf_inside w l p.
Proof. intros w l t HP HT HV HR. apply (leaf_transform_rigid w l t HP HT HV HR). Qed.

(** Trees: [alg_bounded] says every leaf is bounded by valid algebraic objects only. *)
Definition alg_bounded (v : volume) : Prop :=
  forall l, In l (leaves v) -> l_points l = PNone /\ l_tri l = None /\ Forall valid_alg (l_alg l).
Lemma alg_bounded_only v : alg_bounded v -> alg_only v.
Proof.
  induction v as [l|pr vs ca IH] using volume_ind'; intros H.
  - apply H. left; auto.
  - cbn [alg_only]. unfold alg_bounded in H. cbn [leaves] in H. induction IH as [|x vs Hx _ IHv]; cbn; auto. split.
    + apply Hx. intros l Hl. apply H. cbn. apply in_or_app; auto.
    + apply IHv. intros l Hl. apply H. cbn. apply in_or_app; auto.
Qed.
Theorem C18_rigid_motion_of_multivolume : forall w v v' t,
  alg_bounded v -> rigid t -> vol_transform w v t = (v', Ok tt) ->
  vol_prio v' = vol_prio v /\ forall p, vol_inside w v' (apply_pt t p) = vol_inside w v p.
Proof.
  intros w v v' t HA HR H. apply (vol_transform_rigid w t HR v v' (alg_bounded_only v HA) H).
Qed.
Example C18_volume_nonvacuous : exists v',
  alg_bounded (VMulti 3 [VLeaf big_ball; VMulti 0 [VLeaf small_void] None] None) /\
  rigid (TMulti [TTranslation (mkV 1 2 3) false false; TInversion None false false]) /\
  vol_transform any_world (VMulti 3 [VLeaf big_ball; VMulti 0 [VLeaf small_void] None] None)
    (TMulti [TTranslation (mkV 1 2 3) false false; TInversion None false false]) = (v', Ok tt).
Proof.
  eexists. split; [|split].
  - intros l Hl. cbn in Hl. destruct Hl as [<-|[<-|[]]]; repeat split; repeat constructor; cbn; lra.
  - repeat constructor.
  - reflexivity.
Qed.

(* ------------------------------------------------------------------ *)
(** * C75: a locked transformation of a volume without crystalline generator *)

(** With the default locked=True, transforming a Volume that carries an
    AmorphousGenerator or a NullGenerator raises AttributeError -- after its surfaces
    have been moved. *)
Theorem C75_locked_transform_refuted : forall w l t g,
  l_points l = PNone -> l_tri l = None -> Forall valid_alg (l_alg l) -> rigid t -> locked t = true ->
  l_gen l = Some g -> (forall c, g <> GCrystal c) ->
  snd (leaf_transform w l t) = Err AttributeError /\
  l_gen (fst (leaf_transform w l t)) = Some g /\
  forall p, leaf_inside w (fst (leaf_transform w l t)) (apply_pt t p) = leaf_inside w l p.
Proof.
  intros w l t g HP HT HV HR HL HG HC. split; [|split; [|apply C18_rigid_motion_of_volume; auto]];
  rewrite leaf_transform_nopoints by auto;
  destruct (go_alg_rigid t HR (l_alg l) [] HV) as (out & E & _); rewrite E; cbn [app];
  unfold gen_step; rewrite HL; cbn [with_alg l_gen]; rewrite HG;
  destruct g as [c|a|]; try (exfalso; apply (HC c); reflexivity); cbn; first [reflexivity|exact HG].
Qed.
(** It does work for volumes with a crystalline generator of invertible basis, or
    with no generator, or when the transformation is not locked. *)
Theorem C75_locked_transform_partial : forall w l t,
  l_points l = PNone -> Forall valid_alg (l_alg l) -> rigid t ->
  (locked t = false \/ l_gen l = None \/
   exists c c', l_gen l = Some (GCrystal c) /\ crystal_transform c t = Ok c') ->
  snd (leaf_transform w l t) = Ok tt.
Proof.
  intros w l t HP HV HR HX. rewrite leaf_transform_nopoints by auto.
  destruct (go_alg_rigid t HR (l_alg l) [] HV) as (out & E & _). rewrite E. cbn [app].
  unfold gen_step. cbn [with_alg l_gen]. destruct HX as [->|[->|(c & c' & -> & HC)]].
  - reflexivity.
  - destruct (locked t); reflexivity.
  - destruct (locked t); [|reflexivity]. cbn [generator_transform]. rewrite HC. reflexivity.
Qed.
Example C75_nonvacuous : locked (TTranslation (mkV 1 0 0) true false) = true /\
  snd (leaf_transform any_world small_void (TTranslation (mkV 1 0 0) true false)) = Err AttributeError.
Proof. split; reflexivity. Qed.
