(** Views, exports and bounds: C122, C123, C124. *)
From Coq Require Import String Reals List ZArith Bool Permutation Lia Lra Sorting.Sorted.
From Verif.Model Require Import Base Vec Voxel Algebraic Generator Volume Molecule Scene Priority Views.
From Verif.Spec Require Import PrioritySpec SceneSpec ViewSpec.
From Verif.Proofs Require Import VecFacts PriorityFacts VolumeFacts SceneFacts.
From Verif.Props Require Import SceneProps GeneratorProps MotionProps.
Import ListNotations.
Open Scope R_scope.

Lemma insert_values v i l : map fst (unique_insert v i l) = (fix ins (l : list Z) := match l with [] => [v] | w :: t => if (v <? w)%Z then v :: w :: t else if (v =? w)%Z then w :: t else w :: ins t end) (map fst l).
Proof. induction l as [|[w j] t IH]; [reflexivity|]. cbn [unique_insert map fst]. destruct (v <? w)%Z; [reflexivity|]. destruct (v =? w)%Z; [reflexivity|]. cbn [map fst]. rewrite IH. reflexivity. Qed.
Lemma unique_values l : forall i, StronglySorted Z.lt (map fst (unique_from i l)) /\ forall s, In s (map fst (unique_from i l)) <-> In s l.
Proof.
  induction l as [|v l IH]; intros i; [split; [constructor|reflexivity]|]. cbn [unique_from]. rewrite insert_values. destruct (IH (S i)) as [SO IN]. revert SO IN.
  generalize (map fst (unique_from (S i) l)) as u. clear IH.
  intros u SO IN.
  assert (G : forall u, StronglySorted Z.lt u ->
     let r := (fix ins (l : list Z) := match l with [] => [v] | w :: t => if (v <? w)%Z then v :: w :: t else if (v =? w)%Z then w :: t else w :: ins t end) u in
     StronglySorted Z.lt r /\ forall s, In s r <-> v = s \/ In s u).
  { clear. induction u as [|w t IH]; intros S; cbn zeta.
    - split; [repeat constructor|]. intros s. cbn. tauto.
    - inversion S as [|? ? S' F]; subst. destruct (Z.ltb_spec v w).
      + split; [|intros s; cbn; tauto]. constructor; [constructor; auto|]. constructor; [auto|]. eapply Forall_impl; [|exact F]. cbn. intros; lia.
      + destruct (Z.eqb_spec v w); [subst; split; [auto|intros s; cbn; tauto]|].
        destruct (IH S') as [A B]. split.
        * constructor; [exact A|]. apply Forall_forall. intros x Hx. apply B in Hx as [<-|Hx]; [lia|]. rewrite Forall_forall in F. auto.
        * intros s. cbn [In]. rewrite B. tauto. }
  destruct (G u SO) as [A B]. split; [exact A|]. intros s. rewrite B, IN. cbn. tauto.
Qed.
Lemma compress_species s : forall a z, compress (map (fun x => Z.eqb x s) z) a = of_species s a z.
Proof.
  induction a as [|p a IH]; intros [|x z]; cbn [map compress of_species]; try reflexivity; [destruct (x =? s)%Z; reflexivity|].
  destruct (Z.eqb_spec x s), (Z.eq_dec x s); try contradiction; rewrite IH; reflexivity.
Qed.
Lemma mapM_total {A B} (f : A -> res B) (g : A -> B) l : (forall x, In x l -> f x = Ok (g x)) -> mapM f l = Ok (map g l).
Proof. induction l as [|x l IH]; intros H; [reflexivity|]. cbn [mapM map]. rewrite H by (left; auto). cbn [bind]. rewrite IH by (intros; apply H; right; auto). reflexivity. Qed.
Lemma group_perm : forall a z zs, length a = length z -> NoDup zs -> (forall s, In s z -> In s zs) ->
  Permutation (concat (map (fun s => of_species s a z) zs)) a.
Proof.
  induction a as [|p a IH]; intros [|x z] zs L ND IN; try discriminate L.
  - induction zs as [|s zs IHs]; [constructor|]. cbn [map concat of_species app]. apply IHs; [inversion ND; auto|]. intros s' [].
  - assert (L' : length a = length z) by (cbn in L; lia).
    specialize (IH z zs L' ND (fun s Hs => IN s (or_intror Hs))).
    assert (HX : In x zs) by (apply IN; left; auto).
    assert (G : forall zs, NoDup zs -> In x zs -> Permutation (concat (map (fun s => of_species s (p :: a) (x :: z)) zs)) (p :: concat (map (fun s => of_species s a z) zs))).
    { assert (N : forall zs, ~ In x zs -> concat (map (fun s => of_species s (p :: a) (x :: z)) zs) = concat (map (fun s => of_species s a z) zs)).
      { clear. induction zs as [|s zs IHs]; intros N; [reflexivity|]. cbn [map concat]. rewrite IHs by (intros H; apply N; right; auto). f_equal. cbn [of_species]. destruct (Z.eq_dec x s); [exfalso; apply N; left; auto|reflexivity]. }
      clear - N. induction zs as [|s zs IHs]; intros ND HX; [destruct HX|]. inversion ND; subst. cbn [map concat]. destruct (Z.eq_dec x s) as [->|NE].
      - rewrite N by auto. cbn [of_species]. destruct (Z.eq_dec s s); [reflexivity|congruence].
      - assert (Q : of_species s (p :: a) (x :: z) = of_species s a z) by (cbn [of_species]; destruct (Z.eq_dec x s); congruence). rewrite Q. destruct HX as [->|HX]; [congruence|]. eapply perm_trans; [apply Permutation_app_head, IHs; auto|]. symmetry. apply Permutation_middle. }
    eapply perm_trans; [apply G; auto|]. constructor. exact IH.
Qed.
Lemma sorted_nodup l : StronglySorted Z.lt l -> NoDup l.
Proof. induction 1 as [|a l S IH F]; constructor; auto. intros H. rewrite Forall_forall in F. specialize (F a H). lia. Qed.
Lemma of_species_some s : forall a z, length a = length z -> In s z -> of_species s a z <> [].
Proof.
  induction a as [|p a IH]; intros [|x z] L H; try discriminate L; [destruct H|]. cbn [of_species]. destruct (Z.eq_dec x s); [discriminate|]. destruct H as [->|H]; [congruence|]. apply IH; auto.
Qed.

(** C122.  Every panel shows every atom of the populated scene exactly once, one series for
    each species present; the first three panels are seen along the axes, and the limits
    are the bounds of the scene. *)
Theorem C122_view_shows_scene : forall w c s c' s' objs azim elev,
  sc_objects s = Some objs -> objs <> [] -> Forall obj_aligned objs -> populate w c s = Ok (c', s') ->
  exists fig a z zs, simple_scene_view s' azim elev = Ok fig /\ all_atoms s' = Ok a /\ all_species s' = Ok z /\
    StronglySorted Z.lt zs /\ (forall x, In x zs <-> In x z) /\
    (forall ax, In ax (panels fig) ->
       ax_series ax = map (fun x => of_species x a z) zs /\ Permutation (concat (ax_series ax)) a /\ Forall (fun pts => pts <> []) (ax_series ax) /\
       ax_limits ax = Some (sc_lo s, sc_hi s)) /\
    viewer (fig_x fig) = mkV 1 0 0 /\ viewer (fig_y fig) = mkV 0 (-1) 0 /\ viewer (fig_z fig) = mkV 0 0 1 /\
    ax_azim (fig_r fig) = azim /\ ax_elev (fig_r fig) = elev.
Proof.
  intros w c s c' s' objs azim elev E NE AL H.
  destruct (C04_positions_species_aligned _ _ _ _ _ _ E NE AL H) as (a & z & HA & HZ & L).
  assert (HB : sc_lo s' = sc_lo s /\ sc_hi s' = sc_hi s) by (apply populate_inv in H as (? & ? & _ & _ & ->); auto).
  destruct (unique_values z 0) as [SO IN]. fold (np_unique z) in SO, IN.
  assert (ES : series_by_species a z = Ok (map (fun x => of_species x a z) (np_unique z))).
  { unfold series_by_species. apply mapM_total. intros x _. unfold index_mask. rewrite map_length, L, Nat.eqb_refl, compress_species. reflexivity. }
  exists (four_views (map (fun x => of_species x a z) (np_unique z)) (Some (sc_lo s, sc_hi s)) azim elev), a, z, (np_unique z).
  split; [unfold simple_scene_view; rewrite HA, HZ; cbn [bind]; rewrite ES; cbn [bind]; destruct HB as [-> ->]; reflexivity|].
  split; [exact HA|]. split; [exact HZ|]. split; [exact SO|]. split; [exact IN|]. split.
  - intros ax Hax. assert (Q : ax_series ax = map (fun x => of_species x a z) (np_unique z) /\ ax_limits ax = Some (sc_lo s, sc_hi s)).
    { cbn in Hax. destruct Hax as [<-|[<-|[<-|[<-|[]]]]]; split; reflexivity. }
    destruct Q as [-> ->]. split; [reflexivity|]. split; [|split; [|reflexivity]].
    + apply group_perm; [exact L|apply sorted_nodup; exact SO|]. intros x Hx. apply IN, Hx.
    + apply Forall_forall. intros pts Hp. apply in_map_iff in Hp as (x & <- & Hx). apply of_species_some; [exact L|]. apply IN, Hx.
  - unfold viewer. cbn [four_views fig_x fig_y fig_z fig_r ax_azim ax_elev].
    replace (0 * (PI / 180)) with 0 by field. replace (-90 * (PI / 180)) with (- (PI / 2)) by field. replace (90 * (PI / 180)) with (PI / 2) by field.
    rewrite cos_neg, sin_neg, cos_0, sin_0, cos_PI2, sin_PI2. repeat split; apply vec_eq; cbn; lra.
Qed.
(** The view of an array of points: every panel shows all of them once, from the same
    sides. *)
Theorem C122_view_shows_points : forall data azim elev, let fig := simple_view_with_rotate data azim elev in
  (forall ax, In ax (panels fig) -> concat (ax_series ax) = data /\ ax_limits ax = None) /\
  viewer (fig_x fig) = mkV 1 0 0 /\ viewer (fig_y fig) = mkV 0 (-1) 0 /\ viewer (fig_z fig) = mkV 0 0 1 /\
  ax_azim (fig_r fig) = azim /\ ax_elev (fig_r fig) = elev.
Proof.
  intros data azim elev. cbv zeta. split.
  - intros ax Hax. cbn in Hax. destruct Hax as [<-|[<-|[<-|[<-|[]]]]]; (split; [apply app_nil_r|reflexivity]).
  - unfold viewer. cbn [simple_view_with_rotate four_views fig_x fig_y fig_z fig_r ax_azim ax_elev].
    replace (0 * (PI / 180)) with 0 by field. replace (-90 * (PI / 180)) with (- (PI / 2)) by field. replace (90 * (PI / 180)) with (PI / 2) by field.
    rewrite cos_neg, sin_neg, cos_0, sin_0, cos_PI2, sin_PI2. repeat split; apply vec_eq; cbn; lra.
Qed.
Example C122_nonvacuous : exists s', populate demo_world 0 demo_scene = Ok (0%nat, s') /\ all_atoms s' = Ok [mkV 5 0 0] /\
  sc_objects demo_scene <> None /\ exists fig, simple_scene_view s' (-60) 30 = Ok fig /\ ax_series (fig_r fig) = [[mkV 5 0 0]].
Proof.
  destruct demo_populates as (s' & H & _ & H2 & H3). exists s'. split; [auto|]. split; [auto|]. split; [discriminate|].
  unfold simple_scene_view. rewrite H2, H3. eexists. split; reflexivity.
Qed.

(** C123.  Whatever is added and assigned, the bounds are the rows of the last (2,3) array
    given, other arrays are refused and change nothing, and the exported cell spans from
    the first row to the second. *)
Lemma bounds_step s o : (forall a, o = SceneBounds a -> array_ok a) ->
  (sc_lo (scene_op_step s o), sc_hi (scene_op_step s o)) = last_bounds (sc_lo s, sc_hi s) [o] /\
  sc_checks (scene_op_step s o) = sc_checks s /\
  sc_objects (scene_op_step s o) = match o with SceneBounds _ => sc_objects s | SceneAdd x => Some (match sc_objects s with None => [x] | Some l => l ++ [x] end) end.
Proof.
  intros OK. destruct o as [a|x]; [|split; [reflexivity|split; reflexivity]]. specialize (OK a eq_refl). cbn [scene_op_step last_bounds]. unfold set_bounds, two_rows, array_ok in *.
  destruct a as [sh d]. cbn [a_shape a_data] in *.
  destruct sh as [|[|[|[|n]]] [|[|[|[|[|m]]]] [|k sh]]]; cbn [fst]; try (split; [reflexivity|split; reflexivity]); cbn in OK.
  destruct d as [|x [|y [|z [|x' [|y' [|z' [|q d]]]]]]]; cbn in OK; try lia. split; [reflexivity|split; reflexivity].
Qed.
Theorem C123_bounds : forall b objs h, (forall a, In (SceneBounds a) h -> array_ok a) ->
  let s0 := new_scene b objs in let s := scene_after s0 h in
  (sc_lo s, sc_hi s) = last_bounds (sc_lo s0, sc_hi s0) h /\
  sc_objects s = match objs ++ added h with [] => None | l => Some l end.
Proof.
  intros b objs h OK. cbv zeta.
  assert (O0 : sc_objects (new_scene b objs) = match objs with [] => None | l => Some l end).
  { unfold new_scene. set (s := mkScene _ _ None None). assert (G : forall l t k, sc_objects t = Some k -> sc_objects (fold_left add_object l t) = Some (k ++ l)).
    { clear. induction l as [|x l IH]; intros t k E; cbn [fold_left]; [rewrite E, app_nil_r; reflexivity|]. rewrite (IH _ (k ++ [x])); [rewrite <- app_assoc; reflexivity|]. cbn. rewrite E. reflexivity. }
    destruct objs as [|o l]; [reflexivity|]. cbn [fold_left]. rewrite (G l _ [o]); reflexivity. }
  revert O0. generalize (new_scene b objs) as s. revert objs. induction h as [|o h IH]; intros objs s O0; cbn [scene_after fold_left last_bounds added].
  - rewrite app_nil_r. split; [reflexivity|]. rewrite O0. destruct objs; reflexivity.
  - destruct (bounds_step s o) as (B & _ & O); [intros a ->; apply OK; left; auto|].
    destruct o as [a|x].
    + destruct (IH (fun a Ha => OK a (or_intror Ha)) objs (scene_op_step s (SceneBounds a))) as [I1 I2]; [rewrite O; exact O0|].
      unfold scene_after in *. rewrite I1, B. cbn [last_bounds]. split; [reflexivity|exact I2].
    + destruct (IH (fun a Ha => OK a (or_intror Ha)) (objs ++ [x]) (scene_op_step s (SceneAdd x))) as [I1 I2].
      { rewrite O, O0. destruct objs; reflexivity. }
      unfold scene_after in *. rewrite I1, B. cbn [last_bounds]. split; [reflexivity|]. rewrite I2, <- app_assoc. reflexivity.
Qed.
Theorem C123_refused : forall s a, array_ok a -> two_rows a = None -> set_bounds s a = (s, Err AssertionError).
Proof.
  intros s [sh d] OK T. unfold two_rows, set_bounds, array_ok in *. cbn [a_shape a_data] in *.
  destruct sh as [|[|[|[|n]]] [|[|[|[|[|m]]]] [|k sh]]]; try reflexivity. cbn in OK.
  destruct d as [|x [|y [|z [|x' [|y' [|z' [|q d]]]]]]]; cbn in OK; try lia. discriminate.
Qed.
(** The cell that is exported with a scene is the difference of its bounds as they are at
    that moment, even when they are out of order (the lengths are then negative). *)
Theorem C123_cell : forall s im lo hi, (sc_lo s, sc_hi s) = (lo, hi) -> ase_atoms s = Ok im -> ase_cell im = vsub hi lo.
Proof. intros s im lo hi B H. injection B as <- <-. unfold ase_atoms in H. inv_bind H. inv_bind H. injection H as <-. reflexivity. Qed.
Example C123_nonvacuous : let a := mkArr [2; 3]%nat [9; 9; 9; 0; 0; 0] in
  array_ok a /\ two_rows a = Some (mkV 9 9 9, mkV 0 0 0) /\ two_rows (mkArr [6%nat] [9; 9; 9; 0; 0; 0]) = None /\
  last_bounds (v0, v0) [SceneBounds a; SceneAdd (SMol demo_mol); SceneBounds (mkArr [6%nat] [1; 1; 1; 0; 0; 0])] = (mkV 9 9 9, mkV 0 0 0).
Proof. repeat split; reflexivity. Qed.

(** C124.  A filled volume, and any molecule, is exported with exactly its atoms and species
    in their order, and a molecule made from the export has them again; the volume is
    written by one call that carries the keywords of the caller. *)
Lemma settled_export w c v c' v' : vol_populate w c v = Ok (c', v') ->
  exists a z, vol_result v' = Some (a, z) /\ length z = length a /\ obj_ase_atoms (SVol v') = Ok (mkAse z a v0).
Proof.
  intros H. destruct (ob_populate_aligned w c (SVol v) c' (SVol v')) as [L N]; [exact I|cbn [ob_populate]; rewrite H; reflexivity|].
  unfold ob_atoms, ob_species in L. unfold obj_ase_atoms, read_species, read_atoms. cbn [ob_result] in *.
  destruct (vol_result v') as [[a z]|] eqn:E; [|congruence]. cbn [fst snd] in *. exists a, z. split; [reflexivity|]. split; [auto|]. cbn [bind]. rewrite L, Nat.eqb_refl. reflexivity.
Qed.
Lemma import_of z a cell : length z = length a -> from_ase_atoms (Some (mkAse z a cell)) = Ok (mkMol z a false (Some v0) None mI 0).
Proof. intros L. unfold from_ase_atoms, new_molecule, set_atoms. cbn [ase_symbols ase_positions]. rewrite L, Nat.eqb_refl. reflexivity. Qed.
Theorem C124_volume_export : forall w c v c' v', vol_populate w c v = Ok (c', v') ->
  exists a z, vol_result v' = Some (a, z) /\
    obj_ase_atoms (SVol v') = Ok (mkAse z a v0) /\
    (forall fmt dwf, vol_to_file v' fmt dwf = Ok [mkWrite (mkAse z a v0) fmt dwf]) /\
    exists m, from_ase_atoms (Some (mkAse z a v0)) = Ok m /\ m_atoms m = a /\ m_species m = z /\ mol_origin m = Ok v0 /\ m_orient m = mI /\ m_prio m = 0%Z.
Proof.
  intros w c v c' v' H. destruct (settled_export w c v c' v' H) as (a & z & R & L & E). exists a, z. split; [exact R|]. split; [exact E|]. split.
  - intros fmt dwf. unfold vol_to_file. rewrite E. reflexivity.
  - eexists. split; [apply import_of; exact L|]. repeat split.
Qed.
Theorem C124_molecule_export : forall m, obj_aligned (SMol m) ->
  exists im m', obj_ase_atoms (SMol m) = Ok im /\ from_ase_atoms (Some im) = Ok m' /\ m_atoms m' = m_atoms m /\ m_species m' = m_species m.
Proof.
  intros m L. cbn in L. exists (mkAse (m_species m) (m_atoms m) v0). eexists. split.
  - unfold obj_ase_atoms, read_species, read_atoms. cbn. rewrite L, Nat.eqb_refl. reflexivity.
  - split; [apply import_of; auto|]. split; reflexivity.
Qed.
(** A volume that was never populated cannot be exported, and nothing is written. *)
Theorem C124_unpopulated : forall v fmt dwf, vol_result v = None ->
  obj_ase_atoms (SVol v) = Err AttributeError /\ vol_to_file v fmt dwf = Err AttributeError.
Proof. intros v fmt dwf H. unfold vol_to_file, obj_ase_atoms, read_species. cbn [ob_result]. rewrite H. split; reflexivity. Qed.
(** A pymatgen molecule keeps its sites. *)
Theorem C124_pymatgen : forall sites, exists m, from_pmg_molecule (Some sites) = Ok m /\ combine (m_species m) (m_atoms m) = sites.
Proof.
  intros sites. unfold from_pmg_molecule, new_molecule, set_atoms. rewrite !map_length, Nat.eqb_refl. cbn [bind]. eexists. split; [reflexivity|].
  cbn [set_origin_point m_species m_atoms]. induction sites as [|[z p] l IH]; [reflexivity|]. cbn [map fst snd combine]. rewrite IH. reflexivity.
Qed.
(** A nest of two crystal balls is populated; an empty sphere as it is made has no result. *)
Example C124_nonvacuous : exists w v', vol_populate w 0 (VMulti 1 [VLeaf ex_ball; VLeaf (with_prio ex_ball 2)] None) = Ok (0%nat, v') /\ vol_result demo_void = None.
Proof.
  destruct C121_nonvacuous as (w & m & objs & A & B & C & FM & _). inversion FM as [|? ? MV _]; subst.
  destruct (volume_moved w quarter_turn A B C _ MV) as (_ & v0 & _ & _ & P & _). exists w, v0. split; [apply P|reflexivity].
Qed.
