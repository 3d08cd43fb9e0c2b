(** Generators assembled step by step (C133). *)
From Coq Require Import Reals List Bool ZArith Arith Lra Lia.
From Verif.Model Require Import Base Vec Algebraic Transform Voxel Strain Post Amorphous Misc Generator TransformObj GenObj.
From Verif.Spec Require Import Geometry HistorySpec CrystalSpec GenObjSpec.
From Verif.Proofs Require Import VecFacts VolumeFacts.
From Verif.Props Require Import GeneratorProps PrefabObjProps.
Import ListNotations.
Open Scope R_scope.

(* ------------------------------------------------------------------ *)
(** * Lattices *)
Lemma cross_dot a b : dot (cross a b) (cross a b) = dot a a * dot b b - dot a b * dot a b.
Proof. vring. Qed.
Lemma collinear_parallel a b : collinear a b = true <-> parallel a b.
Proof.
  split.
  - intros H. unfold collinear in H. destruct (Reqb (norm a * norm b) 0) eqn:E; [discriminate|]. apply Reqb_false in E. apply Reqb_iff in H.
    assert (Na : norm a <> 0) by nra. assert (Nb : norm b <> 0) by nra.
    assert (Za : a <> v0) by (intros ->; apply Na, norm_v0). split; [exact Za|].
    assert (A : dot a a <> 0) by (rewrite <- norm_sq; nra). assert (B : dot b b <> 0) by (rewrite <- norm_sq; nra).
    assert (S : dot a b * dot a b = dot a a * dot b b).
    { assert (Q : dot a b / (norm a * norm b) * (dot a b / (norm a * norm b)) = 1).
      { set (q := dot a b / (norm a * norm b)) in *. unfold Rabs in H. destruct (Rcase_abs q); nra. }
      rewrite <- !norm_sq. apply (Rmult_eq_reg_r (/ (norm a * norm b) * / (norm a * norm b))).
      - replace (dot a b * dot a b * (/ (norm a * norm b) * / (norm a * norm b))) with (dot a b / (norm a * norm b) * (dot a b / (norm a * norm b))) by (unfold Rdiv; ring).
        rewrite Q. field. auto.
      - apply Rmult_integral_contrapositive_currified; apply Rinv_neq_0_compat; auto. }
    exists (dot a b / dot a a). split.
    + intros Z. assert (dot a b = 0) by (apply (Rmult_eq_reg_r (/ dot a a)); [unfold Rdiv in Z; lra|apply Rinv_neq_0_compat; auto]).
      assert (dot a a * dot b b <> 0) by (apply Rmult_integral_contrapositive_currified; auto). nra.
    + assert (D : dot (vsub b (vscale (dot a b / dot a a) a)) (vsub b (vscale (dot a b / dot a a) a)) = 0).
      { replace (dot (vsub b (vscale (dot a b / dot a a) a)) (vsub b (vscale (dot a b / dot a a) a)))
          with (dot b b - 2 * (dot a b / dot a a) * dot a b + (dot a b / dot a a) * (dot a b / dot a a) * dot a a) by (generalize (dot a b / dot a a); vring).
        apply (Rmult_eq_reg_r (dot a a)); auto.
        replace ((dot b b - 2 * (dot a b / dot a a) * dot a b + dot a b / dot a a * (dot a b / dot a a) * dot a a) * dot a a) with (dot b b * dot a a - dot a b * dot a b) by (field; auto). lra. }
      apply dot_zero in D. replace b with (vadd (vsub b (vscale (dot a b / dot a a) a)) (vscale (dot a b / dot a a) a)) at 1 by (generalize (dot a b / dot a a); intros; destruct a, b; vring). rewrite D. generalize (dot a b / dot a a). intros. destruct a. vring.
  - intros (Za & k & Hk & ->). unfold collinear. assert (A : 0 < dot a a).
    { destruct (Rle_lt_or_eq_dec 0 (dot a a)) as [|Z]; [rewrite <- norm_sq; nra|auto|]. exfalso. apply Za. apply dot_zero. auto. }
    assert (N : 0 < norm a) by (pose proof (norm_pos a); pose proof (norm_sq a); destruct (Rle_lt_or_eq_dec _ _ H); auto; nra).
    assert (NS : norm (vscale k a) = Rabs k * norm a).
    { unfold norm. replace (dot (vscale k a) (vscale k a)) with (k * k * dot a a) by vring. rewrite sqrt_mult_alt by nra. f_equal. apply sqrt_Rsqr_abs. }
    assert (K : 0 < Rabs k) by (apply Rabs_pos_lt; auto).
    rewrite NS. rewrite (proj2 (Reqb_false _ _)) by (intros Z; assert (norm a * (Rabs k * norm a) > 0) by (repeat apply Rmult_lt_0_compat; auto); lra).
    apply Reqb_iff. replace (dot a (vscale k a)) with (k * (norm a * norm a)) by (rewrite norm_sq; vring).
    replace (k * (norm a * norm a) / (norm a * (Rabs k * norm a))) with (k / Rabs k) by (field; split; lra).
    unfold Rdiv. rewrite Rabs_mult, Rabs_inv, Rabs_Rabsolu. field. lra.
Qed.
Lemma lattice_ok b : ~ flat_lattice b <-> check_bases b = Ok b.
Proof.
  unfold flat_lattice. rewrite <- !collinear_parallel. unfold check_bases. destruct (collinear (r0 b) (r1 b)), (collinear (r0 b) (r2 b)), (collinear (r1 b) (r2 b)); split; intros H; try reflexivity; try discriminate;
    try (exfalso; apply H; auto; fail); intros [?|[?|?]]; discriminate.
Qed.
Lemma lattice_bad b : flat_lattice b -> check_bases b = Err AssertionError.
Proof.
  unfold flat_lattice. rewrite <- !collinear_parallel. unfold check_bases. destruct (collinear (r0 b) (r1 b)), (collinear (r0 b) (r2 b)), (collinear (r1 b) (r2 b)); auto.
  intros [?|[?|?]]; discriminate.
Qed.
Lemma flat_dec b : flat_lattice b \/ ~ flat_lattice b.
Proof. unfold flat_lattice. rewrite <- !collinear_parallel. destruct (collinear (r0 b) (r1 b)), (collinear (r0 b) (r2 b)), (collinear (r1 b) (r2 b)); auto; right; intros [?|[?|?]]; discriminate. Qed.
Lemma mI_ok : check_bases mI = Ok mI.
Proof. apply check_bases_det. vunfold. lra. Qed.
Lemma origin_read a : length (a_data a) = fold_right Nat.mul 1%nat (a_shape a) ->
  (origin_arr a = Ok (arr_vec a) /\ origin_given (GOrigin a) (arr_vec a)) \/ (origin_arr a = Err AssertionError /\ forall x, ~ origin_given (GOrigin a) x).
Proof.
  intros L. unfold origin_arr.
  assert (D : a_shape a = [3%nat] \/ a_shape a <> [3%nat]) by (destruct (list_eq_dec Nat.eq_dec (a_shape a) [3%nat]); auto).
  destruct D as [D|D].
  - left. rewrite D. split; [reflexivity|]. exists a. split; [reflexivity|]. split; [exact D|]. rewrite D in L. cbn in L. unfold arr_vec, at_.
    destruct (a_data a) as [|x [|y [|z [|w l]]]]; cbn in *; try lia. reflexivity.
  - right. split.
    + destruct (a_shape a) as [|[|[|[|[|n]]]] [|m s]]; try reflexivity. contradiction.
    + intros x (a' & E & S & _). injection E as <-. contradiction.
Qed.
Lemma origin_det o x y : origin_given o x -> origin_given o y -> x = y.
Proof. intros (a & -> & _ & D) (b & E & _ & D'). injection E as <-. rewrite D in D'. injection D' as E1 E2 E3. destruct x, y; cbn in *; congruence. Qed.

(* ------------------------------------------------------------------ *)
(** * C133: any history of assignments *)
(** the voxel the attributes describe: none before the first origin or proper structure *)
Definition framed (h : list g_op) : Prop := Exists (fun o => (exists b, proper_lattice o b) \/ (exists x, origin_given o x)) h.
Theorem C133_history_partial : forall h, Forall plain h -> let g := g_run new_gobj h in
  last_of asks_structure None h (go_structure g) /\ last_of asks_strain None h (go_strain g) /\ last_of asks_post None h (go_post g) /\
  (framed h -> exists b o, latest proper_lattice mI h b /\ latest origin_given v0 h o /\ go_voxel g = Some (mkVoxel b (SAll 1) o)) /\
  (~ framed h -> go_voxel g = None).
Proof.
  intros h HP. cbv zeta.
  enough (K : last_of asks_structure None h (go_structure (g_run new_gobj h)) /\ last_of asks_strain None h (go_strain (g_run new_gobj h)) /\ last_of asks_post None h (go_post (g_run new_gobj h)) /\
    exists b o, latest proper_lattice mI h b /\ latest origin_given v0 h o /\
    ((framed h /\ go_voxel (g_run new_gobj h) = Some (mkVoxel b (SAll 1) o)) \/ (~ framed h /\ go_voxel (g_run new_gobj h) = None /\ b = mI /\ o = v0))).
  { destruct K as (K1 & K2 & K3 & b & o & K4 & K5 & K6). repeat (split; [assumption|]). destruct K6 as [[F V]|(F & V & _)]; split; intros X; try contradiction; auto. exists b, o. auto. }
  induction h as [|o h IH] using rev_ind.
  - split; [constructor|]. split; [constructor|]. split; [constructor|]. exists mI, v0. split; [constructor|]. split; [constructor|]. right. split; [intros F; inversion F|]. auto.
  - apply Forall_app in HP as [HP PO]. inversion PO as [|? ? P _]; subst. destruct (IH HP) as (K1 & K2 & K3 & b & x & K4 & K5 & K6). clear IH.
    assert (RS : g_run new_gobj (h ++ [o]) = fst (g_step (g_run new_gobj h) o)) by (unfold g_run; rewrite fold_left_app; reflexivity).
    rewrite RS. set (g := g_run new_gobj h) in *. clearbody g. destruct g as [st vo sf po]. cbn [go_structure go_strain go_post go_voxel] in *.
    assert (FR : framed (h ++ [o]) <-> framed h \/ ((exists b, proper_lattice o b) \/ (exists x, origin_given o x))).
    { unfold framed. rewrite Exists_app. split; (intros [A|A]; [left; exact A|right]); [inversion A as [? ? B|? ? B]; subst; [exact B|inversion B]|constructor; exact A]. }
    destruct o as [[s|]|a|[v|]|[f|]|[p|]|t]; cbn [plain] in P; try contradiction;
      try (assert (NP : forall y, ~ proper_lattice (GStructure None) y) by (intros y Q; inversion Q)).
    + (* structure *)
      assert (NO : forall y, ~ origin_given (GStructure (Some s)) y) by (intros y (a & E & _); discriminate).
      assert (KO : latest origin_given v0 (h ++ [GStructure (Some s)]) x) by (eapply latest_keep; eauto).
      destruct (flat_dec (st_matrix s)) as [FL|NF].
      * assert (NL : forall y, ~ proper_lattice (GStructure (Some s)) y) by (intros y Q; inversion Q; contradiction).
        assert (SE : exists e, set_structure vo s = Err e) by (unfold set_structure, new_voxel; rewrite (lattice_bad _ FL); destruct vo; cbn; eauto).
        destruct SE as [e SE]. cbn [g_step]. rewrite SE. cbn [fst go_structure go_strain go_post go_voxel].
        split; [exact (last_update asks_structure _ _ _ (GStructure (Some s)) K1)|]. split; [exact (last_update asks_strain _ _ _ (GStructure (Some s)) K2)|].
        split; [exact (last_update asks_post _ _ _ (GStructure (Some s)) K3)|]. exists b, x. split; [eapply latest_keep; eauto|]. split; [exact KO|].
        destruct K6 as [[F V]|(F & V & Eb & Ex)]; [left; split; [apply FR; auto|exact V]|right; split; [|auto]]. intros X. apply FR in X as [X|[[y X]|[y X]]]; [auto|eapply NL; eauto|eapply NO; eauto].
      * assert (SE : set_structure vo s = Ok (mkVoxel (st_matrix s) (SAll 1) x)).
        { unfold set_structure, new_voxel. rewrite (proj1 (lattice_ok _) NF). destruct K6 as [[F ->]|(F & -> & Eb & ->)]; reflexivity. }
        cbn [g_step]. rewrite SE. cbn [fst go_structure go_strain go_post go_voxel].
        split; [exact (last_update asks_structure _ _ _ (GStructure (Some s)) K1)|]. split; [exact (last_update asks_strain _ _ _ (GStructure (Some s)) K2)|].
        split; [exact (last_update asks_post _ _ _ (GStructure (Some s)) K3)|]. exists (st_matrix s), x. split; [eapply latest_set; eauto; constructor; auto|]. split; [exact KO|].
        left. split; [apply FR; right; left; eexists; constructor; auto|reflexivity].
    + (* not a structure *)
      cbn [g_step fst go_structure go_strain go_post go_voxel].
      assert (NO : forall y, ~ origin_given (GStructure None) y) by (intros y (a & E & _); discriminate).
      split; [exact (last_update asks_structure _ _ _ (GStructure None) K1)|]. split; [exact (last_update asks_strain _ _ _ (GStructure None) K2)|]. split; [exact (last_update asks_post _ _ _ (GStructure None) K3)|].
      exists b, x. split; [eapply latest_keep; eauto|]. split; [eapply latest_keep; eauto|].
      destruct K6 as [[F V]|(F & V & E)]; [left; split; [apply FR; auto|exact V]|right; split; [|auto]]. intros X. apply FR in X as [X|[[y X]|[y X]]]; [auto|eapply NP; eauto|eapply NO; eauto].
    + (* origin *)
      assert (NL : forall y, ~ proper_lattice (GOrigin a) y) by (intros y Q; inversion Q).
      assert (KL : latest proper_lattice mI (h ++ [GOrigin a]) b) by (eapply latest_keep; eauto).
      destruct (origin_read a P) as [[E G]|[E G]].
      * assert (ST : fst (g_step (mkGO st vo sf po) (GOrigin a)) = mkGO st (Some (mkVoxel b (SAll 1) (arr_vec a))) sf po).
        { cbn [g_step]. rewrite E. destruct K6 as [[F ->]|(F & -> & -> & ->)]; [reflexivity|]. unfold new_voxel. rewrite mI_ok. reflexivity. }
        rewrite ST. cbn [go_structure go_strain go_post go_voxel].
        split; [exact (last_update asks_structure _ _ _ (GOrigin a) K1)|]. split; [exact (last_update asks_strain _ _ _ (GOrigin a) K2)|]. split; [exact (last_update asks_post _ _ _ (GOrigin a) K3)|].
        exists b, (arr_vec a). split; [exact KL|]. split; [eapply latest_set; eauto|]. left. split; [apply FR; right; right; eauto|reflexivity].
      * cbn [g_step]. rewrite E. cbn [fst go_structure go_strain go_post go_voxel].
        split; [exact (last_update asks_structure _ _ _ (GOrigin a) K1)|]. split; [exact (last_update asks_strain _ _ _ (GOrigin a) K2)|]. split; [exact (last_update asks_post _ _ _ (GOrigin a) K3)|].
        exists b, x. split; [exact KL|]. split; [eapply latest_keep; eauto|].
        destruct K6 as [[F V]|(F & V & E')]; [left; split; [apply FR; auto|exact V]|right; split; [|auto]]. intros X. apply FR in X as [X|[[y X]|[y X]]]; [auto|eapply NL; eauto|eapply G; eauto].
    + (* strain *)
      cbn [g_step fst go_structure go_strain go_post go_voxel].
      assert (NO : forall y, ~ origin_given (GStrain (Some f)) y) by (intros y (a & E & _); discriminate).
      assert (NL : forall y, ~ proper_lattice (GStrain (Some f)) y) by (intros y Q; inversion Q).
      split; [exact (last_update asks_structure _ _ _ (GStrain (Some f)) K1)|]. split; [exact (last_update asks_strain _ _ _ (GStrain (Some f)) K2)|]. split; [exact (last_update asks_post _ _ _ (GStrain (Some f)) K3)|].
      exists b, x. split; [eapply latest_keep; eauto|]. split; [eapply latest_keep; eauto|].
      destruct K6 as [[F V]|(F & V & E)]; [left; split; [apply FR; auto|exact V]|right; split; [|auto]]. intros X. apply FR in X as [X|[[y X]|[y X]]]; [auto|eapply NL; eauto|eapply NO; eauto].
    + cbn [g_step fst go_structure go_strain go_post go_voxel].
      assert (NO : forall y, ~ origin_given (GStrain None) y) by (intros y (a & E & _); discriminate).
      assert (NL : forall y, ~ proper_lattice (GStrain None) y) by (intros y Q; inversion Q).
      split; [exact (last_update asks_structure _ _ _ (GStrain None) K1)|]. split; [exact (last_update asks_strain _ _ _ (GStrain None) K2)|]. split; [exact (last_update asks_post _ _ _ (GStrain None) K3)|].
      exists b, x. split; [eapply latest_keep; eauto|]. split; [eapply latest_keep; eauto|].
      destruct K6 as [[F V]|(F & V & E)]; [left; split; [apply FR; auto|exact V]|right; split; [|auto]]. intros X. apply FR in X as [X|[[y X]|[y X]]]; [auto|eapply NL; eauto|eapply NO; eauto].
    + (* post *)
      cbn [g_step fst go_structure go_strain go_post go_voxel].
      assert (NO : forall y, ~ origin_given (GPost (Some p)) y) by (intros y (a & E & _); discriminate).
      assert (NL : forall y, ~ proper_lattice (GPost (Some p)) y) by (intros y Q; inversion Q).
      split; [exact (last_update asks_structure _ _ _ (GPost (Some p)) K1)|]. split; [exact (last_update asks_strain _ _ _ (GPost (Some p)) K2)|]. split; [exact (last_update asks_post _ _ _ (GPost (Some p)) K3)|].
      exists b, x. split; [eapply latest_keep; eauto|]. split; [eapply latest_keep; eauto|].
      destruct K6 as [[F V]|(F & V & E)]; [left; split; [apply FR; auto|exact V]|right; split; [|auto]]. intros X. apply FR in X as [X|[[y X]|[y X]]]; [auto|eapply NL; eauto|eapply NO; eauto].
    + cbn [g_step fst go_structure go_strain go_post go_voxel].
      assert (NO : forall y, ~ origin_given (GPost None) y) by (intros y (a & E & _); discriminate).
      assert (NL : forall y, ~ proper_lattice (GPost None) y) by (intros y Q; inversion Q).
      split; [exact (last_update asks_structure _ _ _ (GPost None) K1)|]. split; [exact (last_update asks_strain _ _ _ (GPost None) K2)|]. split; [exact (last_update asks_post _ _ _ (GPost None) K3)|].
      exists b, x. split; [eapply latest_keep; eauto|]. split; [eapply latest_keep; eauto|].
      destruct K6 as [[F V]|(F & V & E)]; [left; split; [apply FR; auto|exact V]|right; split; [|auto]]. intros X. apply FR in X as [X|[[y X]|[y X]]]; [auto|eapply NL; eauto|eapply NO; eauto].
Qed.

(** a refused assignment changes nothing, unless it is that of a structure *)
Theorem C133_refused_partial : forall g o g' e, g_step g o = (g', Err e) -> (forall s, o <> GStructure (Some s)) -> g' = g.
Proof.
  intros [st vo sf po] o g' e H N. destruct o as [[s|]|a|[v|]|[f|]|[p|]|t]; cbn in H; try congruence.
  - exfalso. eapply N. reflexivity.
  - destruct (origin_arr a); [|congruence]. destruct vo; [congruence|]. destruct (new_voxel _ _); congruence.
  - destruct vo as [v|]; [|congruence]. destruct (set_bases _ _); congruence.
Qed.
(** C133 fails for structures: one whose lattice has parallel vectors is refused, yet its sites
    are stored and from then on supplied on the lattice of the structure before. *)
Theorem C133_structure_refuted : forall s1 s2 h, ~ flat_lattice (st_matrix s1) -> flat_lattice (st_matrix s2) ->
  let g1 := fst (g_step (g_run new_gobj h) (GStructure (Some s1))) in
  exists v, snd (g_step g1 (GStructure (Some s2))) = Err AssertionError /\
    vo_bases v = st_matrix s1 /\ fst (g_step g1 (GStructure (Some s2))) = mkGO (Some s2) (Some v) (go_strain g1) (go_post g1) /\ go_voxel g1 = Some v.
Proof.
  intros s1 s2 h N1 F2. set (g := g_run new_gobj h). destruct g as [st vo sf po]. cbv zeta. cbn [g_step].
  assert (S : exists v, set_structure vo s1 = Ok v /\ vo_bases v = st_matrix s1).
  { unfold set_structure, new_voxel. rewrite (proj1 (lattice_ok _) N1). destruct vo; cbn; eauto. }
  destruct S as (v & S & B). rewrite S. cbn [fst go_strain go_post go_voxel]. exists v.
  assert (S2 : set_structure (Some v) s2 = Err AssertionError) by (unfold set_structure, new_voxel; rewrite (lattice_bad _ F2); reflexivity).
  cbn [g_step]. rewrite S2. cbn. auto.
Qed.
(** and before the first voxel exists: the generator has a structure that it cannot supply *)
Theorem C133_no_voxel : forall mk c h bbox, Forall plain h -> ~ framed h -> g_supply mk c (g_run new_gobj h) bbox = Err AttributeError.
Proof.
  intros mk c h bbox P N. destruct (C133_history_partial h P) as (_ & _ & _ & _ & V). unfold g_supply. rewrite (V N). reflexivity.
Qed.

(** once there is a structure and a lattice, the generator supplies the crystal described by
    the last structure's sites, the last proper lattice and the last origin *)
Theorem C133_supplies_partial : forall h s, Forall plain h -> framed h -> last_of asks_structure None h (Some s) ->
  exists b o, latest proper_lattice mI h b /\ latest origin_given v0 h o /\
  exists sf po, last_of asks_strain None h sf /\ last_of asks_post None h po /\
  forall mk c bbox, rmap snd (g_supply mk c (g_run new_gobj h) bbox) =
    rmap snd (crystal_supply mk c (mkCrystal s (mkVoxel b (SAll 1) o) sf po) bbox).
Proof.
  intros h s P F LS. destruct (C133_history_partial h P) as (K1 & K2 & K3 & KF & _). destruct (KF F) as (b & o & L1 & L2 & V).
  exists b, o. split; [exact L1|]. split; [exact L2|]. exists (go_strain (g_run new_gobj h)), (go_post (g_run new_gobj h)). split; [exact K2|]. split; [exact K3|].
  intros mk c bbox.
  assert (S : go_structure (g_run new_gobj h) = Some s).
  { assert (DET : forall x y, last_of asks_structure None h x -> last_of asks_structure None h y -> x = y).
    { clear. intros x y Hx. revert y. induction Hx as [b|b h o x Hx IH y E|b h o x Hx IH E]; intros z Hz; inversion Hz; subst; auto;
        repeat match goal with K : [] = ?l ++ [_] |- _ => destruct l; discriminate K | K : ?l ++ [_] = [] |- _ => destruct l; discriminate K
        | K : _ ++ [_] = _ ++ [_] |- _ => apply app_inj_tail in K as [? ?]; subst end; try congruence; auto. }
    eapply DET; eauto. }
  unfold g_supply. rewrite V, S. destruct (crystal_supply mk c _ bbox) as [[[c' k] at']|e]; reflexivity.
Qed.
(** the constructor's origin and structure may come in either order *)
Theorem C133_order : forall s a x, ~ flat_lattice (st_matrix s) -> origin_given (GOrigin a) x ->
  g_run new_gobj [GStructure (Some s); GOrigin a] = g_run new_gobj [GOrigin a; GStructure (Some s)] /\
  make_gobj (Some a) (Some (Some s)) None = Ok (g_run new_gobj [GOrigin a; GStructure (Some s)]) /\
  exists k, new_crystal s None (Some x) = Ok k /\ g_run new_gobj [GOrigin a; GStructure (Some s)] = mkGO (Some (g_structure k)) (Some (g_voxel k)) (g_strain k) (g_post k).
Proof.
  intros s a x N G. assert (L := proj1 (lattice_ok _) N).
  assert (E : origin_arr a = Ok x).
  { destruct G as (a' & E & S & D). injection E as <-. unfold origin_arr, arr_vec, at_. rewrite S, D. destruct x; reflexivity. }
  assert (S0 : set_structure None s = Ok (mkVoxel (st_matrix s) (SAll 1) v0)) by (unfold set_structure, new_voxel; rewrite L; reflexivity).
  assert (S1 : new_voxel mI x = Ok (mkVoxel mI (SAll 1) x)) by (unfold new_voxel; rewrite mI_ok; reflexivity).
  assert (S2 : set_structure (Some (mkVoxel mI (SAll 1) x)) s = Ok (mkVoxel (st_matrix s) (SAll 1) x)) by (unfold set_structure, new_voxel; rewrite L; reflexivity).
  assert (R2 : g_run new_gobj [GOrigin a; GStructure (Some s)] = mkGO (Some s) (Some (mkVoxel (st_matrix s) (SAll 1) x)) None None).
  { unfold g_run, new_gobj. cbn [fold_left g_step]. rewrite E, S1. cbn [fst g_step]. rewrite S2. reflexivity. }
  rewrite R2. split; [|split].
  - unfold g_run, new_gobj. cbn [fold_left g_step]. rewrite S0. cbn [fst g_step]. rewrite E. reflexivity.
  - unfold make_gobj. cbn [option_map new_gobj g_step bind]. rewrite S0. cbn [bind g_step]. rewrite E. reflexivity.
  - exists (mkCrystal s (mkVoxel (st_matrix s) (SAll 1) x) None None). split; [|reflexivity]. unfold new_crystal. rewrite S0. reflexivity.
Qed.
(** a new structure keeps the origin but not the orientation: transformations made before
    assigning it are undone except for where they moved the origin *)
Theorem C133_structure_resets : forall g s v, go_voxel g = Some v -> ~ flat_lattice (st_matrix s) ->
  go_voxel (fst (g_step g (GStructure (Some s)))) = Some (mkVoxel (st_matrix s) (SAll 1) (vo_origin v)).
Proof.
  intros [st vo sf po] s v H N. cbn in H. subst vo. cbn [g_step]. unfold set_structure, new_voxel. rewrite (proj1 (lattice_ok _) N). reflexivity.
Qed.
(** A generator that has a structure and a voxel is a crystal: it is transformed as the crystal
    is, and supplies what the crystal supplies, remembering what its strain field learns. *)
Definition complete (k : crystal) : gobj := mkGO (Some (g_structure k)) (Some (g_voxel k)) (g_strain k) (g_post k).
Lemma supply_keeps mk c k bbox c' k' a : crystal_supply mk c k bbox = Ok (c', k', a) ->
  g_structure k' = g_structure k /\ g_voxel k' = g_voxel k /\ g_post k' = g_post k.
Proof.
  unfold crystal_supply. intros H. inv_bind H. destruct (block_atoms k a0) as [out sp].
  destruct (match g_post k with Some p => _ | None => _ end) as [c1 [o1 s1]].
  destruct (g_strain k) as [h|]; [inv_bind H|]; inversion H; subst; auto.
Qed.
Theorem C133_complete : forall k,
  (forall t k', crystal_transform k t = Ok k' -> g_step (complete k) (GTransform t) = (complete k', Ok tt)) /\
  (forall t e, crystal_transform k t = Err e -> g_step (complete k) (GTransform t) = (complete k, Err e)) /\
  (forall mk c bbox c' k' a, crystal_supply mk c k bbox = Ok (c', k', a) -> g_supply mk c (complete k) bbox = Ok (c', complete k', a)) /\
  (forall mk c bbox e, crystal_supply mk c k bbox = Err e -> g_supply mk c (complete k) bbox = Err e).
Proof.
  intros [s v h p]. unfold complete. cbn [g_structure g_voxel g_strain g_post]. split; [|split; [|split]].
  - intros t k' H. unfold crystal_transform in H. inv_bind H. inversion H; subst. cbn [g_step g_structure g_voxel g_strain g_post] in *. rewrite Ha. reflexivity.
  - intros t e H. unfold crystal_transform in H. cbn [g_step g_structure g_voxel g_strain g_post] in *. destruct (set_bases v (apply_bases t (vo_bases v))); [discriminate|]. inversion H. reflexivity.
  - intros mk c bbox c' k' a H. destruct (supply_keeps _ _ _ _ _ _ _ H) as (E1 & E2 & E3). unfold g_supply. cbn [go_structure go_voxel go_strain go_post]. rewrite H. cbn. cbn in E1, E2, E3. rewrite E1, E2, E3. reflexivity.
  - intros mk c bbox e H. unfold g_supply. cbn [go_structure go_voxel go_strain go_post]. rewrite H. reflexivity.
Qed.
(** in particular its lattice and origin move with the transformation, and its strain field is
    from then on that of the voxel it was supplied with *)
Theorem C133_moves : forall st v sf po t b, apply_bases t (vo_bases v) = b -> ~ flat_lattice b ->
  go_voxel (fst (g_step (mkGO st (Some v) sf po) (GTransform t))) =
    Some (mkVoxel b (vo_scale v) (if basis_only t then vo_origin v else apply_pt t (vo_origin v))).
Proof.
  intros st v sf po t b E N. cbn [g_step]. unfold set_bases. rewrite E, (proj1 (lattice_ok _) N). cbn. destruct (basis_only t); reflexivity.
Qed.
Theorem C133_remembers : forall mk c g h bbox c' g' a, go_strain g = Some h -> g_supply mk c g bbox = Ok (c', g', a) ->
  exists v, go_voxel g = Some v /\ go_strain g' = Some (scrape_params h v) /\ go_voxel g' = go_voxel g /\ go_structure g' = go_structure g /\ go_post g' = go_post g.
Proof.
  intros mk c [st [v|] sf po] h bbox c' g' a E H; cbn in E; subst sf; unfold g_supply in H; cbn [go_structure go_voxel go_strain go_post] in H; [|discriminate].
  destruct st as [s|]; [|inv_bind H; discriminate]. inv_bind H. destruct a0 as [[c1 k] at1]. inversion H; subst. exists v. cbn. split; [reflexivity|]. split; auto.
  unfold crystal_supply in Ha. inv_bind Ha. destruct (block_atoms _ a0) as [out sp]. cbn [g_post g_strain g_voxel g_structure] in Ha.
  destruct (match po with Some p => _ | None => _ end) as [c2 [o1 s1]]. inv_bind Ha. inversion Ha. reflexivity.
Qed.
Example C133_nonvacuous : exists s1 s2 a x, ~ flat_lattice (st_matrix s1) /\ flat_lattice (st_matrix s2) /\ origin_given (GOrigin a) x /\
  Forall plain [GOrigin a; GStructure (Some s1); GStructure (Some s2)] /\ framed [GOrigin a; GStructure (Some s1); GStructure (Some s2)] /\
  last_of asks_structure None [GOrigin a; GStructure (Some s1); GStructure (Some s2)] (Some s2) /\
  latest proper_lattice mI [GOrigin a; GStructure (Some s1); GStructure (Some s2)] (st_matrix s1).
Proof.
  exists (mkStruct mI [v0] [14%Z]), (mkStruct (mkM (mkV 1 0 0) (mkV 2 0 0) (mkV 0 0 1)) [mkV (1/2) 0 0] [8%Z]), (mkArr [3%nat] [1; 2; 3]), (mkV 1 2 3).
  assert (N : ~ flat_lattice mI) by (apply lattice_ok, mI_ok).
  assert (F : flat_lattice (mkM (mkV 1 0 0) (mkV 2 0 0) (mkV 0 0 1))).
  { left. cbn. split; [intros E; injection E as E; lra|]. exists 2. split; [lra|]. vring. }
  assert (O : origin_given (GOrigin (mkArr [3%nat] [1; 2; 3])) (mkV 1 2 3)) by (eexists; repeat split).
  split; [exact N|]. split; [exact F|]. split; [exact O|]. split; [repeat constructor|]. split; [left; right; eauto|]. split.
  - eapply (last_set asks_structure None [_; _]); [|reflexivity]. eapply (last_set asks_structure None [_]); [|reflexivity]. apply (last_keep asks_structure None []); [constructor|reflexivity].
  - eapply (latest_keep proper_lattice mI [_; _]).
    + eapply (latest_set proper_lattice mI [_]); [|constructor; exact N]. apply (latest_keep proper_lattice mI []); [constructor|]. intros y Q; inversion Q.
    + intros y Q. inversion Q. contradiction.
Qed.
