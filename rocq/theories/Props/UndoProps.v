(** Undoing a transformation (C156). *)
From Coq Require Import Reals List ZArith Bool Lia Lra.
From Verif.Model Require Import Base Vec Algebraic Transform Voxel Post Generator Volume Molecule Heap.
From Verif.Spec Require Import Geometry AlgSpec UndoSpec.
From Verif.Proofs Require Import VecFacts AlgFacts VolumeFacts VolTransFacts HeapRun.
From Verif.Props Require Import TransformProps VolumeProps.
Import ListNotations.
Open Scope R_scope.

Section UndoInd.
Variable P : transform -> transform -> Prop.
Hypotheses (HT : forall s lk bo, P (TTranslation s lk bo) (TTranslation (vopp s) lk bo))
 (HM : forall m m' o lk bo, mm m' m = mI -> P (TMatrix m o lk bo) (TMatrix m' o lk bo))
 (HI : forall o lk bo, P (TInversion o lk bo) (TInversion o lk bo))
 (HR : forall pl lk bo, valid_plane pl -> P (TReflection pl lk bo) (TReflection pl lk bo))
 (HU : forall ts us, Forall2 undoes ts us -> Forall2 P ts us -> P (TMulti ts) (TMulti (rev us))).
Fixpoint undoes_ind' t u (H : undoes t u) : P t u :=
  match H in undoes t u return P t u with
  | UndoTranslation s lk bo => HT s lk bo
  | UndoMatrix m m' o lk bo E => HM m m' o lk bo E
  | UndoInversion o lk bo => HI o lk bo
  | UndoReflection pl lk bo V => HR pl lk bo V
  | UndoMulti ts us F => HU ts us F ((fix go ts us (F : Forall2 undoes ts us) : Forall2 P ts us :=
      match F in Forall2 _ ts us return Forall2 P ts us with
      | @Forall2_nil _ _ _ => @Forall2_nil _ _ P
      | @Forall2_cons _ _ _ x y l l' Q F' => @Forall2_cons _ _ P x y l l' (undoes_ind' x y Q) (go l l' F')
      end) ts us F)
  end.
End UndoInd.

Lemma matrix_undo m m' o p : mm m' m = mI -> matrix_pt m' o (matrix_pt m o p) = p.
Proof.
  intros E. destruct o as [o|]; cbn.
  - replace (vsub (vadd (mv m (vsub p o)) o) o) with (mv m (vsub p o)) by (generalize (mv m (vsub p o)); intros; vring).
    rewrite <- mv_mm, E. destruct p, o. vring.
  - rewrite <- mv_mm, E. destruct p. vring.
Qed.
Lemma neg_neg : mm (mscale (-1) mI) (mscale (-1) mI) = mI.
Proof. vring. Qed.
Lemma mirror_mirror n : norm n = 1 -> mm (reflection_matrix n) (reflection_matrix n) = mI.
Proof.
  intros N. apply unit_dot in N. unfold reflection_matrix. rewrite N. destruct n as [x y z]. unfold dot in N; cbn in N.
  assert (Z : z * z = 1 - x * x - y * y) by lra.
  apply mat_eq; apply vec_eq; cbn; unfold dot; cbn; field_simplify; try (replace (z ^ 2) with (1 - x * x - y * y) by (rewrite <- Z; ring)); 
    try (replace (z ^ 3) with (z * (1 - x * x - y * y)) by (rewrite <- Z; ring)); try (replace (z ^ 4) with ((1 - x * x - y * y) * (1 - x * x - y * y)) by (rewrite <- Z; ring)); ring.
Qed.
Lemma fold_undo {A} (f : A -> transform -> A) ts us x : Forall2 (fun t u => forall y, f (f y t) u = y) ts us -> fold_left f (rev us) (fold_left f ts x) = x.
Proof.
  intros F. revert x. induction F as [|t u ts us H F IH]; intros x; [reflexivity|]. cbn [rev fold_left]. rewrite fold_left_app, IH. cbn. apply H.
Qed.
Lemma undo_point t u : undoes t u -> forall p, apply_pt u (apply_pt t p) = p.
Proof.
  intros H. induction H as [s lk bo|m m' o lk bo E|o lk bo|pl lk bo V|ts us F IH] using undoes_ind'; intros p; cbn [apply_pt].
  - destruct p, s. vring.
  - apply matrix_undo, E.
  - apply matrix_undo, neg_neg.
  - apply matrix_undo, mirror_mirror, V.
  - apply (fold_undo (fun q t' => apply_pt t' q)). exact IH.
Qed.
Lemma undo_bases t u : undoes t u -> forall b, apply_bases u (apply_bases t b) = b.
Proof.
  intros H. induction H as [s lk bo|m m' o lk bo E|o lk bo|pl lk bo V|ts us F IH] using undoes_ind'; intros b; cbn [apply_bases].
  - reflexivity.
  - rewrite mm_assoc, E. apply mm_id_l.
  - rewrite mm_assoc, neg_neg. apply mm_id_l.
  - rewrite mm_assoc, mirror_mirror by apply V. apply mm_id_l.
  - apply (fold_undo (fun q t' => apply_bases t' q)). exact IH.
Qed.
Lemma undo_flags t u : undoes t u -> locked u = locked t /\ basis_only u = basis_only t.
Proof.
  intros H. induction H as [s lk bo|m m' o lk bo E|o lk bo|pl lk bo V|ts us F IH] using undoes_ind'; cbn [locked basis_only]; auto.
  assert (X : forall (f : transform -> bool), Forall2 (fun t u => f u = f t) ts us -> existsb f (rev us) = existsb f ts).
  { clear. intros f F. induction F as [|t u ts us E F IH]; [reflexivity|]. cbn. rewrite existsb_app, IH. cbn. rewrite E, orb_false_r. apply orb_comm. }
  split; apply X; (eapply Forall2_impl'; [|exact IH]; cbn; tauto) || (clear - IH; induction IH as [|? ? ? ? [A B]]; constructor; auto).
Qed.
Lemma unit_undo m m' n : mm m' m = mI -> norm n = 1 -> eps < norm (mv m n) ->
  let n1 := vscale (/ norm (mv m n)) (mv m n) in eps < norm (mv m' n1) -> vscale (/ norm (mv m' n1)) (mv m' n1) = n.
Proof.
  intros E N L n1 L1. pose proof eps_pos. set (k := norm (mv m n)) in *.
  assert (X : mv m' n1 = vscale (/ k) n). { unfold n1. rewrite mv_scale, <- mv_mm, E. f_equal. destruct n. vring. }
  rewrite X, norm_scale, N, Rmult_1_r, Rabs_pos_eq by (left; apply Rinv_0_lt_compat; lra). apply vec_eq; cbn; field; lra.
Qed.
Lemma matrix_alg_undo m m' o a a' a'' : mm m' m = mI -> valid_alg a -> matrix_alg m o a = Ok a' -> matrix_alg m' o a' = Ok a'' -> a'' = a.
Proof.
  intros E V H1 H2. destruct a as [s|p|c]; cbn [matrix_alg] in H1.
  - injection H1 as <-. cbn [matrix_alg] in H2. injection H2 as <-. unfold sphere_set_center. cbn. rewrite matrix_undo by exact E. destruct s; reflexivity.
  - inv_bind H1. injection H1 as <-. cbn [matrix_alg] in H2. inv_bind H2. injection H2 as <-.
    unfold plane_set_normal in Ha, Ha0. inv_bind Ha. injection Ha as <-. cbn in Ha0. inv_bind Ha0. injection Ha0 as <-.
    apply check_normal_Ok in Ha1 as [L ->]. apply check_normal_Ok in Ha as [L1 ->]. cbn in *. f_equal. destruct p as [n x tl]. cbn in *. f_equal.
    + apply (unit_undo m m' n E (proj1 V) L L1).
    + apply matrix_undo, E.
  - inv_bind H1. injection H1 as <-. cbn [matrix_alg] in H2. inv_bind H2. injection H2 as <-.
    unfold cyl_set_axis in Ha, Ha0. inv_bind Ha. injection Ha as <-. cbn in Ha0. inv_bind Ha0. injection Ha0 as <-.
    apply check_axis_Ok in Ha1 as [L ->]. apply check_axis_Ok in Ha as [L1 ->]. cbn in *. f_equal. destruct c as [n x r ln tl]. cbn in *. f_equal.
    + apply (unit_undo m m' n E (proj1 V) L L1).
    + apply matrix_undo, E.
Qed.
Lemma undo_alg t u : undoes t u -> forall a a' a'', valid_alg a -> apply_alg t a = Ok a' -> apply_alg u a' = Ok a'' -> a'' = a.
Proof.
  intros H. induction H as [s lk bo|m m' o lk bo E|o lk bo|pl lk bo V|ts us F IH] using undoes_ind'; intros a a' a'' VA H1 H2; cbn [apply_alg] in H1, H2.
  - injection H1 as <-. injection H2 as <-.
    assert (X : forall x, vadd (vadd x s) (vopp s) = x) by (intros [x y z]; destruct s; vring).
    destruct a as [x|x|x]; cbn; rewrite X; destruct x; reflexivity.
  - eapply matrix_alg_undo; eauto.
  - eapply matrix_alg_undo; eauto using neg_neg.
  - discriminate.
  - clear F. revert a a' a'' VA H1 H2. induction IH as [|t u ts us HQ F IH]; intros a a' a'' VA H1 H2.
    + cbn in *. congruence.
    + cbn [foldM rev] in *. inv_bind H1. rename a0 into b. rewrite foldM_app in H2. inv_bind H2. rename a0 into d. cbn in H2. inv_bind H2. injection H2 as ->.
      assert (VB : valid_alg b) by (eapply apply_alg_valid; eauto). rewrite (IH b a' d VB H1 Ha0) in Ha1. apply (HQ a b a'' VA Ha Ha1).
Qed.
Lemma undo_crystal t u g g' g'' : undoes t u -> crystal_transform g t = Ok g' -> crystal_transform g' u = Ok g'' -> g'' = g.
Proof.
  intros H H1 H2. destruct (undo_flags t u H) as [_ FB]. unfold crystal_transform in *. inv_bind H1. injection H1 as <-. cbn [g_voxel] in H2. inv_bind H2. injection H2 as <-.
  assert (S : forall v b v', set_bases v b = Ok v' -> v' = mkVoxel b (vo_scale v) (vo_origin v)).
  { intros v b v' E. unfold set_bases, check_bases in E. repeat (destruct (collinear _ _); [discriminate|]). injection E as <-. reflexivity. }
  apply S in Ha. apply S in Ha0. subst a a0. rewrite FB. destruct g as [st [b sc o] sf po]. cbn. destruct (basis_only t); cbn; rewrite undo_bases by exact H; [reflexivity|].
  rewrite undo_point by exact H. reflexivity.
Qed.
Lemma undo_molecule t u m b m' m'' : undoes t u -> mol_transform m t b = Ok m' -> mol_transform m' u b = Ok m'' -> m'' = m.
Proof.
  intros H H1 H2. destruct m as [sp ats tr og ix ort pr]. unfold mol_transform, set_atoms in *. cbn in H1.
  assert (X : map (apply_pt u) (map (apply_pt t) ats) = ats) by (rewrite map_map; rewrite <- (map_id ats) at 2; apply map_ext; apply undo_point, H).
  destruct (Nat.eqb _ (length sp)) eqn:EL in H1; [|discriminate]. cbn in H1.
  assert (K : forall og', m' = mkMol sp (map (apply_pt t) ats) tr og' ix ort pr ->
    (if b then if tr then (match ix with Some _ => Ok (mkMol sp ats tr og' ix ort pr) | None => Err AttributeError end)
     else (o <- match og' with Some o => Ok o | None => Err AttributeError end ;; Ok (mkMol sp ats false (Some (apply_pt u o)) ix ort pr))
     else Ok (mkMol sp ats tr og' ix ort pr)) = Ok m'').
  { intros og' ->. cbn in H2. rewrite X in H2. destruct (Nat.eqb _ (length sp)) in H2; [|discriminate]. cbn in H2. destruct b; [|exact H2]. destruct tr; exact H2. }
  destruct b; [destruct tr|].
  - destruct ix; [|discriminate]. injection H1 as <-. specialize (K og eq_refl). cbn in K. injection K as <-. reflexivity.
  - unfold mol_origin in H1. cbn in H1. destruct og as [o|]; [|discriminate]. injection H1 as <-. specialize (K _ eq_refl). cbn in K. injection K as <-. rewrite undo_point by exact H. reflexivity.
  - injection H1 as <-. specialize (K og eq_refl). cbn in K. injection K as <-. reflexivity.
Qed.
Lemma algs_ok t al out : algs_st t al = (out, Ok tt) -> Forall2 (fun x y => apply_alg t x = Ok y) al out.
Proof.
  revert out. induction al as [|a al IH]; intros out H; cbn [algs_st] in H; [injection H as <-; constructor|].
  pose proof (apply_alg_st_spec t a) as [S1 S2]. destruct (apply_alg_st t a) as [b [[]|e1]] eqn:E; cbn [fst snd] in *; [|discriminate].
  destruct (apply_alg t a) as [x|] eqn:Ex; [|discriminate]. pose proof (S2 x eq_refl). subst x.
  destruct (algs_st t al) as [o r]. injection H as <- ->. constructor; auto.
Qed.
Lemma undo_algs t u al out out' : undoes t u -> Forall valid_alg al -> algs_st t al = (out, Ok tt) -> algs_st u out = (out', Ok tt) -> out' = al.
Proof.
  intros H V H1 H2. apply algs_ok in H1. apply algs_ok in H2. revert out' H2. induction H1 as [|x y al out E F IH]; intros out' H2; inversion H2; subst; [reflexivity|].
  inversion V; subst. f_equal; [eapply undo_alg; eauto|auto].
Qed.
Lemma leaf_ok w l t l' : l_points l = PNone -> leaf_transform w l t = (l', Ok tt) ->
  exists out, algs_st t (l_alg l) = (out, Ok tt) /\ gen_step (with_alg l out) t = (l', Ok tt).
Proof.
  intros P H. rewrite leaf_transform_eq in H. unfold points_transform in H. rewrite P in H. destruct (algs_st t (l_alg l)) as [out [[]|e]]; [eauto|discriminate].
Qed.
Lemma undo_leaf w t u l l' l'' : undoes t u -> l_points l = PNone -> Forall valid_alg (l_alg l) ->
  leaf_transform w l t = (l', Ok tt) -> leaf_transform w l' u = (l'', Ok tt) -> l'' = l.
Proof.
  intros H P V H1 H2. destruct (undo_flags t u H) as [FL _]. destruct (leaf_ok _ _ _ _ P H1) as (out & A1 & G1).
  destruct (gen_step_static (with_alg l out) t) as (S1 & _ & S3 & _). rewrite G1 in S1, S3. cbn in S1, S3.
  assert (P' : l_points l' = PNone) by congruence. destruct (leaf_ok _ _ _ _ P' H2) as (out' & A2 & G2). rewrite S3 in A2.
  rewrite (undo_algs t u (l_alg l) out out' H V A1 A2) in G2. unfold gen_step in G1, G2. rewrite FL in G2. cbn in G1, G2. destruct (locked t).
  - destruct (l_gen l) as [g|] eqn:LG.
    + destruct (generator_transform g t) as [g1|] eqn:T1; [|discriminate]. injection G1 as <-. cbn in G2.
      destruct (generator_transform g1 u) as [g2|] eqn:T2; [|discriminate]. injection G2 as <-.
      assert (EG : g2 = g). { destruct g as [c| | ]; cbn in T1; try discriminate. inv_bind T1. injection T1 as <-. cbn in T2. inv_bind T2. injection T2 as <-. f_equal. eapply undo_crystal; eauto. }
      subst g2. destruct l; cbn in *; subst; reflexivity.
    + injection G1 as <-. cbn in G2. rewrite LG in G2. injection G2 as <-. destruct l; reflexivity.
  - injection G1 as <-. cbn in G2. injection G2 as <-. destruct l; reflexivity.
Qed.
Lemma undo_volume w t u v : undoes t u -> surfaces_only v -> forall v' v'', vol_transform w v t = (v', Ok tt) -> vol_transform w v' u = (v'', Ok tt) -> v'' = v.
Proof.
  intros H. induction v as [l|p vs c IH] using volume_ind'; intros S v' v'' H1 H2.
  - inversion S as [? P V|]; subst. cbn [vol_transform] in H1. destruct (leaf_transform w l t) as [l1 r] eqn:E1. injection H1 as <- ->.
    cbn [vol_transform] in H2. destruct (leaf_transform w l1 u) as [l2 r] eqn:E2. injection H2 as <- ->. f_equal. eapply undo_leaf; eauto.
  - inversion S as [|? ? ? SV]; subst. cbn [vol_transform] in H1.
    match type of H1 with (let '(_, _) := ?go vs in _) = _ => set (f := go) in H1 end.
    destruct (f vs) as [vs1 r] eqn:E1. injection H1 as <- ->. cbn [vol_transform] in H2.
    match type of H2 with (let '(_, _) := ?go vs1 in _) = _ => set (g := go) in H2 end.
    destruct (g vs1) as [vs2 r] eqn:E2. injection H2 as <- ->. f_equal.
    revert vs1 vs2 E1 E2. clear S. induction vs as [|x vs IHv]; intros vs1 vs2 E1 E2.
    + cbn in E1. injection E1 as <-. cbn in E2. injection E2 as <-. reflexivity.
    + inversion IH as [|? ? IX IV]; subst. inversion SV as [|? ? SX SV']; subst. cbn in E1. destruct (vol_transform w x t) as [x1 [[]|e]] eqn:X1; [|discriminate].
      fold f in E1. destruct (f vs) as [r1 q] eqn:R1. injection E1 as <- ->. cbn in E2. destruct (vol_transform w x1 u) as [x2 [[]|e]] eqn:X2; [|discriminate].
      fold g in E2. destruct (g r1) as [r2 q] eqn:R2. injection E2 as <- ->. f_equal; [eapply IX; eauto|eapply IHv; eauto].
Qed.

(** Points always come back. *)
Theorem C156_points_partial : forall t u, undoes t u -> forall p, apply_pt u (apply_pt t p) = p.
Proof. exact undo_point. Qed.
(** Whenever neither call raises, the object is exactly what it was: surfaces, crystals,
    molecules (atoms, origin, orientation) and trees of volumes with their generators. *)
Theorem C156_restored_partial : forall t u, undoes t u ->
  (forall a a' a'', valid_alg a -> apply_alg t a = Ok a' -> apply_alg u a' = Ok a'' -> a'' = a) /\
  (forall g g' g'', crystal_transform g t = Ok g' -> crystal_transform g' u = Ok g'' -> g'' = g) /\
  (forall m with_origin m' m'', mol_transform m t with_origin = Ok m' -> mol_transform m' u with_origin = Ok m'' -> m'' = m) /\
  (forall w v v' v'', surfaces_only v -> vol_transform w v t = (v', Ok tt) -> vol_transform w v' u = (v'', Ok tt) -> v'' = v).
Proof.
  intros t u H. split; [exact (undo_alg t u H)|]. split; [intros g g' g''; apply undo_crystal, H|]. split; [intros m b m' m''; apply undo_molecule, H|].
  intros w v v' v'' S. apply (undo_volume w t u v H S).
Qed.
(** Rigid motions never raise on the way back from a surface, a crystal with an acceptable
    cell, or a molecule. *)
Lemma undo_rigid t u : undoes t u -> rigid t -> rigid u.
Proof.
  intros H. induction H as [s lk bo|m m' o lk bo E|o lk bo|pl lk bo V|ts us F IH] using undoes_ind'; intros R; inversion R; subst; try (constructor; fail).
  - constructor. match goal with O : orthogonal m |- _ => rename O into OM end.
    assert (EM : m' = mt m). { unfold orthogonal in OM. rewrite <- (mm_id_r m'). assert (OO : mm m (mt m) = mI) by (apply OM || (destruct OM; auto)). rewrite <- OO, mm_assoc, E. apply mm_id_l. }
    subst m'. unfold orthogonal in *. replace (mt (mt m)) with m by vring. exact E.
  - constructor. apply Forall_rev. match goal with Q : Forall rigid ts |- _ => revert Q end. clear - IH. induction IH; intros Q; inversion Q; subst; constructor; auto.
Qed.
Theorem C156_rigid_partial : forall t u, undoes t u -> rigid t ->
  (forall a, valid_alg a -> exists a', apply_alg t a = Ok a' /\ apply_alg u a' = Ok a) /\
  (forall g g', check_bases (vo_bases (g_voxel g)) = Ok (vo_bases (g_voxel g)) -> crystal_transform g t = Ok g' -> crystal_transform g' u = Ok g).
Proof.
  intros t u H R. pose proof (undo_rigid t u H R) as RU. split.
  - intros a V. destruct (apply_alg_rigid t R a V) as (a' & E & V' & _). exists a'. split; [exact E|].
    destruct (apply_alg_rigid u RU a' V') as (a'' & E' & _). rewrite E'. f_equal. eapply undo_alg; eauto.
  - intros g g' CB T. assert (X : exists g'', crystal_transform g' u = Ok g''); [|destruct X as [g'' X]; rewrite X; f_equal; eapply undo_crystal; eauto].
    unfold crystal_transform in T. inv_bind T. injection T as <-.
    assert (EA : vo_bases a = apply_bases t (vo_bases (g_voxel g))). { unfold set_bases, check_bases in Ha. repeat (destruct (collinear _ _); [discriminate|]). injection Ha as <-. reflexivity. }
    unfold crystal_transform. cbn [g_voxel]. replace (vo_bases (if basis_only t then a else set_vorigin a (apply_pt t (vo_origin a)))) with (vo_bases a) by (destruct (basis_only t); reflexivity).
    rewrite EA, undo_bases by exact H. unfold set_bases. rewrite CB. cbn [bind]. eauto.
Qed.
(** Refuted in general: a plane moved by a large enough dilation cannot be moved back, the
    normal that the setter has made a unit vector in between is then too short for it. *)
Theorem C156_undo_refuted : exists t u a a', undoes t u /\ valid_alg a /\ apply_alg t a = Ok a' /\ apply_alg u a' = Err ValueError.
Proof.
  pose proof eps_pos as EP. pose proof eps_small as ES. set (k := 2 / eps). assert (K : 2 < k).
  { unfold k. apply Rmult_lt_reg_r with eps; [lra|]. unfold Rdiv. rewrite Rmult_assoc, Rinv_l by lra. lra. }
  set (n := mkV 0 0 1). assert (N : norm n = 1) by (unfold norm, n, dot; cbn; replace (0 * 0 + 0 * 0 + 1 * 1) with 1 by ring; apply sqrt_1).
  exists (TMatrix (mscale k mI) None true false), (TMatrix (mscale (/ k) mI) None true false), (APlane (mkPlane n v0 1)), (APlane (mkPlane n v0 1)).
  split; [constructor; apply mat_eq; apply vec_eq; cbn; unfold dot; cbn; field; lra|]. split; [split; cbn; [exact N|lra]|].
  assert (MV : forall c, mv (mscale c mI) n = vscale c n) by (intros c; unfold n; apply vec_eq; cbn; unfold dot; cbn; ring).
  assert (M0 : forall c, mv (mscale c mI) v0 = v0) by (intros c; unfold v0; apply vec_eq; cbn; unfold dot; cbn; ring).
  cbn [apply_alg matrix_alg p_normal p_point matrix_pt]. rewrite !MV, !M0. unfold plane_set_normal, plane_set_point, check_normal. cbn [p_normal p_point p_tol].
  rewrite !norm_scale, N, !Rmult_1_r, !Rabs_pos_eq by (try lra; left; apply Rinv_0_lt_compat; lra). split.
  - rewrite (proj2 (Rltb_iff _ _)) by lra. cbn. do 3 f_equal. unfold n. apply vec_eq; cbn; field; lra.
  - rewrite (proj2 (Rltb_false _ _)); [reflexivity|]. unfold k. replace (/ (2 / eps)) with (eps / 2) by (field; lra). lra.
Qed.
Lemma orthogonal_not_collinear a b : dot a b = 0 -> collinear a b = false.
Proof.
  intros E. unfold collinear. rewrite E. destruct (Reqb _ 0); [reflexivity|]. apply Reqb_false. unfold Rdiv. rewrite Rmult_0_l, Rabs_R0. lra.
Qed.
Example C156_nonvacuous : exists t u g g' m m' v v', undoes t u /\ rigid t /\ surfaces_only v /\
  crystal_transform g t = Ok g' /\ g' <> g /\ mol_transform m t true = Ok m' /\ m' <> m /\ vol_transform any_world v t = (v', Ok tt) /\ v' <> v.
Proof.
  exists (TMulti [TTranslation (mkV 1 0 0) true false; TInversion None true false]), (TMulti (rev [TTranslation (vopp (mkV 1 0 0)) true false; TInversion None true false])).
  exists (mkCrystal (mkStruct mI [v0] [79%Z]) (mkVoxel mI (SAll 1) v0) None None). eexists.
  exists (mkMol [6%Z] [v0] false (Some v0) None mI 1). eexists.
  exists (VMulti 0 [VLeaf (mkLeaf PNone None None [ASphere (mkSphere 1 v0 1)] None 0 1 None)] None). eexists.
  split; [constructor; repeat constructor|]. split; [repeat constructor|]. split; [repeat constructor; cbn; lra|]. split; [|split; [|split; [reflexivity|split; [|split; [reflexivity|]]]]].
  - unfold crystal_transform, set_bases, check_bases. rewrite !orthogonal_not_collinear by (unfold dot, mI; cbn; unfold dot; cbn; ring). reflexivity.
  - intros E. apply (f_equal (fun g => vx (vo_origin (g_voxel g)))) in E. cbn in E. unfold dot in E. cbn in E. lra.
  - intros E. apply (f_equal (fun m => match m_origin m with Some o => vx o | None => 5 end)) in E. cbn in E. unfold dot in E. cbn in E. lra.
  - intros E. injection E as E. unfold dot in E. cbn in E. lra.
Qed.
