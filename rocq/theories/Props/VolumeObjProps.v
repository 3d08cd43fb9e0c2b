(** Volumes under any history of additions (C135). *)
From Coq Require Import Reals List Bool ZArith Arith Lra Lia.
From Verif.Model Require Import Base Vec Algebraic Transform Voxel Post Generator Volume VolumeObj.
From Verif.Spec Require Import Geometry GenObjSpec VolumeObjSpec.
From Verif.Proofs Require Import VecFacts VolTransFacts.
From Verif.Props Require Import VolumeProps.
Import ListNotations.
Open Scope R_scope.

Lemma v_run_snoc w l h o : v_run w l (h ++ [o]) = fst (v_step w (v_run w l h) o).
Proof. unfold v_run. rewrite fold_left_app. reflexivity. Qed.
Lemma points_snoc h o : points_given (h ++ [o]) = points_given h ++ rows_of o.
Proof. unfold points_given. rewrite map_app, concat_app. cbn. rewrite app_nil_r. reflexivity. Qed.
Lemma surfaces_snoc h o : surfaces_given (h ++ [o]) = surfaces_given h ++ match o with VAlg (Some a) => [a] | _ => [] end.
Proof. unfold surfaces_given. rewrite map_app, concat_app. cbn. rewrite app_nil_r. reflexivity. Qed.
Lemma orderly_snoc h o : orderly (h ++ [o]) -> orderly h /\ (forall a, o <> VAssign a) /\ (forall v, o = VPoints (A1 v) -> Exists is_array h).
Proof.
  intros [A B]. split; [split|split].
  - intros a X. apply (A a). apply in_or_app. auto.
  - intros h1 v h2 E. apply (B h1 v (h2 ++ [o])). rewrite E, <- app_assoc. reflexivity.
  - intros a ->. apply (A a). apply in_or_app. right. left. reflexivity.
  - intros v ->. apply (B h v []). reflexivity.
Qed.
(** a hull can be made of the points *)
Definition spans (w : world) (p : list vec) : Prop := (3 < length p)%nat /\ w_qhull w p = true.
Lemma hull_step w l p : l_points l = PArr p ->
  (spans w p /\ createHull w l = (with_hull l (Some p) (Some p), Ok tt)) \/ (~ spans w p /\ exists e, createHull w l = (l, Err e)).
Proof.
  intros E. unfold createHull, spans. rewrite E. destruct (Nat.leb_spec (length p) 3); [right; split; [lia|eauto]|].
  destruct (w_qhull w p); [left; auto|right; split; [intros [_ X]; discriminate|eauto]].
Qed.

(** the state of a volume after an orderly history *)
Lemma volume_inv w tol h : orderly h -> let l := v_run w (empty_leaf tol) h in exists t,
  first_hull (spans w) h t /\ l_tri l = t /\ (l_hull l = None <-> t = None) /\ l_alg l = surfaces_given h /\ l_tol l = tol /\
  ((Exists is_array h /\ l_points l = PArr (points_given h)) \/ (~ Exists is_array h /\ l_points l = PNone /\ points_given h = [] /\ t = None)).
Proof.
  intros HO. cbv zeta. induction h as [|o h IH] using rev_ind.
  - exists None. split; [constructor|]. split; [reflexivity|]. split; [split; reflexivity|]. split; [reflexivity|]. split; [reflexivity|]. right. split; [intros X; inversion X|]. auto.
  - apply orderly_snoc in HO as (HO & NA & N1). destruct (IH HO) as (t & F & T & H & A & TO & P). clear IH. rewrite v_run_snoc. set (l := v_run w (empty_leaf tol) h) in *. clearbody l.
    assert (EX : Exists is_array (h ++ [o]) <-> Exists is_array h \/ is_array o).
    { rewrite Exists_app. split; (intros [X|X]; [left; exact X|right]); [inversion X as [? ? B|? ? B]; subst; [exact B|inversion B]|constructor; exact X]. }
    assert (KF : ~ is_points o -> first_hull (spans w) (h ++ [o]) t).
    { intros N. destruct t as [t|]; [apply fh_keep; exact F|apply fh_still; [exact F|intros [X _]; contradiction]]. }
    assert (KE : (forall x, o <> VPoints x) -> ((Exists is_array h /\ l_points l = PArr (points_given h)) \/ (~ Exists is_array h /\ l_points l = PNone /\ points_given h = [] /\ t = None)) ->
      ((Exists is_array (h ++ [o]) /\ l_points l = PArr (points_given (h ++ [o]))) \/ (~ Exists is_array (h ++ [o]) /\ l_points l = PNone /\ points_given (h ++ [o]) = [] /\ t = None))).
    { intros N X. assert (R : rows_of o = []) by (destruct o; try reflexivity; exfalso; eapply N; reflexivity). rewrite points_snoc, R, app_nil_r.
      destruct X as [[X Y]|(X & Y & Z)]; [left; split; [apply EX; auto|exact Y]|right; split; [|auto]]. intros Q. apply EX in Q as [Q|[q Q]]; [contradiction|eapply N; exact Q]. }
    destruct o as [a|a|[a|]|[g|] og].
    + (* points *)
      assert (PT : exists q, points_given (h ++ [VPoints a]) = points_given h ++ q /\ (exists l1, l_points l1 = PArr (points_given h ++ q) /\
          l_tri l1 = l_tri l /\ l_hull l1 = l_hull l /\ l_alg l1 = l_alg l /\ l_tol l1 = l_tol l /\
          add_points w l a = match l_hull l with Some hh => (with_hull l1 (Some (hh ++ q)) (l_tri l), Ok tt) | None => createHull w l1 end)).
      { rewrite points_snoc. destruct P as [[X Y]|(X & Y & Z & _)].
        - destruct a as [v|q]; unfold add_points; rewrite Y; cbn [rows_of]; eexists; (split; [reflexivity|]); eexists (with_points l (PArr (points_given h ++ _))); repeat (split; [reflexivity|]); cbn; destruct (l_hull l); reflexivity.
        - destruct a as [v|q]; [exfalso; apply X, (N1 v); reflexivity|]. unfold add_points. rewrite Y, Z. cbn [rows_of app]. exists q. split; [reflexivity|]. exists (with_points l (PArr q)). repeat (split; [reflexivity|]). cbn. destruct (l_hull l); reflexivity. }
      destruct PT as (q & PG & l1 & L1 & L2 & L3 & L4 & L5 & EA). cbn [v_step]. rewrite EA.
      assert (XA : Exists is_array (h ++ [VPoints a])).
      { apply EX. destruct a as [v|x]; [left; apply (N1 v); reflexivity|right; exists x; reflexivity]. }
      destruct (l_hull l) as [hh|] eqn:EH.
      * destruct t as [t|]; [|destruct H as [_ H]; specialize (H eq_refl); discriminate]. exists (Some t). split; [apply fh_keep; exact F|].
        cbn. split; [exact T|]. split; [split; discriminate|]. split; [rewrite L4, surfaces_snoc, app_nil_r; exact A|]. split; [rewrite L5; exact TO|].
        left. split; [exact XA|]. rewrite L1, PG. reflexivity.
      * assert (t = None) as -> by (apply H; reflexivity). destruct (hull_step w l1 _ L1) as [[S E]|[S [e E]]]; rewrite E; cbn [fst].
        -- exists (Some (points_given (h ++ [VPoints a]))). split; [apply fh_new; [exact F|exists a; reflexivity|rewrite PG; exact S]|]. cbn.
           split; [rewrite PG; reflexivity|]. split; [split; discriminate|]. split; [rewrite L4, surfaces_snoc, app_nil_r; exact A|]. split; [rewrite L5; exact TO|].
           left. split; [exact XA|]. rewrite L1, PG. reflexivity.
        -- exists None. split; [apply fh_still; [exact F|intros [_ X]; rewrite PG in X; contradiction]|]. rewrite L2. split; [exact T|]. split; [rewrite L3; split; reflexivity|].
           split; [rewrite L4, surfaces_snoc, app_nil_r; exact A|]. split; [rewrite L5; exact TO|]. left. split; [exact XA|]. rewrite L1, PG. reflexivity.
    + exfalso. eapply NA. reflexivity.
    + exists t. split; [apply KF; intros [x X]; discriminate|]. split; [exact T|]. split; [exact H|]. split; [cbn; rewrite surfaces_snoc, A; reflexivity|]. split; [exact TO|]. apply KE; [intros x; discriminate|exact P].
    + exists t. split; [apply KF; intros [x X]; discriminate|]. split; [exact T|]. split; [exact H|]. split; [cbn; rewrite surfaces_snoc, app_nil_r; exact A|]. split; [exact TO|]. apply KE; [intros x; discriminate|exact P].
    + assert (G : exists g', fst (v_step w l (VGen (Some g) og)) = with_gen l g').
      { cbn. destruct l. destruct g as [c|am|], og; cbn; eexists; unfold with_gen; cbn; reflexivity. }
      destruct G as [g' ->]. exists t. split; [apply KF; intros [x X]; discriminate|]. split; [exact T|]. split; [exact H|]. split; [cbn; rewrite surfaces_snoc, app_nil_r; exact A|]. split; [exact TO|]. apply KE; [intros x; discriminate|exact P].
    + exists t. split; [apply KF; intros [x X]; discriminate|]. split; [exact T|]. split; [exact H|]. split; [cbn; rewrite surfaces_snoc, app_nil_r; exact A|]. split; [exact TO|]. apply KE; [intros x; discriminate|exact P].
Qed.

(** C135, true part.  After any orderly history the interior is the intersection of all surfaces
    given, in any order, with the hull of the points given up to the call that first made one;
    the points that bound the supply of atoms are all points given. *)
Theorem C135_interior_partial : forall w tol h, orderly h -> let l := v_run w (empty_leaf tol) h in
  exists t, first_hull (spans w) h t /\
  (forall p, leaf_inside w l p = true <->
     match t with Some pts => w_find w pts tol p = true | None => True end /\ Forall (fun a => alg_interior a p = true) (surfaces_given h)) /\
  (Exists is_array h -> get_bounding_box w l = BArr (points_given h)).
Proof.
  intros w tol h HO. cbv zeta. destruct (volume_inv w tol h HO) as (t & F & T & _ & A & TO & P). cbv zeta in *. exists t. split; [exact F|]. split.
  - intros p. rewrite leaf_inside_eq, T, A, TO, andb_true_iff, forallb_forall, Forall_forall. destruct t; tauto.
  - intros X. unfold get_bounding_box. destruct P as [[_ ->]|[Y _]]; [reflexivity|contradiction].
Qed.
(** A generator given later replaces the earlier one; a refused one does not. *)
Theorem C135_generator : forall w h l, latest generator_given (l_gen l) h (l_gen (v_run w l h)).
Proof.
  intros w h l. induction h as [|o h IH] using rev_ind; [constructor|]. rewrite v_run_snoc. set (q := v_run w l h) in *. clearbody q.
  assert (KG : (forall y, ~ generator_given o y) -> l_gen (fst (v_step w q o)) = l_gen q -> latest generator_given (l_gen l) (h ++ [o]) (l_gen (fst (v_step w q o)))) by (intros N ->; eapply latest_keep; eauto).
  assert (PG : forall l' a, l_gen (fst (add_points w l' a)) = l_gen l').
  { intros l' a. unfold add_points. assert (C : forall l2, l_gen (fst (createHull w l2)) = l_gen l2) by (intros l2; unfold createHull; destruct (l_points l2); try reflexivity; destruct (Nat.leb _ _); [reflexivity|destruct (w_qhull _ _); reflexivity]).
    destruct (l_points l'), a; try reflexivity; cbn -[createHull]; destruct (l_hull l'); try reflexivity; rewrite C; reflexivity. }
  destruct o as [a|a|[a|]|[g|] og].
  - apply KG; [intros y Q; inversion Q|]. apply PG.
  - apply KG; [intros y Q; inversion Q|]. cbn [v_step]. unfold set_points. assert (X := PG (with_points q PBad) a). destruct (add_points w (with_points q PBad) a). exact X.
  - apply KG; [intros y Q; inversion Q|reflexivity].
  - apply KG; [intros y Q; inversion Q|reflexivity].
  - destruct og as [og|].
    + destruct g as [[s [b sc x] st po]|am|]; cbn.
      * eapply latest_set; [exact IH|constructor].
      * eapply latest_set; [exact IH|constructor].
      * eapply latest_keep; [exact IH|]. intros y Q; inversion Q.
    + destruct g; cbn; eapply latest_set; try exact IH; constructor.
  - apply KG; [intros y Q; inversion Q|reflexivity].
Qed.
(** refused additions *)
Theorem C135_refused : forall w l, v_step w l (VAlg None) = (l, Err AssertionError) /\ (forall og, v_step w l (VGen None og) = (l, Err TypeError)) /\
  (forall og, v_step w l (VGen (Some GNull) (Some og)) = (l, Err AttributeError)).
Proof. intros w l. split; [reflexivity|]. split; intros og; [reflexivity|]. reflexivity. Qed.

(** C135 fails for points.  Points given after the first hull do not change the interior ... *)
Theorem C135_later_points_refuted : forall w tol h h' t, orderly (h ++ h') -> first_hull (spans w) h (Some t) -> (forall a, ~ In (VAlg (Some a)) h') ->
  forall p, leaf_inside w (v_run w (empty_leaf tol) (h ++ h')) p = leaf_inside w (v_run w (empty_leaf tol) h) p.
Proof.
  intros w tol h h' t HO F NA p. induction h' as [|o h' IH] using rev_ind; [rewrite app_nil_r; reflexivity|].
  assert (HO' : orderly (h ++ h')) by (rewrite app_assoc in HO; apply orderly_snoc in HO; tauto).
  rewrite <- IH; [|exact HO'|intros a X; apply (NA a), in_or_app; auto].
  assert (FK : forall k, first_hull (spans w) (h ++ k) (Some t)).
  { intros k. induction k as [|x k IHk] using rev_ind; [rewrite app_nil_r; exact F|]. rewrite app_assoc. apply fh_keep. exact IHk. }
  assert (DET : forall h t1, first_hull (spans w) h t1 -> forall t2, first_hull (spans w) h t2 -> t1 = t2).
  { clear. intros h t1 H1. induction H1 as [|h o t1 H1 IH|h o H1 IH P S|h o H1 IH N]; intros t2 H2; inversion H2; subst; auto;
      repeat match goal with K : [] = ?l ++ [_] |- _ => destruct l; discriminate K | K : ?l ++ [_] = [] |- _ => destruct l; discriminate K
        | K : _ ++ [_] = _ ++ [_] |- _ => apply app_inj_tail in K as [? ?]; subst end; auto;
      try match goal with K : first_hull _ h (Some _) |- _ => apply IH in K; try discriminate; try congruence end;
      try match goal with K : first_hull _ h None |- _ => apply IH in K; try discriminate; try congruence end; try (exfalso; tauto); auto. }
  destruct (volume_inv w tol _ HO) as (t1 & F1 & T1 & _ & A1 & TO1 & _). destruct (volume_inv w tol _ HO') as (t2 & F2 & T2 & _ & A2 & TO2 & _). cbv zeta in *.
  rewrite !leaf_inside_eq, T1, T2, A1, A2, TO1, TO2. rewrite (DET _ _ F1 _ (FK _)), (DET _ _ F2 _ (FK _)). f_equal. f_equal.
  rewrite app_assoc, surfaces_snoc. destruct o as [x|x|[x|]|x y]; rewrite ?app_nil_r; try reflexivity. exfalso. apply (NA x), in_or_app. right. left. reflexivity.
Qed.
(** ... and a volume of whose points no hull can be made (three points, or points of a plane)
    has no boundary: after the exception its interior is all of space, or of its surfaces. *)
Theorem C135_no_hull_refuted : forall w tol a, ~ spans w a ->
  let l := fst (v_step w (empty_leaf tol) (VPoints (A2 a))) in
  (exists e, snd (v_step w (empty_leaf tol) (VPoints (A2 a))) = Err e) /\ l_points l = PArr a /\ forall p, leaf_inside w l p = true.
Proof.
  intros w tol a N. cbv zeta. cbn [v_step]. unfold add_points. cbn [l_points empty_leaf with_points l_hull].
  destruct (hull_step w (with_points (empty_leaf tol) (PArr a)) a eq_refl) as [[S _]|[_ [e E]]]; [contradiction|].
  unfold with_points in E. cbn in E. unfold with_points. cbn. rewrite E. cbn. eauto.
Qed.
(** Assigning to points always fails with ValueError, keeps the interior, and loses the points:
    every later addition fails too and no crystal can be supplied any more. *)
Theorem C135_assign_refuted : forall w l a, let l' := fst (v_step w l (VAssign a)) in
  snd (v_step w l (VAssign a)) = Err ValueError /\ (forall p, leaf_inside w l' p = leaf_inside w l p) /\ get_bounding_box w l' = BArr [] /\
  (forall b, v_step w l' (VPoints b) = (l', Err ValueError)) /\ (forall c k, l_gen l = Some (GCrystal k) -> leaf_populate w c l' = Err ValueError).
Proof.
  intros w l a. cbv zeta. split; [reflexivity|]. split; [intros p; rewrite !leaf_inside_eq; reflexivity|]. split; [reflexivity|]. split; [reflexivity|].
  intros c k E. unfold leaf_populate. cbn. rewrite E. reflexivity.
Qed.
Example C135_nonvacuous : exists w h t, orderly h /\ first_hull (spans w) h (Some t) /\ points_given h <> t /\
  ~ spans w [v0] /\ latest generator_given None h (Some GNull) /\ surfaces_given h <> [].
Proof.
  exists (tetra_world true), [VAlg (Some (half (mkV 1 0 0))); VPoints (A2 tetra); VPoints (A1 (mkV 5 5 5)); VGen (Some GNull) None], tetra.
  split; [|split; [|split; [discriminate|split; [intros [X _]; cbn in X; lia|split; [|discriminate]]]]].
  - split; [intros a [X|[X|[X|[X|[]]]]]; discriminate|]. intros h1 v h2 E.
    destruct h1 as [|o1 [|o2 [|o3 [|o4 h1]]]]; cbn in E; try discriminate; injection E as E1; subst; try discriminate.
    + right. left. exists tetra. congruence.
    + destruct h1; cbn in *; discriminate.
  - apply (fh_keep _ [_; _; _]). apply (fh_keep _ [_; _]). change tetra with (points_given ([VAlg (Some (half (mkV 1 0 0)))] ++ [VPoints (A2 tetra)])) at 2. apply (fh_new _ [_]); [apply (fh_still _ []); [constructor|intros [[x X] _]; discriminate]|exists (A2 tetra); reflexivity|].
    split; [cbn; lia|reflexivity].
  - apply (latest_set _ _ [_; _; _] _ None); [|constructor]. repeat (apply (latest_keep _ _ [_; _]) || apply (latest_keep _ _ [_]) || apply (latest_keep _ _ [])); try constructor; intros y Q; inversion Q.
Qed.
