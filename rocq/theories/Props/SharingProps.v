(** Transformations and the arrays of their users: C117. *)
From Coq Require Import Reals List Bool ZArith Arith Lra Lia.
From Verif.Model Require Import Base Vec Voxel Algebraic Transform TransformObj Sharing.
From Verif.Spec Require Import Geometry HistorySpec SharingSpec.
From Verif.Proofs Require Import VecFacts VolumeFacts AlgFacts.
From Verif.Props Require Import GrainProps TransformObjProps.
Import ListNotations.
Open Scope R_scope.
Local Arguments IZR : simpl never.

(** equal but for the matrix of a MatrixTransform or Rotation and the plane *)
Definition alike (t u : tobj) : Prop :=
  t_kind t = t_kind u /\ t_shift t = t_shift u /\ t_origin t = t_origin u /\ t_locked t = t_locked u /\ t_basis_only t = t_basis_only u /\
  (t_kind t <> KMatrix -> t_kind t <> KRotation -> t_matrix t = t_matrix u).

Lemma alike_refl t : alike t t.
Proof. repeat split; auto. Qed.
Lemma alike_trans t u v : alike t u -> alike u v -> alike t v.
Proof.
  intros (A&B&C&D&E&F) (A'&B'&C'&D'&E'&F'). unfold alike. rewrite A, B, C, D, E. repeat split; auto.
  intros H1 H2. rewrite F by (rewrite A; auto). auto.
Qed.
Lemma step_alike t u o : alike t u -> snd (t_step t o) = snd (t_step u o) /\ alike (fst (t_step t o)) (fst (t_step u o)).
Proof.
  destruct t as [k s m og p lk bo], u as [k' s' m' og' p' lk' bo']. intros (A&B&C&D&E&F). cbn in *. subst.
  unfold alike.
  destruct o as [a|[] a|fl n|a|[pl|]|[b|]|[b|]], k'; cbn;
    repeat match goal with |- context [if ?b then _ else _] => destruct b; cbn end;
    repeat split; auto; try congruence; intros; try (apply F; congruence).
Qed.
Lemma view_step w e :
  match op_now (w_client w) e with
  | Some o => view (w_step w e) = fst (t_step (view w) o) /\ w_client (w_step w e) = w_client w
  | None => w_client (w_step w e) = c_step (w_client w) e /\ w_obj (w_step w e) = w_obj w
  end.
Proof.
  destruct w as [c [k s m og p lk bo]].
  destruct e as [i d|j q|i|i|i|j|[b|]|[b|]]; cbn [op_now w_client w_step]; auto;
    unfold w_step; cbn [op_now w_client w_obj view]; destruct k; cbn;
    repeat match goal with |- context [if ?b then _ else _] => destruct b; cbn end; auto.
Qed.
(** only a MatrixTransform or Rotation holds a reference *)
Definition refs_ok (o : sobj) : Prop := forall i, s_matrix o = Some (Ref i) -> s_kind o = KMatrix \/ s_kind o = KRotation.
Lemma step_kind w e : s_kind (w_obj (w_step w e)) = s_kind (w_obj w).
Proof.
  unfold w_step. destruct (op_now (w_client w) e); [|reflexivity]. destruct (t_step (view w) t) as [u [v|x]]; reflexivity.
Qed.
Lemma run_snoc w h e : w_run w (h ++ [e]) = w_step (w_run w h) e.
Proof. unfold w_run. rewrite fold_left_app. reflexivity. Qed.
Lemma step_refs w e : refs_ok (w_obj w) -> refs_ok (w_obj (w_step w e)).
Proof.
  intros H i. rewrite step_kind. unfold w_step. destruct (op_now (w_client w) e); [|apply H].
  destruct (t_step (view w) t) as [u [v|x]]; [|apply H]. cbn. destruct e, (s_kind (w_obj w)) eqn:K; try (intros E; specialize (H i E); rewrite K in H; exact H); auto;
    destruct (t_matrix u); cbn; discriminate.
Qed.
Lemma move_alike c c' o : refs_ok o -> alike (view (mkW c o)) (view (mkW c' o)).
Proof.
  destruct o as [k s m og p lk bo]. intros H. repeat split. cbn. intros N1 N2. destruct m as [[m|i]|]; auto. destruct (H i eq_refl); contradiction.
Qed.
Lemma said_step c e h : said c (e :: h) = match op_now c e with Some o => o :: said c h | None => said (c_step c e) h end.
Proof. destruct e; cbn [said op_now c_step]; try reflexivity. destruct (Nat.eqb _ _); reflexivity. Qed.
Lemma said_snoc c h e : exists c', w_client (w_run (mkW c (mkS KMatrix None None None None true true)) h) = c' /\
  said c (h ++ [e]) = said c h ++ match op_now c' e with Some o => [o] | None => [] end.
Proof.
  exists (w_client (w_run (mkW c (mkS KMatrix None None None None true true)) h)). split; [reflexivity|].
  generalize (mkS KMatrix None None None None true true) as o. revert c. induction h as [|e' h IH]; intros c o.
  - cbn [app w_run fold_left w_client]. rewrite said_step. destruct (op_now c e); reflexivity.
  - cbn [app]. rewrite !said_step. pose proof (view_step (mkW c o) e') as V. cbn [w_client w_obj] in V.
    change (w_run (mkW c o) (e' :: h)) with (w_run (w_step (mkW c o) e') h).
    destruct (w_step (mkW c o) e') as [c1 o1] eqn:E. cbn [w_client] in V.
    destruct (op_now c e') as [op|]; destruct V as [V1 V2].
    + rewrite V2. cbn [app]. f_equal. apply IH.
    + rewrite V1. apply IH.
Qed.
Lemma client_indep c o o' h : w_client (w_run (mkW c o) h) = w_client (w_run (mkW c o') h).
Proof.
  revert c o o'. induction h as [|e h IH]; intros c o o'; [reflexivity|].
  change (w_client (w_run (w_step (mkW c o) e) h) = w_client (w_run (w_step (mkW c o') e) h)).
  pose proof (view_step (mkW c o) e) as V. pose proof (view_step (mkW c o') e) as V'. cbn [w_client] in V, V'.
  destruct (w_step (mkW c o) e) as [c1 o1], (w_step (mkW c o') e) as [c2 o2]. cbn [w_client] in V, V'.
  replace c2 with c1; [apply IH|]. destruct (op_now c e); intuition congruence.
Qed.
Lemma said_run c o h e : said c (h ++ [e]) =
  said c h ++ match op_now (w_client (w_run (mkW c o) h)) e with Some o => [o] | None => [] end.
Proof.
  destruct (said_snoc c h e) as (c' & <- & E). rewrite E. rewrite (client_indep c _ o h). reflexivity.
Qed.

Lemma run_inv c k lk bo h : refs_ok (w_obj (w_run (new_world c k lk bo) h)) /\
  alike (view (w_run (new_world c k lk bo) h)) (t_run (new_tobj k lk bo) (said c h)).
Proof.
  induction h as [|e h [R A]] using rev_ind.
  - split; [intros i; discriminate|apply alike_refl].
  - rewrite run_snoc. split; [apply step_refs, R|]. unfold new_world in *. rewrite (said_run c (mkS k None None None None lk bo)).
    set (w := w_run _ h) in *. pose proof (view_step w e) as V. destruct (op_now (w_client w) e) as [o|].
    + rewrite t_run_app. destruct V as [-> _]. apply step_alike, A.
    + rewrite app_nil_r. destruct V as [V1 V2]. eapply alike_trans; [|exact A].
      destruct w as [c1 o1], (w_step (mkW c1 o1) e) as [c2 o2]. cbn in V1, V2. subst. apply move_alike, R.
Qed.

(** Translations, inversions and reflections do to points what they were told, whatever the
    program does to its arrays and planes; and so do the flags, the origin and the shift of
    every transformation. *)
Theorem C117_copied_partial : forall c k lk bo h pts,
  let t := view (w_run (new_world c k lk bo) h) in
  let u := t_run (new_tobj k lk bo) (said c h) in
  t_shift t = t_shift u /\ t_origin t = t_origin u /\ t_locked t = t_locked u /\ t_basis_only t = t_basis_only u /\
  (k <> KMatrix -> k <> KRotation -> t_apply t pts = t_apply u pts).
Proof.
  intros c k lk bo h pts t u. destruct (run_inv c k lk bo h) as [_ (A&B&C&D&E&F)]. fold t in A, B, C, D, E, F. fold u in A, B, C, D, E, F.
  repeat split; auto. intros N1 N2. assert (K : t_kind u = k) by (unfold u; apply t_run_kind).
  unfold t_apply. rewrite A, B, C. rewrite F by congruence. reflexivity.
Qed.

(** If arrays given as matrices and planes are left alone afterwards, the object is the one
    that the assignments describe. *)
Lemma matrix_inv c k lk bo h : matrices_left_alone h -> planes_left_alone h ->
  let w := w_run (new_world c k lk bo) h in
  view w = t_run (new_tobj k lk bo) (said c h) /\
  (forall i, s_matrix (w_obj w) = Some (Ref i) -> exists h1 h2, h = h1 ++ GiveMatrix i :: h2) /\
  (forall j, s_plane (w_obj w) = Some j -> exists h1 h2, h = h1 ++ GivePlane j :: h2).
Proof.
  induction h as [|e h IH] using rev_ind; intros HM HP w.
  - split; [reflexivity|]. split; intros i H; discriminate.
  - assert (HM' : matrices_left_alone h).
    { intros h1 i h2 d h3 ->. apply (HM h1 i h2 d (h3 ++ [e])). repeat (rewrite <- app_assoc; cbn). reflexivity. }
    assert (HP' : planes_left_alone h).
    { intros h1 i h2 d h3 ->. apply (HP h1 i h2 d (h3 ++ [e])). repeat (rewrite <- app_assoc; cbn). reflexivity. }
    specialize (IH HM' HP'). cbn zeta in IH. unfold w. rewrite run_snoc. unfold new_world in *. rewrite (said_run c (mkS k None None None None lk bo)).
    set (v := w_run _ h) in *. destruct IH as (V & I1 & I2).
    assert (J1 : forall i, s_matrix (w_obj v) = Some (Ref i) -> exists h1 h2, h ++ [e] = h1 ++ GiveMatrix i :: h2).
    { intros i H. destruct (I1 i H) as (h1 & h2 & ->). exists h1, (h2 ++ [e]). rewrite <- app_assoc. reflexivity. }
    assert (J2 : forall i, s_plane (w_obj v) = Some i -> exists h1 h2, h ++ [e] = h1 ++ GivePlane i :: h2).
    { intros i H. destruct (I2 i H) as (h1 & h2 & ->). exists h1, (h2 ++ [e]). rewrite <- app_assoc. reflexivity. }
    split; [|split].
    + pose proof (view_step v e) as S. destruct (op_now (w_client v) e) as [o|] eqn:EO.
      * rewrite t_run_app. destruct S as [-> _]. rewrite V. reflexivity.
      * rewrite app_nil_r, <- V. destruct S as [S1 S2].
        destruct v as [c1 [k1 s1 m1 og1 p1 lk1 bo1]], (w_step (mkW c1 _) e) as [c2 o2]. cbn [w_client w_obj s_matrix s_plane] in *. subst o2 c2.
        unfold view. cbn [w_client w_obj]. f_equal.
        -- destruct m1 as [[m|i]|]; cbn; auto. f_equal. destruct e; cbn [c_step]; auto; try discriminate.
           destruct (Nat.eqb _ _); [|reflexivity]. cbn [c_arr]. unfold upd. destruct (Nat.eqb_spec i0 i); [|reflexivity].
           subst i0. exfalso. destruct (I1 i eq_refl) as (h1 & h2 & ->). apply (HM h1 i h2 data []). rewrite <- app_assoc. reflexivity.
        -- destruct p1 as [j|]; cbn; auto. f_equal. destruct e; cbn [c_step]; auto; try discriminate.
           { destruct (Nat.eqb _ _); reflexivity. }
           cbn [c_plane]. unfold upd. destruct (Nat.eqb_spec j0 j); [|reflexivity].
           subst j0. exfalso. destruct (I2 j eq_refl) as (h1 & h2 & ->). apply (HP h1 j h2 p []). rewrite <- app_assoc. reflexivity.
    + intros i. unfold w_step. destruct (op_now (w_client v) e); [|apply J1]. destruct (t_step (view v) t) as [u [z|z]]; [|apply J1]. cbn.
      destruct e, (s_kind (w_obj v)); try (exact (J1 i)); try (destruct (t_matrix u); cbn; discriminate);
        intros H; injection H as <-; exists h, []; reflexivity.
    + intros j. unfold w_step. destruct (op_now (w_client v) e); [|apply J2]. destruct (t_step (view v) t) as [u [z|z]]; [|apply J2]. cbn.
      destruct e, (s_kind (w_obj v)); try (exact (J2 j)); intros H; injection H as <-; exists h, []; reflexivity.
Qed.
Theorem C117_left_alone_partial : forall c k lk bo h, matrices_left_alone h -> planes_left_alone h ->
  view (w_run (new_world c k lk bo) h) = t_run (new_tobj k lk bo) (said c h).
Proof. intros c k lk bo h HM HP. apply (matrix_inv c k lk bo h HM HP). Qed.

(** A rotation that passed its checks, and whose array is then doubled in place, doubles all
    lengths. *)
Definition eye : nparray := mkArr [3; 3]%nat [1; 0; 0; 0; 1; 0; 0; 0; 1].
Definition twice : list R := [2; 0; 0; 0; 2; 0; 0; 0; 2].
Theorem C117_rotation_refuted : forall lk bo c i, c_arr c i = eye ->
  let h := [GiveMatrix i; Write i twice] in
  snd (t_step (new_tobj KRotation lk bo) (SetMatrix false eye)) = Ok tt /\
  forall pts, t_apply (view (w_run (new_world c KRotation lk bo) h)) pts = Ok (Rows (map (vscale 2) pts)) /\
              t_apply (t_run (new_tobj KRotation lk bo) (said c h)) pts = Ok (Rows pts).
Proof.
  intros lk bo c i H h.
  assert (EM : arr_mat eye = mI) by reflexivity.
  assert (RO : rotation_ok mI = true).
  { apply rotation_passes. split; [unfold orthogonal; apply mat_eq; apply vec_eq; cbn; unfold dot; cbn; ring|apply det_mI]. }
  assert (S : forall p m og, t_step (mkT KRotation None m og p lk bo) (SetMatrix false eye) = (mkT KRotation None (Some mI) og p lk bo, Ok tt)).
  { intros. cbn [t_step]. rewrite EM. rewrite RO. reflexivity. }
  split; [unfold new_tobj; rewrite S; reflexivity|]. intros pts. split.
  - unfold h, w_run. cbn [fold_left]. unfold w_step at 2. cbn [op_now new_world w_client w_obj view option_map]. rewrite H, S. cbn [s_kind t_shift t_origin t_locked t_basis_only].
    unfold w_step. cbn [op_now w_client w_obj c_step]. rewrite H. cbn [length a_data eye twice Nat.eqb]. cbn [a_shape].
    unfold view. cbn [w_client w_obj option_map slot_val c_arr]. unfold upd. rewrite Nat.eqb_refl. unfold t_apply. cbn [t_kind t_matrix t_origin].
    f_equal. f_equal. apply map_ext. intros p. unfold matrix_pt, arr_mat, at_. cbn. vunfold. destruct p. f_equal; cbn; ring.
  - unfold h. rewrite !said_step. cbn [op_now]. rewrite H. assert (SN : forall c', said c' [] = []) by reflexivity. rewrite SN. unfold new_tobj, t_run. cbn [fold_left]. rewrite S. cbn [fst]. unfold t_apply. cbn [t_kind t_matrix t_origin].
    f_equal. f_equal. transitivity (map (fun p : vec => p) pts); [|apply map_id]. apply map_ext. intros p. unfold matrix_pt. vunfold. destruct p. f_equal; cbn; ring.
Qed.
(** A reflection whose plane the program moves goes on reflecting in the old plane, but
    reports the new one. *)
Theorem C117_plane_refuted : forall c lk bo j p q, c_plane c j = p ->
  let t := view (w_run (new_world c KReflection lk bo) [GivePlane j; MovePlane j q]) in
  t_params t = Ok (PPlane q) /\
  forall pts, t_apply t pts = Ok (Rows (map (matrix_pt (reflection_matrix (p_normal p)) (Some (p_point p))) pts)).
Proof.
  intros c lk bo j p q H t. unfold t, w_run. cbn. unfold upd. rewrite Nat.eqb_refl, H. split; reflexivity.
Qed.
Example C117_nonvacuous : exists c h, matrices_left_alone h /\ planes_left_alone h /\ (length (said c h) = 3)%nat /\ In (Write 0 [4; 5; 6]) h.
Proof.
  exists (mkC (fun _ => mkArr [3%nat] [1; 2; 3]) (fun _ => mkPlane (mkV 0 0 1) v0 0)), [GiveShift 0; Write 0 [4; 5; 6]; GiveShift 0; GiveMatrix 1].
  split; [|split; [|split; [reflexivity|right; left; reflexivity]]].
  - intros h1 i h2 d h3 E. destruct h1 as [|? [|? [|? [|? h1]]]]; cbn in E; inversion E; try (destruct h2; discriminate). destruct h1; discriminate.
  - intros h1 i h2 d h3 E. destruct h1 as [|? [|? [|? [|? h1]]]]; cbn in E; inversion E. destruct h1; discriminate.
Qed.
