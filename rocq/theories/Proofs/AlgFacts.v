(** Facts about algebraic objects and transformations. *)
From Coq Require Import Reals List Bool Lra Psatz.
From Verif.Model Require Import Base Vec Algebraic Transform.
From Verif.Spec Require Import Geometry AlgSpec.
From Verif.Proofs Require Import VecFacts VolumeFacts.
Import ListNotations.
Open Scope R_scope.

Lemma eps_pos : 0 < eps. Proof. unfold eps. apply Rinv_0_lt_compat. apply pow_lt. lra. Qed.
Lemma eps_small : eps < / 1000000.
Proof. unfold eps. apply Rinv_lt_contravar; lra. Qed.

Lemma vscale_inv_unit v : 0 < norm v -> norm (vscale (/ norm v) v) = 1.
Proof.
  intros H. rewrite norm_scale, Rabs_right. field; lra. apply Rle_ge. left. apply Rinv_0_lt_compat; auto.
Qed.
Lemma unit_dot n : norm n = 1 -> dot n n = 1.
Proof. intros H. rewrite <- norm_sq, H. ring. Qed.
Lemma dot_unit n : dot n n = 1 -> norm n = 1.
Proof. intros H. unfold norm. rewrite H. apply sqrt_1. Qed.

Lemma check_normal_Ok n n' : check_normal n = Ok n' <-> eps < norm n /\ n' = vscale (/ norm n) n.
Proof.
  unfold check_normal. destruct (Rltb eps (norm n)) eqn:E.
  - apply Rltb_iff in E. split; intros H; [inversion H; subst; auto|destruct H; subst; auto].
  - apply Rltb_false in E. split; intros H; [discriminate|lra].
Qed.
Lemma check_axis_Ok n n' : check_axis n = Ok n' <-> eps < norm n /\ n' = vscale (/ norm n) n.
Proof.
  unfold check_axis. destruct (Rleb (norm n) eps) eqn:E.
  - apply Rleb_iff in E. split; intros H; [discriminate|lra].
  - apply Rleb_false in E. split; intros H; [inversion H; subst; auto|destruct H; subst; auto].
Qed.
Lemma check_tol_Ok t t' : check_tol t = Ok t' <-> 0 < t /\ t' = t.
Proof.
  unfold check_tol. destruct (Rltb 0 t) eqn:E.
  - apply Rltb_iff in E. split; intros H; [inversion H; subst; auto|destruct H; subst; auto].
  - apply Rltb_false in E. split; intros H; [discriminate|lra].
Qed.
Lemma check_sphere_radius_Ok t t' : check_sphere_radius t = Ok t' <-> 0 < t /\ t' = t.
Proof.
  unfold check_sphere_radius. destruct (Rltb 0 t) eqn:E.
  - apply Rltb_iff in E. split; intros H; [inversion H; subst; auto|destruct H; subst; auto].
  - apply Rltb_false in E. split; intros H; [discriminate|lra].
Qed.
Lemma check_cyl_len_Ok t t' : check_cyl_len t = Ok t' <-> eps <= t /\ t' = t.
Proof.
  unfold check_cyl_len. destruct (Rltb t eps) eqn:E.
  - apply Rltb_iff in E. split; intros H; [discriminate|lra].
  - apply Rltb_false in E. split; intros H; [inversion H; subst; auto|destruct H; subst; auto].
Qed.
Lemma check_unit n : norm n = 1 -> check_normal n = Ok n.
Proof.
  intros H. apply check_normal_Ok. pose proof eps_small. split; [lra|]. rewrite H. destruct n; vunfold.
  f_equal; field.
Qed.
Lemma check_axis_unit n : norm n = 1 -> check_axis n = Ok n.
Proof.
  intros H. apply check_axis_Ok. pose proof eps_small. split; [lra|]. rewrite H. destruct n; vunfold.
  f_equal; field.
Qed.

(** Induction over nested transformations. *)
Section TInd.
Variable P : transform -> Prop.
Hypothesis H1 : forall s lk bo, P (TTranslation s lk bo).
Hypothesis H2 : forall m o lk bo, P (TMatrix m o lk bo).
Hypothesis H3 : forall o lk bo, P (TInversion o lk bo).
Hypothesis H4 : forall pl lk bo, P (TReflection pl lk bo).
Hypothesis H5 : forall ts, Forall P ts -> P (TMulti ts).
Fixpoint transform_ind' (t : transform) : P t :=
  match t with
  | TTranslation s lk bo => H1 s lk bo
  | TMatrix m o lk bo => H2 m o lk bo
  | TInversion o lk bo => H3 o lk bo
  | TReflection p lk bo => H4 p lk bo
  | TMulti ts => H5 ts ((fix go l := match l return Forall P l with
                                     | [] => Forall_nil _
                                     | x :: r => Forall_cons _ (transform_ind' x) (go r) end) ts)
  end.
End TInd.

Lemma orth_neg : orthogonal (mscale (-1) mI).
Proof. unfold orthogonal. vring. Qed.

(** difference of images under a matrix transform *)
Lemma matrix_pt_sub m o p q : vsub (matrix_pt m o p) (matrix_pt m o q) = mv m (vsub p q).
Proof. unfold matrix_pt. destruct o; vring. Qed.

Lemma matrix_alg_rigid m o a : orthogonal m -> valid_alg a ->
  exists a', matrix_alg m o a = Ok a' /\ valid_alg a' /\
    forall p, alg_interior a' (matrix_pt m o p) = alg_interior a p.
Proof.
  intros Hm Ha. destruct a as [s|p|c]; cbn [matrix_alg].
  - eexists. split; [reflexivity|]. split; [exact Ha|]. intros q. cbn [alg_interior]. unfold sphere_interior.
    cbn [s_center s_radius s_tol sphere_set_center]. f_equal. rewrite matrix_pt_sub.
    change (dot (mv m (vsub q (s_center s))) (mv m (vsub q (s_center s)))
            = dot (vsub q (s_center s)) (vsub q (s_center s))).
    apply orth_dot; auto.
  - destruct Ha as [Hn Ht]. unfold plane_set_normal. rewrite check_unit by (rewrite orth_norm; auto). cbn [bind].
    eexists. split; [reflexivity|]. split.
    + split; cbn; auto. rewrite orth_norm; auto.
    + intros q. cbn [alg_interior]. unfold plane_interior, sdist_from_plane. cbn [p_normal p_point p_tol plane_set_point].
      f_equal. 
      replace (dot (matrix_pt m o q) (mv m (p_normal p)) - dot (matrix_pt m o (p_point p)) (mv m (p_normal p)))
        with (dot (vsub (matrix_pt m o q) (matrix_pt m o (p_point p))) (mv m (p_normal p)))
        by (generalize (matrix_pt m o q) (matrix_pt m o (p_point p)) (mv m (p_normal p)); vring).
      rewrite matrix_pt_sub, orth_dot by auto. vring.
  - destruct Ha as (Hn & Hr & Hl & Ht). unfold cyl_set_axis. rewrite check_axis_unit by (rewrite orth_norm; auto). cbn [bind].
    eexists. split; [reflexivity|]. split.
    + repeat split; cbn; auto. rewrite orth_norm; auto.
    + intros q. cbn [alg_interior]. unfold cyl_interior. cbn [c_axis c_point c_radius c_length c_tol cyl_set_point].
      rewrite matrix_pt_sub, orth_cross_norm, orth_dot by auto. reflexivity.
Qed.

Lemma apply_alg_rigid : forall t, rigid t -> forall a, valid_alg a ->
  exists a', apply_alg t a = Ok a' /\ valid_alg a' /\
    forall p, alg_interior a' (apply_pt t p) = alg_interior a p.
Proof.
  induction t as [s lk bo|m o lk bo|o lk bo|pl lk bo|ts IH] using transform_ind'; intros Hr a Ha; inversion Hr; subst.
  - eexists. split; [reflexivity|]. destruct a as [x|x|x]; cbn [apply_alg apply_pt].
    + split; [exact Ha|]. intros p. cbn [alg_interior]. unfold sphere_interior. cbn.
      f_equal. destruct x as [r [] tt], p; cbn. ring.
    + split; [exact Ha|]. intros p. cbn [alg_interior]. unfold plane_interior, sdist_from_plane. cbn.
      f_equal. vring.
    + split; [exact Ha|]. intros p. cbn [alg_interior]. unfold cyl_interior. cbn -[vsub vadd cross dot].
      replace (vsub (vadd p s) (vadd (c_point x) s)) with (vsub p (c_point x)) by vring. reflexivity.
  - apply matrix_alg_rigid; auto.
  - apply matrix_alg_rigid; auto using orth_neg.
  - cbn [apply_alg apply_pt]. clear Hr. revert a Ha. induction ts as [|t ts IHt]; intros a Ha.
    + exists a. split; [reflexivity|]. split; auto.
    + inversion IH; inversion H0; subst.
      destruct (H2 H6 a Ha) as (a1 & E1 & V1 & I1). destruct (IHt H3 H7 a1 V1) as (a2 & E2 & V2 & I2).
      exists a2. cbn [foldM]. rewrite E1. cbn [bind]. split; [exact E2|]. split; auto.
      intros p. cbn [fold_left]. rewrite I2, I1. reflexivity.
Qed.

(** every object produced by apply_alg from a valid one is valid *)
Lemma matrix_alg_valid m o a a' : valid_alg a -> matrix_alg m o a = Ok a' -> valid_alg a'.
Proof.
  intros Ha H. destruct a as [s|p|c]; cbn [matrix_alg] in H.
  - inversion H; subst. exact Ha.
  - inv_bind H. inversion H; subst. unfold plane_set_normal in Ha0. inv_bind Ha0. inversion Ha0; subst.
    apply check_normal_Ok in Ha1 as [H1 ->]. destruct Ha. split; cbn; auto.
    apply vscale_inv_unit. pose proof eps_pos. lra.
  - inv_bind H. inversion H; subst. unfold cyl_set_axis in Ha0. inv_bind Ha0. inversion Ha0; subst.
    apply check_axis_Ok in Ha1 as [H1 ->]. destruct Ha as (?&?&?&?). repeat split; cbn; auto.
    apply vscale_inv_unit. pose proof eps_pos. lra.
Qed.
Lemma apply_alg_valid : forall t a a', valid_alg a -> apply_alg t a = Ok a' -> valid_alg a'.
Proof.
  induction t as [s lk bo|m o lk bo|o lk bo|pl lk bo|ts IH] using transform_ind'; intros a a' Ha H; cbn [apply_alg] in H.
  - inversion H; subst. destruct a; exact Ha.
  - eapply matrix_alg_valid; eauto.
  - eapply matrix_alg_valid; eauto.
  - discriminate.
  - revert a Ha H. induction IH as [|t ts Ht _ IHt]; intros a Ha H; cbn [foldM] in H.
    + inversion H; subst; auto.
    + inv_bind H. eauto.
Qed.
