(** Vector and matrix algebra used by the proofs. *)
From Coq Require Import Reals List Bool Lra Psatz.
From Verif.Model Require Import Base Vec.
From Verif.Spec Require Import Geometry.
Import ListNotations.
Open Scope R_scope.

Lemma vec_eq a b : vx a = vx b -> vy a = vy b -> vz a = vz b -> a = b.
Proof. destruct a, b; simpl; congruence. Qed.
Lemma mat_eq a b : r0 a = r0 b -> r1 a = r1 b -> r2 a = r2 b -> a = b.
Proof. destruct a, b; simpl; congruence. Qed.

Ltac vunfold :=
  cbv beta iota delta [vm minv mm mv mt outer madd msub mscale det vadd vsub vopp vscale vmul
                       dot cross v0 mI vx vy vz r0 r1 r2].
Ltac vring := intros; try apply mat_eq; try apply vec_eq; vunfold; ring.
Ltac vfield := intros; try apply mat_eq; try apply vec_eq; vunfold; field.

Lemma Rltb_iff x y : Rltb x y = true <-> x < y.
Proof. unfold Rltb; destruct (Rlt_dec x y); split; auto; try discriminate; contradiction. Qed.
Lemma Rltb_false x y : Rltb x y = false <-> y <= x.
Proof. unfold Rltb; destruct (Rlt_dec x y); split; intros; try discriminate; auto; lra. Qed.
Lemma Rleb_iff x y : Rleb x y = true <-> x <= y.
Proof. unfold Rleb; destruct (Rle_dec x y); split; auto; try discriminate; contradiction. Qed.
Lemma Rleb_false x y : Rleb x y = false <-> y < x.
Proof. unfold Rleb; destruct (Rle_dec x y); split; intros; try discriminate; auto; lra. Qed.
Lemma Reqb_iff x y : Reqb x y = true <-> x = y.
Proof. unfold Reqb; destruct (Req_EM_T x y); split; auto; try discriminate; contradiction. Qed.
Lemma Reqb_false x y : Reqb x y = false <-> x <> y.
Proof. unfold Reqb; destruct (Req_EM_T x y); split; auto; try discriminate; contradiction. Qed.

Lemma bool_iff_eq (a b : bool) : (a = true <-> b = true) -> a = b.
Proof. destruct a, b; intuition congruence. Qed.

Lemma dot_comm a b : dot a b = dot b a. Proof. vring. Qed.
Lemma dot_pos a : 0 <= dot a a.
Proof. unfold dot. nra. Qed.
Lemma dot_zero a : dot a a = 0 -> a = v0.
Proof. unfold dot; intros; apply vec_eq; simpl; nra. Qed.
Lemma norm_pos a : 0 <= norm a. Proof. apply sqrt_pos. Qed.
Lemma norm_sq a : norm a * norm a = dot a a.
Proof. apply sqrt_sqrt, dot_pos. Qed.
Lemma norm_zero a : norm a = 0 -> a = v0.
Proof. intros H. apply dot_zero. rewrite <- norm_sq, H. ring. Qed.
Lemma norm_v0 : norm v0 = 0.
Proof. unfold norm, v0, dot; simpl. replace (0*0+0*0+0*0) with 0 by ring. apply sqrt_0. Qed.
Lemma norm_scale s a : norm (vscale s a) = Rabs s * norm a.
Proof.
  unfold norm. replace (dot (vscale s a) (vscale s a)) with (Rsqr s * dot a a) by (unfold Rsqr; vring).
  rewrite sqrt_mult_alt by apply Rle_0_sqr. rewrite sqrt_Rsqr_abs. auto.
Qed.
Lemma norm_opp a : norm (vopp a) = norm a.
Proof. unfold norm. f_equal. vring. Qed.
Lemma dist_sym a b : dist a b = dist b a.
Proof. unfold dist. rewrite <- norm_opp. f_equal. vring. Qed.

Lemma lagrange a b : dot (cross a b) (cross a b) = dot a a * dot b b - dot a b * dot a b.
Proof. vring. Qed.
Lemma cauchy_sq a b : dot a b * dot a b <= dot a a * dot b b.
Proof. pose proof (dot_pos (cross a b)). rewrite lagrange in H. lra. Qed.
Lemma cauchy a b : Rabs (dot a b) <= norm a * norm b.
Proof.
  apply Rsqr_incr_0_var.
  - rewrite <- Rsqr_abs. unfold Rsqr.
    replace (norm a * norm b * (norm a * norm b)) with ((norm a * norm a) * (norm b * norm b)) by ring.
    rewrite !norm_sq. apply cauchy_sq.
  - apply Rmult_le_pos; apply norm_pos.
Qed.
Lemma norm_triangle a b : norm (vadd a b) <= norm a + norm b.
Proof.
  apply Rsqr_incr_0_var; [|pose proof (norm_pos a); pose proof (norm_pos b); lra].
  unfold Rsqr. rewrite norm_sq.
  pose proof (cauchy a b) as H. pose proof (Rle_abs (dot a b)).
  replace ((norm a + norm b) * (norm a + norm b))
    with (norm a * norm a + norm b * norm b + 2 * (norm a * norm b)) by ring.
  rewrite !norm_sq.
  replace (dot (vadd a b) (vadd a b)) with (dot a a + dot b b + 2 * dot a b) by vring. lra.
Qed.

Lemma mt_mt m : mt (mt m) = m. Proof. destruct m as [[] [] []]; reflexivity. Qed.
Lemma mv_id v : mv mI v = v. Proof. vring. Qed.
Lemma mv_mm a b v : mv (mm a b) v = mv a (mv b v). Proof. vring. Qed.
Lemma mv_add m a b : mv m (vadd a b) = vadd (mv m a) (mv m b). Proof. vring. Qed.
Lemma mv_sub m a b : mv m (vsub a b) = vsub (mv m a) (mv m b). Proof. vring. Qed.
Lemma mv_scale m s a : mv m (vscale s a) = vscale s (mv m a). Proof. vring. Qed.
Lemma mm_assoc a b c : mm a (mm b c) = mm (mm a b) c. Proof. vring. Qed.
Lemma mm_id_l a : mm mI a = a. Proof. vring. Qed.
Lemma mm_id_r a : mm a mI = a. Proof. vring. Qed.
Lemma mt_mm a b : mt (mm a b) = mm (mt b) (mt a). Proof. vring. Qed.
Lemma dot_mv m a b : dot (mv m a) b = dot a (mv (mt m) b). Proof. vring. Qed.
Lemma det_mm a b : det (mm a b) = det a * det b. Proof. vring. Qed.
Lemma det_mt a : det (mt a) = det a. Proof. vring. Qed.
Lemma det_mI : det mI = 1. Proof. vring. Qed.
Definition adj (m : mat) : mat :=
  mt (mkM (cross (r1 m) (r2 m)) (cross (r2 m) (r0 m)) (cross (r0 m) (r1 m))).
Lemma minv_adj m : minv m = mscale (/ det m) (adj m). Proof. reflexivity. Qed.
Lemma adj_r m : mm m (adj m) = mscale (det m) mI.
Proof. destruct m as [[] [] []]. unfold adj. vring. Qed.
Lemma adj_l m : mm (adj m) m = mscale (det m) mI.
Proof. destruct m as [[] [] []]. unfold adj. vring. Qed.
Lemma mm_mscale_r a s b : mm a (mscale s b) = mscale s (mm a b). Proof. vring. Qed.
Lemma mm_mscale_l a s b : mm (mscale s a) b = mscale s (mm a b). Proof. vring. Qed.
Lemma mscale_mscale a b m : mscale a (mscale b m) = mscale (a * b) m. Proof. vring. Qed.
Lemma mscale_1 m : mscale 1 m = m. Proof. vring. Qed.
Lemma minv_r m : det m <> 0 -> mm m (minv m) = mI.
Proof.
  intros H. rewrite minv_adj, mm_mscale_r, adj_r, mscale_mscale, Rinv_l, mscale_1; auto.
Qed.
Lemma minv_l m : det m <> 0 -> mm (minv m) m = mI.
Proof.
  intros H. rewrite minv_adj, mm_mscale_l, adj_l, mscale_mscale, Rinv_l, mscale_1; auto.
Qed.
Lemma mv_minv_r m v : det m <> 0 -> mv m (mv (minv m) v) = v.
Proof. intros. rewrite <- mv_mm, minv_r, mv_id; auto. Qed.
Lemma mv_minv_l m v : det m <> 0 -> mv (minv m) (mv m v) = v.
Proof. intros. rewrite <- mv_mm, minv_l, mv_id; auto. Qed.
Lemma det_minv m : det m <> 0 -> det (minv m) = / det m.
Proof.
  intros H. assert (E : det m * det (minv m) = 1) by (rewrite <- det_mm, minv_r, det_mI; auto).
  apply (Rmult_eq_reg_l (det m)); auto. rewrite E, Rinv_r; auto.
Qed.

Lemma vadd_comm a b : vadd a b = vadd b a. Proof. vring. Qed.
Lemma vadd_assoc a b c : vadd a (vadd b c) = vadd (vadd a b) c. Proof. vring. Qed.
Lemma vadd_v0_l a : vadd v0 a = a. Proof. vring. Qed.
Lemma vadd_v0_r a : vadd a v0 = a. Proof. vring. Qed.
Lemma vsub_vadd a b : vsub (vadd a b) b = a. Proof. vring. Qed.
Lemma vadd_vsub a b : vadd (vsub a b) b = a. Proof. vring. Qed.

(* ----- orthogonal matrices ----- *)
Lemma orth_det m : orthogonal m -> det m * det m = 1.
Proof. intros H. rewrite <- (det_mt m) at 2. rewrite <- det_mm, H. apply det_mI. Qed.
Lemma orth_det_nz m : orthogonal m -> det m <> 0.
Proof. intros H E. apply orth_det in H. rewrite E in H. lra. Qed.
Lemma orth_minv m : orthogonal m -> minv m = mt m.
Proof.
  intros H. pose proof (orth_det_nz m H) as Hd.
  rewrite <- (mm_id_r (minv m)). rewrite <- H. rewrite mm_assoc, minv_l, mm_id_l; auto.
Qed.
Lemma orth_mt m : orthogonal m -> mm (mt m) m = mI.
Proof. intros H. rewrite <- orth_minv by auto. apply minv_l. apply orth_det_nz; auto. Qed.
Lemma orth_transpose m : orthogonal m -> orthogonal (mt m).
Proof. intros H. unfold orthogonal. rewrite mt_mt. apply orth_mt; auto. Qed.
Lemma orth_dot m a b : orthogonal m -> dot (mv m a) (mv m b) = dot a b.
Proof. intros H. rewrite dot_mv, <- mv_mm, orth_mt, mv_id; auto. Qed.
Lemma orth_norm m a : orthogonal m -> norm (mv m a) = norm a.
Proof. intros H. unfold norm. rewrite orth_dot; auto. Qed.
Lemma orth_mm a b : orthogonal a -> orthogonal b -> orthogonal (mm a b).
Proof.
  unfold orthogonal. intros Ha Hb. rewrite mt_mm, <- mm_assoc, (mm_assoc b).
  rewrite Hb, mm_id_l. auto.
Qed.
Lemma orth_cross_norm m a b : orthogonal m -> norm (cross (mv m a) (mv m b)) = norm (cross a b).
Proof. intros H. unfold norm. f_equal. rewrite !lagrange, !orth_dot; auto. Qed.

Lemma rotation_mI : rotation mI.
Proof. split; [unfold orthogonal|]; vring. Qed.
