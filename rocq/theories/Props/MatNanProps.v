(** Matrices with entries that are not numbers (C152). *)
From Coq Require Import Reals List Bool Lra Lia.
From Verif.Model Require Import Base Vec Voxel Transform Molecule AlgNan MatNan.
From Verif.Spec Require Import Geometry GenObjSpec AlgNanSpec MatNanSpec.
From Verif.Proofs Require Import VecFacts VolumeFacts.
From Verif.Props Require Import AlgNanProps GenObjProps.
Import ListNotations.
Open Scope R_scope.

Lemma finite_dec x : {finite x} + {~ finite x}.
Proof. destruct x; [left; eexists; reflexivity|right; intros [r H]; discriminate..]. Qed.
Lemma finite_vec v : Forall finite (entries v) -> exists p, v = pt p.
Proof.
  destruct v as [a b c]. unfold entries. cbn. rewrite !Forall_cons_iff. intros ([x ->] & [y ->] & [z ->] & _).
  exists (mkV x y z). reflexivity.
Qed.
Lemma pt_finite p : Forall finite (entries (pt p)).
Proof. repeat constructor; eexists; reflexivity. Qed.
Lemma finite_mat m : all_finite m -> exists a, m = real_mat a.
Proof.
  intros H. apply Forall_app in H as [H0 H]. apply Forall_app in H as [H1 H2].
  destruct m as [a b c]. cbn in H0, H1, H2. apply finite_vec in H0 as [p Hp], H1 as [q Hq], H2 as [r Hr]. subst. exists (mkM p q r). reflexivity.
Qed.
Lemma real_finite a : all_finite (real_mat a).
Proof. unfold all_finite, mentries. apply Forall_app; split; [|apply Forall_app; split]; apply pt_finite. Qed.
(** sizes that are above everything or NaN *)
Definition big (x : xnum) : Prop := x = PInf \/ x = NaN.
Definition small (x : xnum) : Prop := x <> NInf.
Lemma big_l a b : big a -> small b -> big (xadd a b).
Proof. unfold big, small. intros [-> | ->] H; destruct b; cbn; auto; congruence. Qed.
Lemma big_r a b : big b -> small a -> big (xadd a b).
Proof. unfold big, small. intros [-> | ->] H; destruct a; cbn; auto; congruence. Qed.
Lemma small_add a b : small a -> small b -> small (xadd a b).
Proof. unfold small. destruct a, b; cbn; congruence. Qed.
Lemma small_abs a : small (xabs a).
Proof. unfold small. destruct a; cbn; congruence. Qed.
Lemma big_not_lt x r : big x -> xlt x (Fin r) = false.
Proof. intros [-> | ->]; reflexivity. Qed.
Lemma xdot_big v : ~ Forall finite (entries v) -> big (xdot v v).
Proof.
  destruct v as [a b c]. unfold entries, xdot. cbn. intros H.
  assert (S : forall z, small (xmul z z)) by (intros []; unfold small; cbn; congruence).
  assert (B : forall z, ~ finite z -> big (xmul z z)).
  { intros [r| | |] F; unfold big; cbn; auto. destruct F. eexists; reflexivity. }
  destruct (finite_dec a) as [Fa|Fa]; [|apply big_l; [apply big_l|]; auto].
  destruct (finite_dec b) as [Fb|Fb]; [|apply big_l; [apply big_r|]; auto].
  destruct (finite_dec c) as [Fc|Fc]; [|apply big_r; [|apply small_add]; auto].
  destruct H. repeat constructor; auto.
Qed.
Lemma big_sub x r : big x -> big (xsub x (Fin r)).
Proof. intros [-> | ->]; unfold big; cbn; auto. Qed.
Lemma big_abs x : big x -> big (xabs x).
Proof. intros [-> | ->]; unfold big; cbn; auto. Qed.
(** an entry that is not finite makes the test of orthogonality infinite or NaN *)
Lemma gram_big m : ~ all_finite m -> big (xsumabs (xgram m)).
Proof.
  intros H. unfold xsumabs. cbn zeta.
  assert (S : forall v, small (xadd (xadd (xabs (xx v)) (xabs (xy v))) (xabs (xz v)))).
  { intros v. repeat apply small_add; apply small_abs. }
  destruct (Forall_dec _ finite_dec (entries (x0 m))) as [F0|F0].
  2:{ apply big_l; [apply big_l|]; auto. do 2 (apply big_l; [|apply small_abs]). cbn. apply big_abs, big_sub, xdot_big, F0. }
  destruct (Forall_dec _ finite_dec (entries (x1 m))) as [F1|F1].
  2:{ apply big_l; [apply big_r|]; auto. apply big_l; [|apply small_abs]. apply big_r; [|apply small_abs]. cbn. apply big_abs, big_sub, xdot_big, F1. }
  destruct (Forall_dec _ finite_dec (entries (x2 m))) as [F2|F2].
  2:{ apply big_r; [|apply small_add]; auto. apply big_r; [|apply small_add; apply small_abs]. cbn. apply big_abs, big_sub, xdot_big, F2. }
  destruct H. unfold all_finite, mentries. apply Forall_app; split; [|apply Forall_app; split]; auto.
Qed.
Lemma gram_real a : xsumabs (xgram (real_mat a)) = Fin (msumabs (msub (mm a (mt a)) mI)).
Proof.
  destruct a as [[a b c] [d e f] [g h i]]. unfold xsumabs, xgram, xgram_row, real_mat. cbn [x0 x1 x2]. rewrite !pt_dot.
  unfold msumabs. cbn. repeat apply f_equal; repeat apply f_equal2; apply f_equal; unfold dot; cbn; ring.
Qed.

(* ------------------------------------------------------------------ *)
(** * C152 *)
(** Rotation: whatever the determinant routine answers, only matrices of real numbers pass, and
    for these the answer is that of exact arithmetic *)
Theorem C152_rotation : forall ldet m m', x_rotation ldet m = Ok m' -> m' = m /\ all_finite m.
Proof.
  intros ldet m m' H. unfold x_rotation in H.
  destruct (xlt (xabs _) _); [|discriminate]. destruct (xlt (xsumabs _) _) eqn:E; [|discriminate].
  injection H as <-. split; [reflexivity|].
  destruct (Forall_dec _ finite_dec (mentries m)) as [F|F]; [exact F|]. rewrite big_not_lt in E by (apply gram_big, F). discriminate.
Qed.
Theorem C152_rotation_exact : forall ldet a o lk bo, ldet (real_mat a) = Fin (det a) ->
  ((exists m, x_rotation ldet (real_mat a) = Ok m) <-> new_rotation a o lk bo = Ok (TMatrix a o lk bo)).
Proof.
  intros ldet a o lk bo D. unfold x_rotation, new_rotation, rotation_ok. rewrite D, gram_real. cbn.
  replace (det a + - (1)) with (det a - 1) by ring.
  destruct (Rltb (Rabs (det a - 1)) _); cbn; [|split; [intros [m H]; discriminate|discriminate]].
  destruct (Rltb (msumabs _) _); cbn; split; try discriminate; eauto. intros [m H]. discriminate.
Qed.
Example C152_rotation_nonvacuous : forall ldet, (forall a, ldet (real_mat a) = Fin (det a)) ->
  x_rotation ldet (real_mat mI) = Ok (real_mat mI).
Proof.
  intros ldet D. unfold x_rotation. rewrite D, gram_real. cbn.
  assert (P : 0 < / (10 * (10 * (10 * (10 * (10 * (10 * 1))))))) by lra.
  rewrite (proj2 (Rltb_iff _ _)), (proj2 (Rltb_iff _ _)); [reflexivity| |].
  - unfold msumabs. cbv zeta. vunfold.
    match goal with |- ?x < _ => replace x with 0; [exact P|] end.
    repeat match goal with |- context [Rabs ?y] => replace y with 0 by ring; rewrite Rabs_R0 end. ring.
  - vunfold. match goal with |- Rabs ?y < _ => replace y with 0 by ring end. rewrite Rabs_R0. exact P.
Qed.

(** orientation: for matrices of real numbers the answer is that of exact arithmetic; any other
    matrix is refused unless the test of orthogonality comes out as NaN *)
Theorem C152_orientation_exact : forall ldet mol a, ldet (real_mat a) = Fin (det a) ->
  ((exists m, x_orientation ldet (real_mat a) = Ok m) <-> exists mol', set_orientation mol a = Ok mol').
Proof.
  intros ldet mol a D. unfold x_orientation, set_orientation, xgt. rewrite D, gram_real. cbn.
  replace (det a + - (1)) with (det a - 1) by ring.
  destruct (Rltb _ (Rabs (det a - 1))); cbn; [split; intros [m H]; discriminate|].
  destruct (Rltb _ (msumabs _)); cbn; split; intros [m H]; try discriminate; eauto.
Qed.
Theorem C152_orientation_partial : forall ldet m m', x_orientation ldet m = Ok m' ->
  m' = m /\ (all_finite m \/ xsumabs (xgram m) = NaN).
Proof.
  intros ldet m m' H. unfold x_orientation in H.
  destruct (xgt (xabs _) _); [discriminate|]. destruct (xgt (xsumabs _) _) eqn:E; [discriminate|].
  injection H as <-. split; [reflexivity|].
  destruct (Forall_dec _ finite_dec (mentries m)) as [F|F]; [left; exact F|right].
  destruct (gram_big m F) as [B|B]; [|exact B]. rewrite B in E. discriminate.
Qed.
(** every matrix with a NaN among its entries is accepted as an orientation as soon as the
    determinant comes out as NaN too *)
Lemma gram_nan m : In NaN (mentries m) -> xsumabs (xgram m) = NaN.
Proof.
  intros H. unfold mentries in H. rewrite !in_app_iff in H. unfold xsumabs, xgram, xgram_row. cbn [x0 x1 x2].
  unfold xvsub. cbn [xx xy xz].
  destruct H as [H|[H|H]]; [rewrite (xdot_nan_l (x0 m) (x0 m) H)|rewrite (xdot_nan_l (x1 m) (x1 m) H)|rewrite (xdot_nan_l (x2 m) (x2 m) H)]; nan; cbn [xabs]; nan.
Qed.
Theorem C152_orientation_refuted : forall ldet m, In NaN (mentries m) -> ldet m = NaN ->
  x_orientation ldet m = Ok m.
Proof. intros ldet m H D. unfold x_orientation. rewrite D, gram_nan by exact H. reflexivity. Qed.
Example C152_orientation_nonvacuous :
  exists m, In NaN (mentries m) /\ In (Fin 1) (mentries m) /\ x_orientation (fun _ => NaN) m = Ok m.
Proof.
  exists (mkXM (mkX (Fin 1) (Fin 0) (Fin 0)) (mkX (Fin 0) NaN (Fin 0)) (mkX (Fin 0) (Fin 0) (Fin 1))).
  split; [cbn; auto 8|split; [cbn; auto 8|]]. apply C152_orientation_refuted; [cbn; auto 8|reflexivity].
Qed.

(** cell vectors: a row with an entry that is not finite is never found parallel to another *)
Lemma xnorm_big v : ~ Forall finite (entries v) -> big (xnorm v).
Proof. intros H. unfold xnorm. destruct (xdot_big v H) as [-> | ->]; unfold big; cbn; auto. Qed.
Lemma xnorm_cases v : big (xnorm v) \/ exists r, 0 <= r /\ xnorm v = Fin r.
Proof.
  destruct (Forall_dec _ finite_dec (entries v)) as [F|F]; [|left; apply xnorm_big, F].
  right. apply finite_vec in F as [p ->]. exists (norm p). split; [apply sqrt_pos|apply pt_norm].
Qed.
Lemma quot_big a n : big n -> (forall q, xquot a n = Fin q -> q = 0) .
Proof. intros [-> | ->] q; destruct a; cbn; intros H; try discriminate; injection H as <-; reflexivity. Qed.
Lemma prod_big a b : big a -> (big b \/ exists r, 0 <= r /\ b = Fin r) -> big (xmul a b) .
Proof.
  intros [-> | ->] [[-> | ->]|(r & P & ->)]; unfold big; cbn; auto. unfold xsigned.
  destruct (Rltb 0 r); auto. destruct (Rltb r 0) eqn:E; auto. apply Rltb_iff in E. lra.
Qed.
Lemma prod_big_r a b : big b -> (big a \/ exists r, 0 <= r /\ a = Fin r) -> big (xmul a b) .
Proof.
  intros [-> | ->] [[-> | ->]|(r & P & ->)]; unfold big; cbn; auto. unfold xsigned.
  destruct (Rltb 0 r); auto. destruct (Rltb r 0) eqn:E; auto. apply Rltb_iff in E. lra.
Qed.
Lemma collinear_big a b : big (xmul (xnorm a) (xnorm b)) -> x_collinear a b = false.
Proof.
  intros H. unfold x_collinear. destruct (xquot _ _) eqn:E; try reflexivity.
  apply quot_big in E; [|exact H]. subst r. cbn. apply Reqb_false. rewrite Rabs_R0. lra.
Qed.
Lemma collinear_not_finite a b : ~ (Forall finite (entries a) /\ Forall finite (entries b)) -> x_collinear a b = false.
Proof.
  intros H. apply collinear_big.
  destruct (Forall_dec _ finite_dec (entries a)) as [Fa|Fa].
  - apply prod_big_r; [apply xnorm_big; tauto|apply xnorm_cases].
  - apply prod_big; [apply xnorm_big, Fa|apply xnorm_cases].
Qed.
Lemma collinear_real p q : x_collinear (pt p) (pt q) = collinear p q.
Proof.
  unfold x_collinear, collinear. rewrite pt_dot, !pt_norm. cbn. destruct (Reqb (norm p * norm q) 0); reflexivity.
Qed.
Theorem C152_bases_partial : forall m,
  ((exists m', x_bases m = Ok m') <->
   forall a b, two_rows m a b -> forall p q, a = pt p -> b = pt q -> ~ parallel p q) /\
  (forall m', x_bases m = Ok m' -> m' = m).
Proof.
  intros m.
  assert (C : forall a b, (forall p q, a = pt p -> b = pt q -> ~ parallel p q) <-> x_collinear a b = false).
  { assert (N : forall p q, ~ parallel p q <-> collinear p q = false)
      by (intros p q; rewrite <- collinear_parallel; destruct (collinear p q); split; congruence).
    intros a b. split.
    - intros H. destruct (Forall_dec _ finite_dec (entries a)) as [Fa|Fa]; [|apply collinear_not_finite; tauto].
      destruct (Forall_dec _ finite_dec (entries b)) as [Fb|Fb]; [|apply collinear_not_finite; tauto].
      apply finite_vec in Fa as [p ->], Fb as [q ->]. rewrite collinear_real. apply N. auto.
    - intros H p q -> ->. rewrite collinear_real in H. apply N, H. }
  unfold x_bases. split.
  - split.
    + intros [m' H] a b R. apply C.
      destruct (x_collinear (x0 m) (x1 m)) eqn:E1; [discriminate|]. destruct (x_collinear (x0 m) (x2 m)) eqn:E2; [discriminate|].
      destruct (x_collinear (x1 m) (x2 m)) eqn:E3; [discriminate|]. destruct R as [[-> ->]|[[-> ->]|[-> ->]]]; assumption.
    + intros H. rewrite !(proj1 (C _ _)); [eexists; reflexivity| | |]; apply H; unfold two_rows; auto.
  - intros m'. destruct (x_collinear (x0 m) (x1 m)); [discriminate|]. destruct (x_collinear (x0 m) (x2 m)); [discriminate|].
    destruct (x_collinear (x1 m) (x2 m)); [discriminate|]. congruence.
Qed.
(** so any two vectors with a NaN or an infinity pass, whatever the third is *)
Theorem C152_bases_refuted : forall m, 
  ~ Forall finite (entries (x0 m)) -> ~ Forall finite (entries (x1 m)) -> x_bases m = Ok m.
Proof.
  intros m H0 H1. destruct (C152_bases_partial m) as [[_ B] E]. destruct B as [m' B].
  - intros a b [[-> ->]|[[-> ->]|[-> ->]]] p q P Q; exfalso; [apply H0|apply H0|apply H1]; rewrite P; apply pt_finite.
  - rewrite B, (E _ B). reflexivity.
Qed.
Example C152_bases_nonvacuous : exists m, In NaN (mentries m) /\ In PInf (mentries m) /\ x_bases m = Ok m.
Proof.
  exists (mkXM (mkX NaN (Fin 0) (Fin 0)) (mkX (Fin 0) PInf (Fin 0)) (mkX (Fin 0) (Fin 0) (Fin 1))).
  split; [cbn; auto|split; [cbn; auto 8|]]. apply C152_bases_refuted; unfold entries; cbn; intros F; rewrite !Forall_cons_iff in F; destruct F as ([? A] & [? B] & _); discriminate.
Qed.
