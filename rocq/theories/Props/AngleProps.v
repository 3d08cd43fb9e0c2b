(** Angles between vectors of any dimension: C128. *)
From Coq Require Import Reals List Lra Lia Psatz Arith.
From Verif.Model Require Import Base Vec Angle.
From Verif.Proofs Require Import VecFacts.
Import ListNotations.
Open Scope R_scope.

(** entrywise operations of the statements *)
Definition ntimes (k : R) (a : list R) : list R := map (Rmult k) a.
Definition nzero (a : list R) : Prop := Forall (fun x => x = 0) a.
(** a combination x a + y b of vectors of the same length *)
Fixpoint ncomb (x y : R) (a b : list R) : list R :=
  match a, b with p :: a, q :: b => (x * p + y * q) :: ncomb x y a b | _, _ => [] end.

Lemma ndot_pos a : 0 <= ndot a a.
Proof. induction a as [|x a IH]; cbn; [lra|]. nra. Qed.
Lemma ndot_zero a : ndot a a = 0 <-> nzero a.
Proof.
  unfold nzero. induction a as [|x a IH]; cbn; [split; auto|]. pose proof (ndot_pos a). split.
  - intros E. assert (x = 0) by nra. subst. constructor; auto. apply IH. lra.
  - intros F. inversion F; subst. apply IH in H3. rewrite H3. ring.
Qed.
Lemma ndot_sym a : forall b, ndot a b = ndot b a.
Proof. induction a as [|x a IH]; intros [|y b]; cbn; auto. rewrite IH. ring. Qed.
Lemma ndot_times k a : forall b, ndot (ntimes k a) b = k * ndot a b.
Proof. induction a as [|x a IH]; intros [|y b]; cbn; try ring. rewrite IH. ring. Qed.
Lemma comb_length x y a : forall b, length a = length b -> length (ncomb x y a b) = length a.
Proof. induction a as [|p a IH]; intros [|q b] L; cbn in *; auto; try discriminate. Qed.
Lemma comb_dot x y a : forall b c, length a = length b -> ndot (ncomb x y a b) c = x * ndot a c + y * ndot b c.
Proof. induction a as [|p a IH]; intros [|q b] [|r c] L; cbn in *; try discriminate; try ring. rewrite IH by lia. ring. Qed.
Lemma comb_square x y a b : length a = length b -> ndot (ncomb x y a b) (ncomb x y a b) = x * x * ndot a a + 2 * x * y * ndot a b + y * y * ndot b b.
Proof.
  intros L. rewrite comb_dot by auto. rewrite (ndot_sym a (ncomb _ _ _ _)), (ndot_sym b (ncomb _ _ _ _)), !comb_dot by auto. rewrite (ndot_sym b a). ring.
Qed.
Lemma cauchy a b : length a = length b -> ndot a b * ndot a b <= ndot a a * ndot b b.
Proof.
  intros L. pose proof (ndot_pos a). pose proof (ndot_pos b). destruct (Req_dec (ndot b b) 0) as [Z|NZ].
  - assert (ndot a b = 0); [|rewrite H1, Z; lra]. apply ndot_zero in Z. clear -Z. revert a. induction b as [|y b IH]; intros [|x a]; cbn; auto. inversion Z; subst. rewrite IH by auto. ring.
  - pose proof (ndot_pos (ncomb (ndot b b) (- ndot a b) a b)) as P. rewrite comb_square in P by auto.
    assert (0 <= ndot b b * (ndot a a * ndot b b - ndot a b * ndot a b)) by nra. nra.
Qed.
Lemma nnorm_pos a : 0 <= nnorm a. Proof. apply sqrt_pos. Qed.
Lemma nnorm_sq a : nnorm a * nnorm a = ndot a a. Proof. apply sqrt_sqrt, ndot_pos. Qed.
Lemma nnorm_zero a : nnorm a = 0 <-> nzero a.
Proof. rewrite <- ndot_zero, <- nnorm_sq. split; [intros ->; ring|]. nra. Qed.
Lemma cosine_range a b : length a = length b -> 0 < nnorm a -> 0 < nnorm b -> -1 <= ndot a b / (nnorm a * nnorm b) <= 1.
Proof.
  intros L A B. pose proof (cauchy a b L) as C. rewrite <- (nnorm_sq a), <- (nnorm_sq b) in C. set (n := nnorm a * nnorm b). assert (N : 0 < n) by (unfold n; nra).
  assert (C' : ndot a b * ndot a b <= n * n) by (unfold n; nra). set (q := ndot a b / n). assert (Q : ndot a b = q * n) by (unfold q; field; lra). rewrite Q in C'.
  assert (q * q <= 1) by (apply Rmult_le_reg_r with (n * n); [nra|]; replace (q * q * (n * n)) with (q * n * (q * n)) by ring; lra). split; nra.
Qed.
Lemma nonzero_pos a : ~ nzero a -> 0 < nnorm a.
Proof. intros N. pose proof (nnorm_pos a). destruct (Req_dec (nnorm a) 0) as [Z|]; [apply nnorm_zero in Z; contradiction|lra]. Qed.

(** C128.  The angle is the number t from 0 to pi with a.b = |a| |b| cos t; it exists and is
    the only one for vectors other than zero, in any dimension. *)
Theorem C128_angle : forall a b t, length a = length b -> ~ nzero a -> ~ nzero b ->
  (vangle a b = Ok t <-> 0 <= t <= PI /\ ndot a b = nnorm a * nnorm b * cos t).
Proof.
  intros a b t L A B. apply nonzero_pos in A, B. pose proof (cosine_range a b L A B) as C. unfold vangle. rewrite L, Nat.eqb_refl.
  rewrite (proj2 (Reqb_false _ _)) by nra. split.
  - intros H. injection H as <-. split; [apply acos_bound|]. rewrite cos_acos by exact C. field. lra.
  - intros [T E]. f_equal. rewrite E. replace (nnorm a * nnorm b * cos t / (nnorm a * nnorm b)) with (cos t) by (field; lra). apply acos_cos. exact T.
Qed.
(** No angle otherwise: different dimensions are refused, and with a zero vector the result is
    not a number. *)
Theorem C128_no_angle : forall a b,
  (length a <> length b -> vangle a b = Err ValueError) /\
  (length a = length b -> nzero a \/ nzero b -> vangle a b = Err NaNValue).
Proof.
  intros a b. unfold vangle. split.
  - intros L. apply Nat.eqb_neq in L. rewrite L. reflexivity.
  - intros L Z. rewrite L, Nat.eqb_refl, (proj2 (Reqb_iff _ _)); [reflexivity|]. destruct Z as [Z|Z]; apply nnorm_zero in Z; rewrite Z; ring.
Qed.
Lemma angle_exists a b : length a = length b -> ~ nzero a -> ~ nzero b -> exists t, vangle a b = Ok t.
Proof. intros L A B. apply nonzero_pos in A, B. unfold vangle. rewrite L, Nat.eqb_refl, (proj2 (Reqb_false _ _)) by nra. eauto. Qed.
Lemma ntimes_norm k a : 0 <= k -> nnorm (ntimes k a) = k * nnorm a.
Proof.
  intros K. unfold nnorm. rewrite ndot_times, ndot_sym, ndot_times. replace (k * (k * ndot a a)) with ((k * k) * ndot a a) by ring. rewrite sqrt_mult_alt by nra. rewrite sqrt_square by auto. reflexivity.
Qed.
Lemma ntimes_length k a : length (ntimes k a) = length a. Proof. apply map_length. Qed.
Lemma ntimes_zero k a : k <> 0 -> ~ nzero a -> ~ nzero (ntimes k a).
Proof. intros K N Z. apply N. unfold nzero in *. apply Forall_forall. intros x Hx. rewrite Forall_forall in Z. specialize (Z (k * x) (in_map _ _ _ Hx)). nra. Qed.
(** It does not depend on the order or the lengths of the vectors, turns into its supplement
    when one is reversed, and obeys the triangle inequality. *)
Theorem C128_laws : forall a b c, length a = length b -> length b = length c -> ~ nzero a -> ~ nzero b -> ~ nzero c ->
  exists ab bc ac, vangle a b = Ok ab /\ vangle b a = Ok ab /\ vangle b c = Ok bc /\ vangle a c = Ok ac /\
    (forall j k, 0 < j -> 0 < k -> vangle (ntimes j a) (ntimes k b) = Ok ab) /\ vangle (ntimes (-1) a) b = Ok (PI - ab) /\
    ac <= ab + bc.
Proof.
  intros a b c L1 L2 A B C. assert (L3 : length a = length c) by congruence.
  destruct (angle_exists a b L1 A B) as [ab E1]. destruct (angle_exists b c L2 B C) as [bc E2]. destruct (angle_exists a c L3 A C) as [ac E3].
  pose proof (proj1 (C128_angle a b ab L1 A B) E1) as [T1 D1]. pose proof (proj1 (C128_angle b c bc L2 B C) E2) as [T2 D2]. pose proof (proj1 (C128_angle a c ac L3 A C) E3) as [T3 D3].
  exists ab, bc, ac. split; [exact E1|]. split.
  { apply C128_angle; auto. split; [exact T1|]. rewrite ndot_sym, D1. ring. }
  split; [exact E2|]. split; [exact E3|]. split; [|split].
  - intros j k J K. apply C128_angle; [rewrite !ntimes_length; auto|apply ntimes_zero; auto; lra|apply ntimes_zero; auto; lra|]. split; [exact T1|].
    rewrite ndot_times, (ndot_sym a), ndot_times, (ndot_sym b), D1, !ntimes_norm by lra. ring.
  - apply C128_angle; [rewrite ntimes_length; auto|apply ntimes_zero; auto; lra|auto|]. split; [lra|].
    rewrite ndot_times, D1. replace (nnorm (ntimes (-1) a)) with (nnorm a).
    2:{ unfold nnorm. f_equal. rewrite ndot_times, (ndot_sym a (ntimes _ a)), ndot_times. ring. }
    rewrite Rtrigo_facts.cos_pi_minus. ring.
  - apply nonzero_pos in A, B, C. destruct (Rle_dec (ab + bc) PI) as [S|S]; [|lra].
    destruct (Rle_dec ac (ab + bc)) as [|G]; [assumption|]. exfalso.
    assert (LT : cos ac < cos (ab + bc)) by (apply cos_decreasing_1; lra). rewrite cos_plus in LT.
    set (na := nnorm a) in *. set (nb := nnorm b) in *. set (nc := nnorm c) in *.
    assert (QA : ndot a a = na * na) by (unfold na; rewrite nnorm_sq; auto). assert (QB : ndot b b = nb * nb) by (unfold nb; rewrite nnorm_sq; auto). assert (QC : ndot c c = nc * nc) by (unfold nc; rewrite nnorm_sq; auto).
    (* the parts of a and c across b *)
    set (u := ncomb (/ na) (- (cos ab / nb)) a b). set (v := ncomb (/ nc) (- (cos bc / nb)) c b).
    assert (LU : length u = length v) by (unfold u, v; rewrite !comb_length; congruence).
    assert (UU : ndot u u = sin ab * sin ab). { unfold u. rewrite comb_square by auto. rewrite QA, QB, D1. pose proof (sin2_cos2 ab) as SC. unfold Rsqr in SC. transitivity (1 - cos ab * cos ab); [field; lra|lra]. }
    assert (VV : ndot v v = sin bc * sin bc). { unfold v. rewrite comb_square by auto. rewrite QC, QB, (ndot_sym c b), D2. pose proof (sin2_cos2 bc) as SC. unfold Rsqr in SC. transitivity (1 - cos bc * cos bc); [field; lra|lra]. }
    assert (UV : ndot u v = cos ac - cos ab * cos bc). { unfold u. rewrite comb_dot by auto. rewrite (ndot_sym a v), (ndot_sym b v). unfold v. rewrite !comb_dot by auto. rewrite (ndot_sym c a), (ndot_sym c b), (ndot_sym b a), QB, D1, D2, D3. field. lra. }
    pose proof (cauchy u v LU) as CS. rewrite UU, VV, UV in CS.
    assert (0 <= sin ab) by (apply sin_ge_0; lra). assert (0 <= sin bc) by (apply sin_ge_0; lra).
    assert (P : 0 <= sin ab * sin bc) by nra. assert (CS' : (cos ac - cos ab * cos bc) * (cos ac - cos ab * cos bc) <= (sin ab * sin bc) * (sin ab * sin bc)) by nra. clear CS.
    set (x := cos ac - cos ab * cos bc) in *. set (y := sin ab * sin bc) in *. assert (x < - y) by (unfold x; lra). assert (0 < (- x - y) * (- x + y)) by (apply Rmult_lt_0_compat; lra). replace ((- x - y) * (- x + y)) with (x * x - y * y) in * by ring. lra.
Qed.
Example C128_nonvacuous : ~ nzero [1; 0; 0; 0] /\ ~ nzero [1; 1; 0; 0] /\ vangle [1; 0; 0; 0] [1; 1; 0; 0] = Ok (PI / 4).
Proof.
  assert (A : ~ nzero [1; 0; 0; 0]) by (intros F; inversion F; lra). assert (B : ~ nzero [1; 1; 0; 0]) by (intros F; inversion F; lra).
  split; [exact A|]. split; [exact B|]. apply C128_angle; auto. pose proof PI_RGT_0. split; [lra|]. unfold nnorm. cbn.
  replace (1 * 1 + (0 * 1 + (0 * 0 + (0 * 0 + 0)))) with 1 by ring. replace (1 * 1 + (0 * 0 + (0 * 0 + (0 * 0 + 0)))) with 1 by ring. replace (1 * 1 + (1 * 1 + (0 * 0 + (0 * 0 + 0)))) with 2 by ring.
  rewrite sqrt_1, cos_PI4. field. apply sqrt2_neq_0.
Qed.
