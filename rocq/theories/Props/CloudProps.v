(** C157: what calc_rdf's counts depend on besides the cloud of points: where the
    cloud lies, whether the function ran on the same array before, and the order in
    which the points are listed. *)
From Coq Require Import Reals Lra Lia List Permutation ZArith Bool.
From Flocq Require Import Core.Raux.
From Verif.Model Require Import Base Vec Measure Rdf.
From Verif.Spec Require Import Geometry AmorphSpec.
From Verif.Proofs Require Import VecFacts VolumeFacts GridFacts AmorphFacts.
From Verif.Props Require Import AmorphousProps RdfProps.
Import ListNotations.
Local Open Scope R_scope.

(* ---------------- where the cloud lies ---------------- *)
Lemma vmin_move t a b : vmin (vadd t a) (vadd t b) = vadd t (vmin a b).
Proof. unfold vmin, vadd. cbn. f_equal; unfold Rmin; repeat destruct Rle_dec; lra. Qed.
Lemma col_min_move t ps : forall p, col_min (vadd t p) (map (vadd t) ps) = vadd t (col_min p ps).
Proof. unfold col_min. induction ps as [|a ps IH]; intros p; cbn [map fold_left]; auto. rewrite vmin_move. apply IH. Qed.
Lemma shift_move t coords : rdf_shift (map (vadd t) coords) = rdf_shift coords.
Proof.
  unfold rdf_shift. destruct coords as [|p ps]; auto. cbn [map]. rewrite col_min_move.
  rewrite map_map. f_equal; [|apply map_ext; intros q]; unfold vsub, vadd; cbn; f_equal; lra.
Qed.
Lemma rdf_by_shift coords coords' cutoff px py pz : length coords = length coords' -> rdf_shift coords = rdf_shift coords' ->
  calc_rdf coords cutoff px py pz = calc_rdf coords' cutoff px py pz.
Proof.
  intros L E. unfold calc_rdf, rdf_voxel, rdf_parts, box_idx, num_voxels, rdf_N, rdf_dims. rewrite E. destruct coords, coords'; try discriminate; reflexivity.
Qed.
(** a cloud moved by t: the same counts (or the same failure), and the same array left
    behind *)
Theorem C157_moved t coords cutoff px py pz : calc_rdf (map (vadd t) coords) cutoff px py pz = calc_rdf coords cutoff px py pz.
Proof. apply rdf_by_shift; [apply map_length|apply shift_move]. Qed.
(** a second call on the array that the first one has shifted *)
Theorem C157_called_again coords cutoff px py pz cutoff' px' py' pz' :
  calc_rdf (fst (calc_rdf coords cutoff' px' py' pz')) cutoff px py pz = calc_rdf coords cutoff px py pz.
Proof.
  cbn [calc_rdf fst]. destruct coords as [|p ps] eqn:E; auto. rewrite <- E at 2.
  assert (S' : rdf_shift (p :: ps) = map (vadd (vsub v0 (col_min p ps))) coords).
  { unfold rdf_shift. rewrite E. apply map_ext. intros q. unfold vsub, vadd, v0. cbn. f_equal; lra. }
  unfold calc_rdf at 1. cbn [fst]. rewrite S'. apply C157_moved.
Qed.

(* ---------------- in which order it is listed ---------------- *)
Lemma bounding_perm coords coords' lo L : Permutation coords coords' -> bounding coords lo L -> bounding coords' lo L.
Proof.
  intros P. assert (I : forall p, In p coords <-> In p coords') by (intros p; split; apply Permutation_in; auto using Permutation_sym).
  assert (X : forall Q : vec -> Prop, (exists p, In p coords /\ Q p) -> exists p, In p coords' /\ Q p) by (intros Q (p & Hp & HQ); exists p; rewrite <- I; auto).
  intros (B & B1 & B2 & B3 & B4 & B5 & B6). split; [|split; [|split; [|split; [|split; [|split]]]]]; try (apply X; assumption).
  intros p Hp. apply B, I, Hp.
Qed.
Lemma filter_perm {A} (f : A -> bool) l l' : Permutation l l' -> Permutation (filter f l) (filter f l').
Proof.
  induction 1; cbn; auto; [destruct (f x); auto| |eapply perm_trans; eauto].
  destruct (f x), (f y); auto. apply perm_swap.
Qed.
Lemma prod_perm {A B} (l l' : list A) (m m' : list B) : Permutation l l' -> Permutation m m' -> Permutation (list_prod l m) (list_prod l' m').
Proof.
  intros P Q. assert (G : forall k : list A, Permutation (list_prod k m) (list_prod k m')).
  { induction k; cbn; auto. apply Permutation_app; auto. apply Permutation_map; auto. }
  eapply perm_trans; [|apply G]. clear G. induction P; cbn; auto.
  - apply Permutation_app_head; auto.
  - rewrite !app_assoc. apply Permutation_app_tail, Permutation_app_comm.
  - eapply perm_trans; eauto.
Qed.
Lemma histogram_perm nb c ds ds' : Permutation ds ds' -> histogram nb c ds = histogram nb c ds'.
Proof. intros P. unfold histogram. apply map_ext. intros b. apply Permutation_length, filter_perm, P. Qed.

(** the two lists hold the same points, and up to the number of voxels their i-th
    points lie in the same voxel: the same counts, or the same failure *)
Theorem C157_order_partial coords coords' cutoff lo L px py pz : bounding coords lo L -> 0 < cutoff -> Permutation coords coords' ->
  (forall i p p', (Z.of_nat i < Zceil (vx L / cutoff) * Zceil (vy L / cutoff) * Zceil (vz L / cutoff))%Z ->
     nth_error coords i = Some p -> nth_error coords' i = Some p' -> exists x y z, in_cube lo cutoff x y z p /\ in_cube lo cutoff x y z p') ->
  snd (calc_rdf coords cutoff px py pz) = snd (calc_rdf coords' cutoff px py pz).
Proof.
  intros B C P SAME. pose proof (bounding_perm _ _ _ _ P B) as B'.
  pose proof (bounding_dims _ _ _ B) as D. pose proof (bounding_dims _ _ _ B') as D'.
  pose proof (bounding_shift _ _ _ B) as S1. pose proof (bounding_shift _ _ _ B') as S2.
  assert (EN : forall f, rdf_N coords cutoff f = rdf_N coords' cutoff f) by (intros f; unfold rdf_N; rewrite D, D'; auto).
  assert (EB : forall p, box_idx coords cutoff p = box_idx coords' cutoff p) by (intros p; unfold box_idx; rewrite !EN; auto).
  assert (PS : Permutation (rdf_shift coords) (rdf_shift coords')) by (rewrite S1, S2; apply Permutation_map; auto).
  assert (PP : forall i, Permutation (rdf_parts coords cutoff i) (rdf_parts coords' cutoff i)).
  { intros i. unfold rdf_parts. rewrite (filter_ext _ (fun p => (box_idx coords' cutoff p =? i)%Z)) by (intros p; rewrite EB; auto). apply filter_perm, PS. }
  assert (EV : num_voxels coords cutoff = num_voxels coords' cutoff) by (unfold num_voxels; rewrite !EN; auto).
  assert (VX : forall sd c i, (i < num_voxels coords cutoff)%nat -> rdf_voxel coords cutoff px py pz sd c i = rdf_voxel coords' cutoff px py pz sd c i).
  { intros sd c i Hi. unfold rdf_voxel. rewrite S1, S2, !nth_error_map.
    assert (LN : length coords = length coords') by (apply Permutation_length, P).
    destruct (nth_error coords i) as [p|] eqn:E1.
    2:{ apply nth_error_None in E1. rewrite (proj2 (nth_error_None coords' i)) by lia. reflexivity. }
    destruct (nth_error coords' i) as [p'|] eqn:E2.
    2:{ apply nth_error_None in E2. assert (nth_error coords i = None) by (apply nth_error_None; lia). congruence. }
    cbn [option_map bind].
    assert (EBI : box_idx coords cutoff (vsub p lo) = box_idx coords' cutoff (vsub p' lo)).
    { destruct (SAME i p p') as (x & y & z & (X1 & Y1 & Z1) & (X2 & Y2 & Z2)); auto.
      { revert Hi. unfold num_voxels, rdf_N. rewrite D. lia. }
      rewrite EB. unfold box_idx. cbn [vx vy vz vsub].
      apply cube_floor in X1, Y1, Z1, X2, Y2, Z2; auto. rewrite X1, X2, Y1, Y2, Z1, Z2. reflexivity. }
    rewrite EBI, !EN.
    match goal with |- bind ?m _ = bind _ _ => destruct m as [nb|]; cbn [bind]; auto end. f_equal.
    generalize c. induction nb as [|n nb IH]; intros k; cbn [fold_left]; auto. rewrite IH. f_equal. f_equal.
    apply histogram_perm, Permutation_map, prod_perm; apply PP. }
  assert (FM : forall sd is c, (forall i, In i is -> (i < num_voxels coords cutoff)%nat) -> foldM (rdf_voxel coords cutoff px py pz sd) is c = foldM (rdf_voxel coords' cutoff px py pz sd) is c).
  { intros sd. induction is as [|i is IH]; intros c H; cbn [foldM]; auto. rewrite VX by (apply H; cbn; auto).
    destruct rdf_voxel; cbn [bind]; auto. apply IH. intros; apply H; cbn; auto. }
  unfold calc_rdf. cbn [snd]. destruct coords as [|a l] eqn:EA.
  { apply Permutation_nil in P. subst. reflexivity. }
  destruct coords' as [|a' l'] eqn:EA'.
  { apply Permutation_sym, Permutation_nil in P. discriminate. }
  rewrite <- EA, <- EA' in *. rewrite D, D', <- EV. destruct Nat.eqb; auto. destruct get_sdist_fun as [sd|]; cbn [bind]; auto.
  rewrite FM; auto. intros i. rewrite in_seq. lia.
Qed.
(** the order of the points after the first ones, as many as there are voxels *)
Theorem C157_tail_order_partial first rest rest' cutoff lo L px py pz : bounding (first ++ rest) lo L -> 0 < cutoff -> Permutation rest rest' ->
  (Zceil (vx L / cutoff) * Zceil (vy L / cutoff) * Zceil (vz L / cutoff) <= Z.of_nat (length first))%Z ->
  snd (calc_rdf (first ++ rest) cutoff px py pz) = snd (calc_rdf (first ++ rest') cutoff px py pz).
Proof.
  intros B C P N. apply C157_order_partial with lo L; auto; [apply Permutation_app_head; auto|].
  intros i p p' Hi E E'. rewrite nth_error_app1 in E, E' by lia. rewrite E in E'. injection E' as <-.
  exists (Zfloor ((vx p - vx lo) / cutoff)), (Zfloor ((vy p - vy lo) / cutoff)), (Zfloor ((vz p - vz lo) / cutoff)).
  unfold in_cube. repeat split; apply cube_floor; auto.
Qed.
(** a cloud that fits inside a cube with the cutoff as edge: every order *)
Theorem C157_small_order_partial coords coords' cutoff lo L px py pz : bounding coords lo L ->
  0 < vx L < cutoff -> 0 < vy L < cutoff -> 0 < vz L < cutoff -> Permutation coords coords' ->
  snd (calc_rdf coords cutoff px py pz) = snd (calc_rdf coords' cutoff px py pz).
Proof.
  intros B X Y Z' P. assert (C : 0 < cutoff) by lra.
  apply C157_order_partial with lo L; auto. intros i p p' _ E E'. apply nth_error_In in E, E'.
  apply (Permutation_in _ (Permutation_sym P)) in E'. destruct B as (B & _). apply B in E, E'. unfold vle, vadd in E, E'. cbn in E, E'.
  exists 0%Z, 0%Z, 0%Z. unfold in_cube. cbn. lra.
Qed.

(** an order in which the pair is counted twice (once from either end), and one in
    which it is not counted *)
Definition cloud1 : list vec := [mkV 0 0 0; mkV 3 0 0; mkV 5 1 1; mkV 1 1 1].
Definition cloud2 : list vec := [mkV 5 1 1; mkV 3 0 0; mkV 0 0 0; mkV 1 1 1].
Lemma cloud_perm : Permutation cloud1 cloud2.
Proof. unfold cloud1, cloud2. eapply perm_trans; [apply perm_skip, perm_swap|]. eapply perm_trans; [apply perm_swap|]. apply perm_skip, perm_swap. Qed.
Lemma cloud_bounding : bounding cloud1 (mkV 0 0 0) (mkV 5 1 1).
Proof.
  unfold bounding, vle, vadd, cloud1. cbn. split; [intros p [<- |[<- |[<- |[<- |[]]]]]; cbn; lra|].
  repeat split; solve [exists (mkV 0 0 0); cbn; split; [auto|lra]|exists (mkV 5 1 1); cbn; split; [auto|lra]].
Qed.
Lemma cloud_N c : bounding c (mkV 0 0 0) (mkV 5 1 1) -> rdf_N c 2 vx = 3%Z /\ rdf_N c 2 vy = 1%Z /\ rdf_N c 2 vz = 1%Z.
Proof. intros B. unfold rdf_N. rewrite (bounding_dims _ _ _ B). cbn [vx vy vz]. repeat split; apply Zceil_imp; cbn; lra. Qed.
Lemma floors : Zfloor (0 / 2) = 0%Z /\ Zfloor (1 / 2) = 0%Z /\ Zfloor (3 / 2) = 1%Z /\ Zfloor (5 / 2) = 2%Z.
Proof. repeat split; apply Zfloor_imp; cbn; lra. Qed.
Lemma bins2 : num_bins 2 = 20%nat.
Proof. unfold num_bins. replace (2 / (1 / 10)) with (IZR 20) by field. rewrite Ztrunc_IZR. reflexivity. Qed.
Lemma dist_sq u v : 0 <= dist u v /\ dist u v * dist u v = dot (vsub u v) (vsub u v).
Proof. unfold dist, norm. split; [apply sqrt_pos|]. apply sqrt_sqrt. unfold dot. nra. Qed.
Lemma first_pair : bin_of 20 2 17 (dist (mkV 0 0 0) (mkV 1 1 1)).
Proof.
  destruct (dist_sq (mkV 0 0 0) (mkV 1 1 1)) as [H0 H1]. replace (dot _ _) with 3 in H1 by (vunfold; cbn; ring).
  left. cbn. split; nra.
Qed.
Lemma far_bin d : 0 <= d -> d = 0 \/ 2 < d -> in_bin 20 2 17 d = false.
Proof.
  intros D H. destruct (in_bin 20 2 17 d) eqn:E; auto. apply in_bin_spec in E; [|lra|lia|lra|lia]. unfold bin_of in E. cbn in E. lra.
Qed.

Lemma cloud1_counts : exists counts, snd (calc_rdf cloud1 2 false false false) = Ok counts /\ nth 17 counts 0%nat <> 0%nat.
Proof.
  destruct (C53_rdf_counts_partial cloud1 2 (mkV 0 0 0) (mkV 5 1 1)) as (c & E & _ & H).
  - apply cloud_bounding.
  - lra.
  - cbn [vx vy vz]. intros k. assert (P : forall a, (a mod 2 = 1)%Z -> IZR a <> IZR k * 2).
    { intros a A E. rewrite <- mult_IZR in E. apply eq_IZR in E. subst a. rewrite Z_mod_mult in A. discriminate. }
    split; [|split]; apply P; reflexivity.
  - destruct (cloud_N _ cloud_bounding) as (E0 & E1 & E2). unfold rdf_N in *. rewrite (bounding_dims _ _ _ cloud_bounding) in *. rewrite E0, E1, E2.
    intros x y z (Hx & Hy & Hz). assert (y = 0 /\ z = 0)%Z as (-> & ->) by lia. assert (x = 0 \/ x = 1 \/ x = 2)%Z as [-> |[-> | ->]] by lia;
    cbn; eexists; (split; [reflexivity|]); unfold in_cube; cbn; lra.
  - exists c. split; auto. replace (10 * 2) with (IZR 20) in H by ring. rewrite Zfloor_IZR in H. change (Z.to_nat 20) with 20%nat in H.
    destruct (H 17%nat ltac:(lia)) as (l & _ & EL & HL). rewrite <- EL. specialize (HL 0%nat 3%nat). destruct l; [|discriminate].
    exfalso. apply HL. exists (mkV 0 0 0), (mkV 1 1 1). repeat split; auto. apply first_pair.
Qed.
Lemma cloud2_counts : exists counts, snd (calc_rdf cloud2 2 false false false) = Ok counts /\ nth 17 counts 0%nat = 0%nat.
Proof.
  pose proof (bounding_perm _ _ _ _ cloud_perm cloud_bounding) as B.
  destruct (cloud_N _ B) as (E0 & E1 & E2). destruct floors as (F0 & F1 & F3 & F5).
  assert (SH : rdf_shift cloud2 = cloud2).
  { rewrite (bounding_shift _ _ _ B). rewrite <- (map_id cloud2) at 2. apply map_ext. intros [a b c]. unfold vsub. cbn. f_equal; lra. }
  assert (B5 : box_idx cloud2 2 (mkV 5 1 1) = 2%Z) by (unfold box_idx; cbn [vx vy vz]; rewrite E0, E1, F5, F1; reflexivity).
  assert (B3 : box_idx cloud2 2 (mkV 3 0 0) = 1%Z) by (unfold box_idx; cbn [vx vy vz]; rewrite E0, E1, F3, F0; reflexivity).
  assert (B0 : box_idx cloud2 2 (mkV 0 0 0) = 0%Z) by (unfold box_idx; cbn [vx vy vz]; rewrite E0, E1, F0; reflexivity).
  assert (B1 : box_idx cloud2 2 (mkV 1 1 1) = 0%Z) by (unfold box_idx; cbn [vx vy vz]; rewrite E0, E1, F1; reflexivity).
  assert (P0 : rdf_parts cloud2 2 0 = [mkV 0 0 0; mkV 1 1 1]) by (unfold rdf_parts; rewrite SH; unfold cloud2 at 2; cbn [filter]; rewrite B5, B3, B0, B1; reflexivity).
  assert (P1 : rdf_parts cloud2 2 1 = [mkV 3 0 0]) by (unfold rdf_parts; rewrite SH; unfold cloud2 at 2; cbn [filter]; rewrite B5, B3, B0, B1; reflexivity).
  assert (P2 : rdf_parts cloud2 2 2 = [mkV 5 1 1]) by (unfold rdf_parts; rewrite SH; unfold cloud2 at 2; cbn [filter]; rewrite B5, B3, B0, B1; reflexivity).
  unfold calc_rdf. cbn [snd]. unfold cloud2 at 1. rewrite bins2. cbn [Nat.eqb]. rewrite (bounding_dims _ _ _ B).
  destruct (C52_sdist_always_partial (mkV 5 1 1) false false false) as (sd & SD & SDE & _). specialize (SDE eq_refl eq_refl eq_refl).
  rewrite SD. cbn [bind].
  assert (SQ : forall p q, sqrt (sd p q) = dist p q).
  { intros p q. rewrite SDE. replace (dist p q ^ 2) with (Rsqr (dist p q)) by (unfold Rsqr; ring). apply sqrt_Rsqr. apply dist_sq. }
  assert (NV : num_voxels cloud2 2 = 3%nat) by (unfold num_voxels; rewrite E0, E1, E2; reflexivity). rewrite NV.
  set (V := rdf_voxel cloud2 2 false false false sd).
  assert (G : exists l0 l1 l2, get_voxel_grid 3 1 1 false false false = [l0; l1; l2] /\
    (forall n, In n l0 -> In n [0;1]%Z) /\ (forall n, In n l1 -> In n [0;1;2]%Z) /\ (forall n, In n l2 -> In n [1;2]%Z)).
  { let g := eval vm_compute in (get_voxel_grid 3 1 1 false false false) in
    match g with [?a; ?b; ?c] => exists a, b, c end. split; [vm_compute; reflexivity|]. cbn. repeat split; intros n; tauto. }
  destruct G as (l0 & l1 & l2 & G & G0 & G1 & G2).
  assert (ST : forall i p j l, nth_error cloud2 i = Some p -> box_idx cloud2 2 p = Z.of_nat j -> nth_error [l0; l1; l2] j = Some l ->
     (forall n, In n l -> forall a b, In a (rdf_parts cloud2 2 (Z.of_nat i)) -> In b (rdf_parts cloud2 2 n) -> dist a b = 0 \/ 2 < dist a b) ->
     forall c, length c = 20%nat -> exists c', V c i = Ok c' /\ length c' = 20%nat /\ nth 17 c' 0%nat = nth 17 c 0%nat).
  { intros i p j l Ei Bj El FAR c Lc. unfold V, rdf_voxel. rewrite SH, Ei. cbn [bind]. rewrite Bj, Nat2Z.id, E0, E1, E2, G, El. cbn [bind]. rewrite bins2.
    eexists. split; [reflexivity|].
    destruct (fold_hist 2 20 (fun n => map (fun ab => sqrt (sd (fst ab) (snd ab))) (list_prod (rdf_parts cloud2 2 (Z.of_nat i)) (rdf_parts cloud2 2 n))) 17 l ltac:(lia) c Lc) as [A1 A2].
    split; [exact A1|]. cbv zeta in A2. rewrite A2. rewrite (sumn_ext _ (fun _ => 0%nat)); [rewrite sumn_0; lia|].
    intros n Hn. rewrite (sumn_ext _ (fun _ => 0%nat)); [apply sumn_0|]. intros d Hd. apply in_map_iff in Hd. destruct Hd as ((a & b) & <- & Hab).
    apply in_prod_iff in Hab. cbn [fst snd]. rewrite SQ, far_bin; [reflexivity|apply dist_sq|]. apply (FAR n Hn); tauto. }
  assert (FARD : forall a b : vec, In (a, b) [(mkV 0 0 0, mkV 3 0 0); (mkV 0 0 0, mkV 5 1 1); (mkV 1 1 1, mkV 3 0 0); (mkV 1 1 1, mkV 5 1 1); (mkV 3 0 0, mkV 0 0 0); (mkV 5 1 1, mkV 0 0 0); (mkV 3 0 0, mkV 1 1 1); (mkV 5 1 1, mkV 1 1 1); (mkV 3 0 0, mkV 5 1 1); (mkV 5 1 1, mkV 3 0 0)] -> 2 < dist a b).
  { intros a b H. destruct (dist_sq a b) as [D1 D2]. assert (4 < dot (vsub a b) (vsub a b)); [|nra]. clear D1 D2. cbn [In] in H.
    repeat (destruct H as [H|H]; [injection H as <- <-; vunfold; cbn; lra|]). destruct H. }
  assert (SELF : forall a : vec, dist a a = 0).
  { intros a. destruct (dist_sq a a) as [D1 D2]. replace (dot _ _) with 0 in D2 by (vunfold; ring). nra. }
  pose proof (repeat_length 0%nat 20) as L0.
  destruct (ST 0%nat (mkV 5 1 1) 2%nat l2 eq_refl B5 eq_refl) with (c := repeat 0%nat 20) as (c1 & V1 & L1 & N1); auto.
  { intros n Hn a b. apply G2 in Hn. cbn [Z.of_nat]. destruct Hn as [<- |[<- |[]]]; rewrite P0, ?P1, ?P2; cbn [In]; intros [<- |[<- |[]]] [<- |[]]; right; apply FARD; cbn; tauto. }
  destruct (ST 1%nat (mkV 3 0 0) 1%nat l1 eq_refl B3 eq_refl) with (c := c1) as (c2 & V2 & L2 & N2); auto.
  { intros n Hn a b. apply G1 in Hn. change (Z.of_nat 1) with 1%Z. destruct Hn as [<- |[<- |[<- |[]]]]; rewrite P1, ?P0, ?P2; cbn [In]; [intros [<- |[]] [<- |[<- |[]]]|intros [<- |[]] [<- |[]]|intros [<- |[]] [<- |[]]]; try (left; apply SELF); right; apply FARD; cbn; tauto. }
  destruct (ST 2%nat (mkV 0 0 0) 0%nat l0 eq_refl B0 eq_refl) with (c := c2) as (c3 & V3 & L3 & N3); auto.
  { intros n Hn a b. apply G0 in Hn. change (Z.of_nat 2) with 2%Z. destruct Hn as [<- |[<- |[]]]; rewrite P2, ?P0, ?P1; cbn [In]; [intros [<- |[]] [<- |[<- |[]]]|intros [<- |[]] [<- |[]]]; right; apply FARD; cbn; tauto. }
  cbn [seq foldM]. rewrite V1. cbn [bind]. rewrite V2. cbn [bind]. rewrite V3. cbn [bind].
  eexists. split; [reflexivity|]. destruct c3 as [|x c3]; [discriminate|]. cbn [nth]. cbn [nth] in N3. rewrite N3, N2, N1. reflexivity.
Qed.
Theorem C157_order_refuted : exists coords coords' counts counts', Permutation coords coords' /\
  snd (calc_rdf coords 2 false false false) = Ok counts /\ snd (calc_rdf coords' 2 false false false) = Ok counts' /\ counts <> counts'.
Proof.
  destruct cloud1_counts as (c & E & H). destruct cloud2_counts as (c' & E' & H').
  exists cloud1, cloud2, c, c'. repeat split; auto using cloud_perm. congruence.
Qed.
(** two points in the two orders: the call succeeds and fails *)
Theorem C157_order_error_refuted : let p := mkV 0 0 0 in let q := mkV 2 1 1 in
  (exists counts, snd (calc_rdf [p; q] 2 false false false) = Ok counts) /\ snd (calc_rdf [q; p] 2 false false false) = Err IndexError.
Proof.
  cbv zeta. assert (B : bounding [mkV 0 0 0; mkV 2 1 1] (mkV 0 0 0) (mkV 2 1 1)).
  { unfold bounding, vle, vadd. cbn. split; [intros p [<- |[<- |[]]]; cbn; lra|].
    repeat split; solve [exists (mkV 0 0 0); cbn; split; [auto|lra]|exists (mkV 2 1 1); cbn; split; [auto|lra]]. }
  pose proof (bounding_perm _ _ _ _ (perm_swap _ _ _) B) as B'.
  assert (N : forall c, bounding c (mkV 0 0 0) (mkV 2 1 1) -> rdf_N c 2 vx = 1%Z /\ rdf_N c 2 vy = 1%Z /\ rdf_N c 2 vz = 1%Z).
  { intros c Bc. unfold rdf_N. rewrite (bounding_dims _ _ _ Bc). cbn [vx vy vz]. repeat split; apply Zceil_imp; cbn; lra. }
  assert (SH : forall c, bounding c (mkV 0 0 0) (mkV 2 1 1) -> rdf_shift c = c).
  { intros c Bc. rewrite (bounding_shift _ _ _ Bc). rewrite <- (map_id c) at 2. apply map_ext. intros [u v w]. unfold vsub. cbn. f_equal; lra. }
  destruct floors as (F0 & F1 & _). assert (F2 : Zfloor (2 / 2) = 1%Z) by (apply Zfloor_imp; cbn; lra).
  split; unfold calc_rdf; cbn [snd]; rewrite bins2; cbn [Nat.eqb bind get_sdist_fun].
  - destruct (N _ B) as (E0 & E1 & E2). unfold num_voxels. rewrite E0, E1, E2. change (Z.to_nat (1 * 1 * 1)) with 1%nat. cbn [seq foldM].
    unfold rdf_voxel. rewrite (SH _ B). cbn [nth_error bind].
    assert (X : box_idx [mkV 0 0 0; mkV 2 1 1] 2 (mkV 0 0 0) = 0%Z) by (unfold box_idx; cbn [vx vy vz]; rewrite E0, E1, F0; reflexivity).
    rewrite X, E0, E1, E2. cbn [Z.to_nat]. unfold get_voxel_grid, vgN. change (Z.to_nat (1 * 1 * 1)) with 1%nat. cbn [seq map nth_error bind]. eexists. reflexivity.
  - destruct (N _ B') as (E0 & E1 & E2). unfold num_voxels. rewrite E0, E1, E2. change (Z.to_nat (1 * 1 * 1)) with 1%nat. cbn [seq foldM].
    unfold rdf_voxel. rewrite (SH _ B'). cbn [nth_error bind].
    assert (X : box_idx [mkV 2 1 1; mkV 0 0 0] 2 (mkV 2 1 1) = 1%Z) by (unfold box_idx; cbn [vx vy vz]; rewrite E0, E1, F1, F2; reflexivity).
    rewrite X, E0, E1, E2. reflexivity.
Qed.
(** the partial theorems apply: the clouds above with the last point moved up, and a
    small cloud *)
Example C157_nonvacuous : (let first := [mkV 0 0 0; mkV 3 0 0; mkV 5 1 1] in let rest := [mkV 1 1 1; mkV 4 1 1] in
  bounding (first ++ rest) (mkV 0 0 0) (mkV 5 1 1) /\ (Zceil (5 / 2) * Zceil (1 / 2) * Zceil (1 / 2) <= Z.of_nat (length first))%Z) /\
  (bounding [mkV 0 0 0; mkV 1 2 1; mkV 2 1 1] (mkV 0 0 0) (mkV 2 2 1) /\ 0 < 2 < 3 /\ 0 < 1 < 3).
Proof.
  split; [split|split; [apply C53_nonvacuous|lra]].
  - unfold bounding, vle, vadd. cbn. split; [intros p [<- |[<- |[<- |[<- |[<- |[]]]]]]; cbn; lra|].
    repeat split; solve [exists (mkV 0 0 0); cbn; split; [auto|lra]|exists (mkV 5 1 1); cbn; split; [auto|lra]].
  - replace (Zceil (5 / 2)) with 3%Z by (symmetry; apply Zceil_imp; cbn; lra). replace (Zceil (1 / 2)) with 1%Z by (symmetry; apply Zceil_imp; cbn; lra). cbn. lia.
Qed.
