(** Radial distribution function: C53, C83. *)
From Coq Require Import Reals List ZArith Bool Lra Lia.
From Flocq Require Import Core.Raux.
From Verif.Model Require Import Base Vec Measure Rdf.
From Verif.Spec Require Import Geometry AmorphSpec.
From Verif.Proofs Require Import VecFacts VolumeFacts GridFacts AmorphFacts.
From Verif.Props Require Import AmorphousProps.
Import ListNotations.
Open Scope R_scope.

(* ---------------- specification ---------------- *)
(** d belongs to bin b of nb equal bins of [0, cutoff], the last one closed *)
Definition bin_of (nb : nat) (cutoff : R) (b : nat) (d : R) : Prop :=
  INR b * (cutoff / INR nb) <= d < INR (b + 1) * (cutoff / INR nb) \/ (b = nb - 1)%nat /\ d = cutoff.
(** n is the number of ordered pairs (i, j) of particles whose distance is in bin b *)
Definition counts_pairs (coords : list vec) (nb : nat) (cutoff : R) (b n : nat) : Prop :=
  exists l, NoDup l /\ length l = n /\
    forall i j, In (i, j) l <-> exists p q, nth_error coords i = Some p /\ nth_error coords j = Some q /\ bin_of nb cutoff b (dist p q).

(* ---------------- sums ---------------- *)
Fixpoint sumn {A} (f : A -> nat) (l : list A) : nat := match l with [] => 0%nat | x :: t => (f x + sumn f t)%nat end.
Lemma sumn_app {A} (f : A -> nat) l l' : sumn f (l ++ l') = (sumn f l + sumn f l')%nat.
Proof. induction l; cbn; lia. Qed.
Lemma sumn_ext {A} (f g : A -> nat) l : (forall x, In x l -> f x = g x) -> sumn f l = sumn g l.
Proof. induction l as [|a l IH]; intros H; cbn; auto. rewrite H, IH; auto; [intros; apply H|]; cbn; auto. Qed.
Lemma sumn_add {A} (f g : A -> nat) l : sumn (fun x => (f x + g x)%nat) l = (sumn f l + sumn g l)%nat.
Proof. induction l; cbn; lia. Qed.
Lemma sumn_0 {A} (l : list A) : sumn (fun _ => 0%nat) l = 0%nat.
Proof. induction l; cbn; auto. Qed.
Lemma sumn_swap {A B} (f : A -> B -> nat) la lb : sumn (fun a => sumn (f a) lb) la = sumn (fun b => sumn (fun a => f a b) la) lb.
Proof.
  induction la as [|a la IH]; cbn; [symmetry; apply sumn_0|]. rewrite IH, <- sumn_add. reflexivity.
Qed.
Lemma sumn_single {A} (dec : forall x y : A, {x = y} + {x <> y}) (l : list A) a c : NoDup l ->
  sumn (fun x => if dec a x then c else 0%nat) l = if in_dec dec a l then c else 0%nat.
Proof.
  induction 1 as [|x l NI N IH]; [reflexivity|]. cbn [sumn]. rewrite IH. clear IH.
  destruct (in_dec dec a (x :: l)) as [I|I], (in_dec dec a l) as [J|J], (dec a x) as [E|E]; cbn [In] in I; subst; try lia; exfalso;
    try contradiction; try (apply I; auto; fail); try (destruct I as [I|I]; congruence).
Qed.
Lemma sumn_filter {A} (f : A -> nat) (P : A -> bool) l : sumn f (filter P l) = sumn (fun x => if P x then f x else 0%nat) l.
Proof. induction l as [|a l IH]; cbn; auto. destruct (P a); cbn; lia. Qed.
Lemma len_filter {A} (P : A -> bool) l : length (filter P l) = sumn (fun x => if P x then 1%nat else 0%nat) l.
Proof. induction l as [|a l IH]; cbn; auto. destruct (P a); cbn; lia. Qed.
Lemma sumn_map {A B} (f : B -> nat) (g : A -> B) l : sumn f (map g l) = sumn (fun x => f (g x)) l.
Proof. induction l; cbn; auto. Qed.
Lemma sumn_prod {A B} (f : A * B -> nat) la lb : sumn f (list_prod la lb) = sumn (fun a => sumn (fun b => f (a, b)) lb) la.
Proof. induction la; cbn; auto. rewrite sumn_app, sumn_map, IHla. reflexivity. Qed.
(** a sum over voxels of sums over their members is a sum over everything *)
Lemma sum_parts (vox : vec -> Z) (l : list vec) (ns : list Z) (f : vec -> nat) : NoDup ns ->
  sumn (fun n => sumn f (filter (fun p => (vox p =? n)%Z) l)) ns = sumn (fun p => if in_dec Z.eq_dec (vox p) ns then f p else 0%nat) l.
Proof.
  intros N. rewrite (sumn_ext _ (fun n => sumn (fun p => if (vox p =? n)%Z then f p else 0%nat) l)) by (intros; apply sumn_filter).
  rewrite sumn_swap. apply sumn_ext. intros p _. rewrite <- (sumn_single Z.eq_dec ns (vox p) (f p) N). apply sumn_ext. intros n _.
  destruct (Z.eqb_spec (vox p) n), (Z.eq_dec (vox p) n); congruence.
Qed.

(* ---------------- histogram ---------------- *)
Lemma histogram_len nb c ds : length (histogram nb c ds) = nb.
Proof. unfold histogram. rewrite map_length, seq_length. reflexivity. Qed.
Lemma add_len a b : length a = length b -> length (add_counts a b) = length a.
Proof. intros H. unfold add_counts. rewrite map_length, combine_length. lia. Qed.
Lemma add_nth a b i : length a = length b -> nth i (add_counts a b) 0%nat = (nth i a 0 + nth i b 0)%nat.
Proof. unfold add_counts. revert b i. induction a as [|x a IH]; intros [|y b] [|i] L; cbn in *; try lia. apply IH. lia. Qed.
Lemma histogram_nth nb c ds b : (b < nb)%nat -> nth b (histogram nb c ds) 0%nat = sumn (fun d => if in_bin nb c b d then 1%nat else 0%nat) ds.
Proof.
  intros H. unfold histogram. set (g := fun b => _). rewrite (nth_indep _ 0%nat (g 0%nat)) by (rewrite map_length, seq_length; auto). rewrite map_nth, seq_nth by auto. unfold g. apply len_filter.
Qed.
Lemma in_bin_spec nb c b d : 0 < c -> (0 < nb)%nat -> 0 <= d -> (b < nb)%nat -> (in_bin nb c b d = true <-> bin_of nb c b d).
Proof.
  intros C N D B. unfold in_bin, hist_bin, bin_of. assert (NB : 0 < INR nb) by (apply lt_0_INR; auto).
  rewrite (proj2 (Rltb_false d 0)) by lra. cbn [orb]. destruct (Rltb c d) eqn:E1.
  - apply Rltb_iff in E1. split; [discriminate|]. intros [[H1 H2]|[_ H2]]; [|lra]. exfalso.
    assert (INR (b + 1) <= INR nb) by (apply le_INR; lia).
    assert (INR (b + 1) * (c / INR nb) <= c); [|lra]. apply Rmult_le_reg_r with (INR nb); auto. unfold Rdiv. replace (INR (b + 1) * (c * / INR nb) * INR nb) with (INR (b + 1) * c) by (field; lra). nra.
  - apply Rltb_false in E1. destruct (Reqb d c) eqn:E2.
    + apply Reqb_iff in E2. subst d. rewrite Nat.eqb_eq. split; [intros ->; auto|]. intros [[H1 H2]|[H _]]; auto. exfalso.
      assert (INR (b + 1) <= INR nb) by (apply le_INR; lia).
      assert (INR (b + 1) * (c / INR nb) <= c); [|lra]. apply Rmult_le_reg_r with (INR nb); auto. unfold Rdiv. replace (INR (b + 1) * (c * / INR nb) * INR nb) with (INR (b + 1) * c) by (field; lra). nra.
    + apply Reqb_false in E2. rewrite Nat.eqb_eq.
      assert (Q : d / c * INR nb * (c / INR nb) = d) by (field; lra). set (q := d / c * INR nb) in *. assert (W : 0 < c / INR nb) by (apply Rdiv_lt_0_compat; auto). set (w := c / INR nb) in *.
      assert (Q0 : 0 <= q) by (apply Rmult_le_reg_r with w; auto; lra).
      assert (Z0 : (0 <= Zfloor q)%Z) by (apply Zfloor_lub; cbn; lra).
      pose proof (Zfloor_lb q) as F1. pose proof (Zfloor_ub q) as F2. split.
      * intros ->. left. rewrite plus_INR, INR_IZR_INZ, Z2Nat.id by auto. rewrite <- Q. split; [apply Rmult_le_compat_r; lra|]. apply Rmult_lt_compat_r; cbn; lra.
      * intros [[H1 H2]|[_ H]]; [|congruence]. rewrite <- Q in H1, H2. apply Rmult_le_reg_r in H1; auto. apply Rmult_lt_reg_r in H2; auto.
        assert (EF : Zfloor q = Z.of_nat b) by (apply Zfloor_imp; rewrite plus_IZR, <- INR_IZR_INZ; rewrite plus_INR in H2; cbn in H2; lra). rewrite EF, Nat2Z.id. reflexivity.
Qed.

(* ---------------- geometry ---------------- *)
Definition vle (a b : vec) : Prop := vx a <= vx b /\ vy a <= vy b /\ vz a <= vz b.
Lemma vle_refl a : vle a a. Proof. unfold vle. lra. Qed.
Lemma vle_trans a b c : vle a b -> vle b c -> vle a c. Proof. unfold vle. lra. Qed.
Lemma vmin_le a b : vle (vmin a b) a /\ vle (vmin a b) b.
Proof. unfold vle, vmin. cbn. repeat split; auto using Rmin_l, Rmin_r. Qed.
Lemma vmax_le a b : vle a (vmax a b) /\ vle b (vmax a b).
Proof. unfold vle, vmax. cbn. repeat split; auto using Rmax_l, Rmax_r. Qed.
Lemma fold_min_spec ps : forall p q, In q (p :: ps) -> vle (col_min p ps) q.
Proof.
  unfold col_min. induction ps as [|a ps IH]; intros p q H; cbn [fold_left].
  - destruct H as [->|[]]. apply vle_refl.
  - pose proof (IH (vmin p a) (vmin p a) (or_introl eq_refl)) as M. destruct (vmin_le p a) as [M1 M2].
    destruct H as [->|[->|H]]; [| |apply IH; right; auto]; eapply vle_trans; eauto.
Qed.
Lemma fold_max_spec ps : forall p q, In q (p :: ps) -> vle q (col_max p ps).
Proof.
  unfold col_max. induction ps as [|a ps IH]; intros p q H; cbn [fold_left].
  - destruct H as [->|[]]. apply vle_refl.
  - pose proof (IH (vmax p a) (vmax p a) (or_introl eq_refl)) as M. destruct (vmax_le p a) as [M1 M2].
    destruct H as [->|[->|H]]; [| |apply IH; right; auto]; eapply vle_trans; eauto.
Qed.

Section Rdf.
Variables (coords : list vec) (cutoff : R).
Hypothesis C0 : 0 < cutoff.
Notation sh := (rdf_shift coords).
Notation N := (rdf_N coords cutoff).
Notation bi := (box_idx coords cutoff).
Notation D := (rdf_dims coords).

Lemma shift_bounds q : In q sh -> vle v0 q /\ vle q D.
Proof.
  intros H. split.
  - unfold rdf_shift in H. destruct coords as [|p ps]; [destruct H|]. apply in_map_iff in H. destruct H as (r & <- & H). apply fold_min_spec in H. revert H. unfold vle, vsub, v0. cbn. lra.
  - unfold rdf_dims. destruct sh as [|p ps]; [destruct H|]. apply fold_max_spec; auto.
Qed.
Lemma shift_nth i : nth_error sh i = match coords with [] => None | p :: ps => option_map (fun q => vsub q (col_min p ps)) (nth_error coords i) end.
Proof. unfold rdf_shift. destruct coords as [|p ps]; [destruct i; reflexivity|]. apply nth_error_map. Qed.
Lemma shift_dist i j p q p' q' : nth_error coords i = Some p -> nth_error coords j = Some q -> nth_error sh i = Some p' -> nth_error sh j = Some q' -> dist p' q' = dist p q.
Proof.
  rewrite !shift_nth. destruct coords as [|a l]; [discriminate|]. intros -> ->. cbn. intros [= <-] [= <-]. unfold dist. f_equal. vring.
Qed.

(** the voxel (x,y,z) of a shifted point *)
Hypothesis NM : forall k : Z, vx D <> IZR k * cutoff /\ vy D <> IZR k * cutoff /\ vz D <> IZR k * cutoff.
Lemma floor_in a d : 0 <= a <= d -> (forall k, d <> IZR k * cutoff) -> (0 <= Zfloor (a / cutoff) < Zceil (d / cutoff))%Z.
Proof.
  intros [A1 A2] H. split.
  - apply Zfloor_lub. cbn. apply Rmult_le_reg_r with cutoff; auto. unfold Rdiv. rewrite Rmult_assoc, Rinv_l by lra. lra.
  - assert (E : Zceil (d / cutoff) = (Zfloor (d / cutoff) + 1)%Z).
    { apply Zceil_floor_neq. intros E. apply (H (Zfloor (d / cutoff))). rewrite E. field. lra. }
    assert (Zfloor (a / cutoff) <= Zfloor (d / cutoff))%Z; [|lia]. apply Zfloor_le. apply Rmult_le_reg_r with cutoff; auto. unfold Rdiv. rewrite !Rmult_assoc, Rinv_l by lra. lra.
Qed.
Lemma box_grid q : In q sh -> in_grid (N vx) (N vy) (N vz) (Zfloor (vx q / cutoff)) (Zfloor (vy q / cutoff)) (Zfloor (vz q / cutoff)).
Proof.
  intros H. apply shift_bounds in H. unfold vle, v0 in H. cbn in H. unfold in_grid, rdf_N.
  split; [|split]; apply floor_in; try lra; intros k; destruct (NM k) as (?&?&?); assumption.
Qed.
Lemma box_cell q : bi q = cell_index (N vx) (N vy) (Zfloor (vx q / cutoff)) (Zfloor (vy q / cutoff)) (Zfloor (vz q / cutoff)).
Proof. unfold box_idx, cell_index. lia. Qed.
Lemma floor_near a b : Rabs (a - b) <= cutoff -> (Z.abs (Zfloor (b / cutoff) - Zfloor (a / cutoff)) <= 1)%Z.
Proof.
  intros H. assert (Q : Rabs (a / cutoff - b / cutoff) <= 1).
  { replace (a / cutoff - b / cutoff) with ((a - b) * / cutoff) by (field; lra). rewrite Rabs_mult, (Rabs_right (/ cutoff)) by (apply Rle_ge, Rlt_le, Rinv_0_lt_compat; auto).
    apply Rmult_le_reg_r with cutoff; auto. rewrite Rmult_assoc, Rinv_l by lra. lra. }
  apply Rabs_def2b in Q || apply Rabs_le_inv in Q. 
  pose proof (Zfloor_lb (a / cutoff)). pose proof (Zfloor_ub (a / cutoff)). pose proof (Zfloor_lb (b / cutoff)). pose proof (Zfloor_ub (b / cutoff)).
  assert (IZR (Zfloor (b / cutoff)) < IZR (Zfloor (a / cutoff) + 2)) by (rewrite plus_IZR; lra).
  assert (IZR (Zfloor (a / cutoff)) < IZR (Zfloor (b / cutoff) + 2)) by (rewrite plus_IZR; lra).
  apply lt_IZR in H4, H5. lia.
Qed.

Variable nb : nat.
Definition ind (b : nat) (p q : vec) : nat := if in_bin nb cutoff b (dist p q) then 1%nat else 0%nat.
Lemma ind_near b p q : ind b p q <> 0%nat -> dist p q <= cutoff.
Proof.
  unfold ind, in_bin, hist_bin. destruct (Rltb (dist p q) 0 || Rltb cutoff (dist p q)) eqn:E; [congruence|].
  apply orb_false_iff in E. destruct E as [_ E]. apply Rltb_false in E. lra.
Qed.
Lemma fold_hist (ds : Z -> list R) b nbrs : (b < nb)%nat -> forall c, length c = nb ->
  let r := fold_left (fun c n => add_counts c (histogram nb cutoff (ds n))) nbrs c in
  length r = nb /\ nth b r 0%nat = (nth b c 0 + sumn (fun n => sumn (fun d => if in_bin nb cutoff b d then 1 else 0) (ds n)) nbrs)%nat.
Proof.
  intros B. induction nbrs as [|n nbrs IH]; intros c L; cbn [fold_left sumn]; cbv zeta; [split; auto|].
  destruct (IH (add_counts c (histogram nb cutoff (ds n)))) as [I1 I2]; [rewrite add_len; rewrite ?histogram_len; auto|].
  split; auto. rewrite I2, add_nth, histogram_nth by (rewrite ?histogram_len; auto). lia.
Qed.
Lemma voxel_sum l i b : NoDup l -> (forall p q, In p sh -> In q sh -> bi p = i -> dist p q <= cutoff -> In (bi q) l) ->
  sumn (fun n => sumn (fun ab => ind b (fst ab) (snd ab)) (list_prod (rdf_parts coords cutoff i) (rdf_parts coords cutoff n))) l =
  sumn (fun p => sumn (ind b p) sh) (rdf_parts coords cutoff i).
Proof.
  intros ND NEAR. rewrite (sumn_ext _ (fun n => sumn (fun p => sumn (ind b p) (rdf_parts coords cutoff n)) (rdf_parts coords cutoff i))) by (intros; apply sumn_prod).
  rewrite sumn_swap. apply sumn_ext. intros p Hp. apply filter_In in Hp. destruct Hp as [Hp Ep]. apply Z.eqb_eq in Ep.
  unfold rdf_parts. rewrite (sum_parts bi sh l (ind b p) ND). apply sumn_ext. intros q Hq.
  destruct (in_dec Z.eq_dec (bi q) l) as [I|I]; auto. destruct (Nat.eq_dec (ind b p q) 0) as [E|E]; auto. exfalso. apply I. apply (NEAR p q); auto. eapply ind_near; eauto.
Qed.
End Rdf.

(* ---------------- C53 ---------------- *)
(** the coordinate-wise bounding box of the particles: lowest corner and extents *)
Definition bounding (coords : list vec) (lo L : vec) : Prop :=
  (forall p, In p coords -> vle lo p /\ vle p (vadd lo L)) /\
  (exists p, In p coords /\ vx p = vx lo) /\ (exists p, In p coords /\ vy p = vy lo) /\ (exists p, In p coords /\ vz p = vz lo) /\
  (exists p, In p coords /\ vx p = vx lo + vx L) /\ (exists p, In p coords /\ vy p = vy lo + vy L) /\ (exists p, In p coords /\ vz p = vz lo + vz L).
(** p lies in the cube (x, y, z) of side cutoff counted from lo *)
Definition in_cube (lo : vec) (cutoff : R) (x y z : Z) (p : vec) : Prop :=
  IZR x * cutoff <= vx p - vx lo < (IZR x + 1) * cutoff /\ IZR y * cutoff <= vy p - vy lo < (IZR y + 1) * cutoff /\
  IZR z * cutoff <= vz p - vz lo < (IZR z + 1) * cutoff.

Lemma fold_min_attained ps : forall p,
  (exists q, In q (p :: ps) /\ vx q = vx (col_min p ps)) /\ (exists q, In q (p :: ps) /\ vy q = vy (col_min p ps)) /\ (exists q, In q (p :: ps) /\ vz q = vz (col_min p ps)).
Proof.
  unfold col_min. induction ps as [|a ps IH]; intros p; cbn [fold_left]; [repeat split; exists p; cbn; auto|].
  destruct (IH (vmin p a)) as ((q1 & I1 & E1) & (q2 & I2 & E2) & (q3 & I3 & E3)). rewrite <- E1, <- E2, <- E3.
  split; [|split].
  - destruct I1 as [<-|I1]; [|exists q1; cbn; auto]. unfold vmin. cbn [vx]. unfold Rmin. destruct Rle_dec; [exists p|exists a]; cbn; auto.
  - destruct I2 as [<-|I2]; [|exists q2; cbn; auto]. unfold vmin. cbn [vy]. unfold Rmin. destruct Rle_dec; [exists p|exists a]; cbn; auto.
  - destruct I3 as [<-|I3]; [|exists q3; cbn; auto]. unfold vmin. cbn [vz]. unfold Rmin. destruct Rle_dec; [exists p|exists a]; cbn; auto.
Qed.
Lemma fold_max_attained ps : forall p,
  (exists q, In q (p :: ps) /\ vx q = vx (col_max p ps)) /\ (exists q, In q (p :: ps) /\ vy q = vy (col_max p ps)) /\ (exists q, In q (p :: ps) /\ vz q = vz (col_max p ps)).
Proof.
  unfold col_max. induction ps as [|a ps IH]; intros p; cbn [fold_left]; [repeat split; exists p; cbn; auto|].
  destruct (IH (vmax p a)) as ((q1 & I1 & E1) & (q2 & I2 & E2) & (q3 & I3 & E3)). rewrite <- E1, <- E2, <- E3.
  split; [|split].
  - destruct I1 as [<-|I1]; [|exists q1; cbn; auto]. unfold vmax. cbn [vx]. unfold Rmax. destruct Rle_dec; [exists a|exists p]; cbn; auto.
  - destruct I2 as [<-|I2]; [|exists q2; cbn; auto]. unfold vmax. cbn [vy]. unfold Rmax. destruct Rle_dec; [exists a|exists p]; cbn; auto.
  - destruct I3 as [<-|I3]; [|exists q3; cbn; auto]. unfold vmax. cbn [vz]. unfold Rmax. destruct Rle_dec; [exists a|exists p]; cbn; auto.
Qed.
Lemma bounding_min p ps lo L : bounding (p :: ps) lo L -> col_min p ps = lo.
Proof.
  intros (B & (p1 & I1 & E1) & (p2 & I2 & E2) & (p3 & I3 & E3) & _).
  destruct (fold_min_attained ps p) as ((q1 & J1 & F1) & (q2 & J2 & F2) & (q3 & J3 & F3)).
  apply vec_eq.
  - destruct (fold_min_spec ps p p1 I1) as (U & _). destruct (B q1 J1) as [(V & _) _]. lra.
  - destruct (fold_min_spec ps p p2 I2) as (_ & U & _). destruct (B q2 J2) as [(_ & V & _) _]. lra.
  - destruct (fold_min_spec ps p p3 I3) as (_ & _ & U). destruct (B q3 J3) as [(_ & _ & V) _]. lra.
Qed.
Lemma bounding_shift coords lo L : bounding coords lo L -> rdf_shift coords = map (fun q => vsub q lo) coords.
Proof. intros B. unfold rdf_shift. destruct coords as [|p ps]; auto. rewrite (bounding_min _ _ _ _ B). reflexivity. Qed.
Lemma bounding_dims coords lo L : bounding coords lo L -> rdf_dims coords = L.
Proof.
  intros B. unfold rdf_dims. rewrite (bounding_shift _ _ _ B). destruct B as (B & _ & _ & _ & (p1 & I1 & E1) & (p2 & I2 & E2) & (p3 & I3 & E3)).
  destruct coords as [|a l]; [destruct I1|]. cbn [map]. set (g := fun q => vsub q lo).
  change (vsub a lo) with (g a). pose proof (fun p (H : In p (a :: l)) => in_map g _ _ H) as IM. cbn [map] in IM.
  destruct (fold_max_attained (map g l) (g a)) as ((q1 & J1 & F1) & (q2 & J2 & F2) & (q3 & J3 & F3)).
  assert (BB : forall q, In q (g a :: map g l) -> vle q L).
  { intros q H. change (In q (map g (a :: l))) in H. apply in_map_iff in H. destruct H as (r & <- & H). apply B in H. revert H. unfold vle, g, vsub, vadd. cbn. lra. }
  apply vec_eq.
  - destruct (fold_max_spec _ _ _ (IM p1 I1)) as (U & _). destruct (BB q1 J1) as (V & _). change (vx (g p1)) with (vx p1 - vx lo) in U. lra.
  - destruct (fold_max_spec _ _ _ (IM p2 I2)) as (_ & U & _). destruct (BB q2 J2) as (_ & V & _). change (vy (g p2)) with (vy p2 - vy lo) in U. lra.
  - destruct (fold_max_spec _ _ _ (IM p3 I3)) as (_ & _ & U). destruct (BB q3 J3) as (_ & _ & V). change (vz (g p3)) with (vz p3 - vz lo) in U. lra.
Qed.
Lemma cube_floor a k c : 0 < c -> (IZR k * c <= a < (IZR k + 1) * c <-> Zfloor (a / c) = k).
Proof.
  intros C. assert (E : a = a / c * c) by (field; lra). split.
  - intros [H1 H2]. apply Zfloor_imp. rewrite plus_IZR. split; [apply Rmult_le_reg_r with c|apply Rmult_lt_reg_r with c]; auto; lra.
  - intros <-. pose proof (Zfloor_lb (a / c)). pose proof (Zfloor_ub (a / c)). rewrite E at 2 3. split; [apply Rmult_le_compat_r|apply Rmult_lt_compat_r]; lra.
Qed.

Lemma sumn_nth {A} (f : A -> nat) l : sumn f l = sumn (fun i => match nth_error l i with Some p => f p | None => 0%nat end) (seq 0 (length l)).
Proof.
  enough (G : forall pre, sumn f l = sumn (fun i => match nth_error (pre ++ l) i with Some p => f p | None => 0%nat end) (seq (length pre) (length l))) by apply (G []).
  induction l as [|a l IH]; intros pre; cbn [length seq sumn]; auto.
  rewrite (nth_error_app2 pre) by lia. rewrite Nat.sub_diag. cbn [nth_error]. f_equal.
  rewrite (IH (pre ++ [a])), app_length. cbn [length]. rewrite Nat.add_1_r. apply sumn_ext. intros i _. rewrite <- app_assoc. reflexivity.
Qed.
Lemma list_prod_NoDup {A B} (la : list A) (lb : list B) : NoDup la -> NoDup lb -> NoDup (list_prod la lb).
Proof.
  intros NA NB. induction NA as [|a la NI NA IH]; cbn; [constructor|].
  assert (G : forall m, NoDup m -> NoDup (map (fun y => (a, y)) m ++ list_prod la lb)); auto.
  induction 1 as [|b m NI' NM IM]; cbn; auto. constructor; auto. rewrite in_app_iff, in_map_iff, in_prod_iff.
  intros [(y & E & H)|[H _]]; [|contradiction]. congruence.
Qed.
Lemma voxel_nth d0 d1 d2 px py pz i : (i < Z.to_nat (d0 * d1 * d2))%nat ->
  nth_error (get_voxel_grid d0 d1 d2 px py pz) i = Some (voxel_neighbors d0 d1 d2 px py pz (Z.of_nat i)).
Proof.
  intros H. unfold get_voxel_grid, vgN. rewrite nth_error_map. rewrite nth_error_nth' with (d := 0%nat) by (rewrite seq_length; auto). rewrite seq_nth by auto. reflexivity.
Qed.

Theorem C53_rdf_counts_partial coords cutoff lo L : bounding coords lo L -> 1 / 10 <= cutoff ->
  (forall k, vx L <> IZR k * cutoff /\ vy L <> IZR k * cutoff /\ vz L <> IZR k * cutoff) ->
  let n0 := Zceil (vx L / cutoff) in let n1 := Zceil (vy L / cutoff) in let n2 := Zceil (vz L / cutoff) in
  (forall x y z, in_grid n0 n1 n2 x y z -> exists p, nth_error coords (Z.to_nat (cell_index n0 n1 x y z)) = Some p /\ in_cube lo cutoff x y z p) ->
  let nb := Z.to_nat (Zfloor (10 * cutoff)) in
  exists counts, snd (calc_rdf coords cutoff false false false) = Ok counts /\ length counts = nb /\
    forall b, (0 < b < nb)%nat -> counts_pairs coords nb cutoff b (nth b counts 0%nat).
Proof.
  intros BD C NM n0 n1 n2 PART nb.
  assert (C0 : 0 < cutoff) by lra.
  assert (NB : num_bins cutoff = nb).
  { unfold num_bins, nb. f_equal. rewrite Ztrunc_floor; [f_equal; field|]. apply Rmult_le_pos; [lra|]. apply Rlt_le, Rinv_0_lt_compat. lra. }
  assert (NB1 : (0 < nb)%nat).
  { assert (1 <= Zfloor (10 * cutoff))%Z by (apply Zfloor_lub; cbn; lra). unfold nb. lia. }
  pose proof (bounding_dims _ _ _ BD) as ED. pose proof (bounding_shift _ _ _ BD) as ES.
  set (sh := rdf_shift coords) in *. set (bi := box_idx coords cutoff).
  assert (NM' : forall k : Z, vx (rdf_dims coords) <> IZR k * cutoff /\ vy (rdf_dims coords) <> IZR k * cutoff /\ vz (rdf_dims coords) <> IZR k * cutoff) by (rewrite ED; auto).
  pose proof (box_grid coords cutoff C0 NM') as GR. fold sh in GR.
  assert (E0 : rdf_N coords cutoff vx = n0) by (unfold rdf_N; rewrite ED; reflexivity).
  assert (E1 : rdf_N coords cutoff vy = n1) by (unfold rdf_N; rewrite ED; reflexivity).
  assert (E2 : rdf_N coords cutoff vz = n2) by (unfold rdf_N; rewrite ED; reflexivity).
  rewrite E0, E1, E2 in GR.
  assert (BC : forall q, bi q = cell_index n0 n1 (Zfloor (vx q / cutoff)) (Zfloor (vy q / cutoff)) (Zfloor (vz q / cutoff))).
  { intros q. unfold bi. rewrite box_cell, E0, E1. reflexivity. }
  assert (NE : coords <> []) by (destruct BD as (_ & (p & I & _) & _); intros ->; destruct I).
  assert (D1 : (1 <= n0 /\ 1 <= n1 /\ 1 <= n2)%Z).
  { destruct sh as [|q sh'] eqn:Q; [destruct coords; [congruence|discriminate]|]. specialize (GR q (or_introl eq_refl)). unfold in_grid in GR. lia. }
  destruct D1 as (D0 & D1 & D2).
  assert (NV : num_voxels coords cutoff = Z.to_nat (n0 * n1 * n2)) by (unfold num_voxels; rewrite E0, E1, E2; reflexivity).
  destruct (C52_sdist_always_partial (rdf_dims coords) false false false) as (sd & SD & SDE & _). specialize (SDE eq_refl eq_refl eq_refl).
  assert (SQ : forall p q, sqrt (sd p q) = dist p q).
  { intros p q. rewrite SDE. replace (dist p q ^ 2) with (Rsqr (dist p q)) by (unfold Rsqr; ring). apply sqrt_Rsqr. unfold dist. apply norm_pos. }
  (* one pass of the loop *)
  assert (STEP : forall i, (i < Z.to_nat (n0 * n1 * n2))%nat -> forall c, length c = nb -> exists c', rdf_voxel coords cutoff false false false sd c i = Ok c' /\ length c' = nb /\
    forall b, (b < nb)%nat -> nth b c' 0%nat = (nth b c 0 + sumn (fun p => sumn (ind cutoff nb b p) sh) (rdf_parts coords cutoff (Z.of_nat i)))%nat).
  { intros i Hi c Lc.
    destruct (cell_index_onto n0 n1 n2 (Z.of_nat i)) as (x & y & z & G & EI); auto; [lia|].
    destruct (PART x y z G) as (p & Hp & CU). rewrite <- EI, Nat2Z.id in Hp.
    assert (Hp' : nth_error sh i = Some (vsub p lo)) by (rewrite ES, nth_error_map, Hp; reflexivity).
    assert (Bp : bi (vsub p lo) = Z.of_nat i).
    { rewrite BC, EI. destruct CU as (CX & CY & CZ). apply cube_floor in CX, CY, CZ; auto. cbn [vsub vx vy vz]. rewrite CX, CY, CZ. reflexivity. }
    unfold rdf_voxel. fold sh. rewrite Hp'. cbn [bind]. change (box_idx coords cutoff (vsub p lo)) with (bi (vsub p lo)). rewrite Bp, Nat2Z.id, E0, E1, E2, voxel_nth by auto. cbn [bind].
    set (l := voxel_neighbors n0 n1 n2 false false false (Z.of_nat i)).
    set (ds := fun n => map (fun ab => sqrt (sd (fst ab) (snd ab))) (list_prod (rdf_parts coords cutoff (Z.of_nat i)) (rdf_parts coords cutoff n))).
    assert (FH : forall b, (b < nb)%nat -> _) by (intros b Hb; exact (fold_hist cutoff nb ds b l Hb c Lc)). cbv zeta in FH.
    rewrite NB. change (fold_left _ l c) with (fold_left (fun c n => add_counts c (histogram nb cutoff (ds n))) l c).
    eexists. split; [reflexivity|]. split; [exact (proj1 (FH 0%nat NB1))|]. intros b Hb. rewrite (proj2 (FH b Hb)). f_equal.
    pose proof (voxel_sum coords cutoff nb l (Z.of_nat i) b) as VS. fold sh in VS. rewrite <- VS; clear VS.
    - apply sumn_ext. intros n _. unfold ds. rewrite sumn_map. apply sumn_ext. intros [u v] _. cbn [fst snd]. rewrite SQ. reflexivity.
    - unfold l, voxel_neighbors. cbn [andb]. apply NoDup_nodup.
    - intros u v Hu Hv EU DU. change (bi u = Z.of_nat i) in EU. change (In (bi v) l). 
      unfold l. rewrite <- EU, (BC u). rewrite (neighbors_spec n0 n1 n2 false false false _ _ _ _ (GR u Hu)).
      pose proof (GR u Hu) as (GU1 & GU2 & GU3). pose proof (GR v Hv) as (GV1 & GV2 & GV3).
      destruct (axis_le_dist u v) as (A1 & A2 & A3).
      exists (Zfloor (vx v / cutoff)), (Zfloor (vy v / cutoff)), (Zfloor (vz v / cutoff)).
      split; [|split; [|split; [|apply BC]]]; apply axis_step_near; auto; apply floor_near; auto; lra. }
  (* the whole loop *)
  assert (LOOP : forall is, (forall i, In i is -> (i < Z.to_nat (n0 * n1 * n2))%nat) -> forall c, length c = nb ->
    exists c', foldM (rdf_voxel coords cutoff false false false sd) is c = Ok c' /\ length c' = nb /\
    forall b, (b < nb)%nat -> nth b c' 0%nat = (nth b c 0 + sumn (fun i => sumn (fun p => sumn (ind cutoff nb b p) sh) (rdf_parts coords cutoff (Z.of_nat i))) is)%nat).
  { induction is as [|i is IH]; intros His c Lc; cbn [foldM sumn].
    - exists c. split; auto.
    - destruct (STEP i (His i (or_introl eq_refl)) c Lc) as (c1 & S1 & L1 & N1). rewrite S1. cbn [bind].
      destruct (IH (fun j Hj => His j (or_intror Hj)) c1 L1) as (c2 & S2 & L2 & N2). exists c2. split; auto. split; auto. intros b Hb. rewrite N2, N1 by auto. lia. }
  destruct (LOOP (seq 0 (Z.to_nat (n0 * n1 * n2))) (fun i Hi => proj2 (proj1 (in_seq _ _ _) Hi)) (repeat 0%nat nb) (repeat_length _ _)) as (c & EC & LC & NC). clear LOOP.
  assert (OUT : snd (calc_rdf coords cutoff false false false) = Ok (match c with [] => [] | _ :: t => 0%nat :: t end)).
  { unfold calc_rdf. destruct coords as [|a l] eqn:EQ; [congruence|]. rewrite <- EQ in *. cbn [snd]. rewrite NB. destruct (Nat.eqb_spec nb 0); [lia|]. rewrite SD. cbn [bind]. rewrite NV, EC. reflexivity. }
  eexists. split; [exact OUT|]. split; [destruct c; auto|]. intros b Hb.
  assert (NTH : nth b (match c with [] => [] | _ :: t => 0%nat :: t end) 0%nat = nth b c 0%nat) by (destruct c, b; cbn; auto; lia).
  rewrite NTH, NC by lia. rewrite nth_repeat. cbn [Nat.add].
  (* sum over voxels = sum over particles *)
  assert (TOT : sumn (fun i => sumn (fun p => sumn (ind cutoff nb b p) sh) (rdf_parts coords cutoff (Z.of_nat i))) (seq 0 (Z.to_nat (n0 * n1 * n2)))
     = sumn (fun p => sumn (ind cutoff nb b p) sh) sh).
  { unfold rdf_parts. rewrite <- (sumn_map (fun n => sumn (fun p => sumn (ind cutoff nb b p) sh) (filter (fun p => (box_idx coords cutoff p =? n)%Z) (rdf_shift coords))) Z.of_nat).
    rewrite (sum_parts bi sh); [|apply FinFun.Injective_map_NoDup; [intros u v; lia|apply seq_NoDup]].
    apply sumn_ext. intros p Hp. destruct (in_dec Z.eq_dec (bi p) (map Z.of_nat (seq 0 (Z.to_nat (n0 * n1 * n2))))) as [I|I]; auto. exfalso. apply I.
    apply in_map_iff. assert (0 <= bi p < n0 * n1 * n2)%Z.
    { rewrite BC. pose proof (GR p Hp) as GP. destruct (idx_facts n0 n1 n2 _ _ _ GP) as (_ & _ & _ & IF). exact IF. }
    exists (Z.to_nat (bi p)). split; [lia|]. apply in_seq. lia. }
  rewrite TOT. clear TOT.
  exists (filter (fun ij => match nth_error coords (fst ij), nth_error coords (snd ij) with Some p, Some q => in_bin nb cutoff b (dist p q) | _, _ => false end)
     (list_prod (seq 0 (length coords)) (seq 0 (length coords)))).
  assert (LS : length sh = length coords) by (rewrite ES; apply map_length).
  split; [apply NoDup_filter, list_prod_NoDup; apply seq_NoDup|]. split.
  - rewrite len_filter, sumn_prod. rewrite (sumn_nth _ sh), LS. apply sumn_ext. intros i Hi.
    rewrite ES, nth_error_map. cbn [fst snd]. destruct (nth_error coords i) as [p|] eqn:Ei; cbn [option_map]; [|apply sumn_0].
    rewrite (sumn_nth _ (map _ coords)), map_length. apply sumn_ext. intros j Hj. rewrite nth_error_map.
    destruct (nth_error coords j) as [q|] eqn:Ej; cbn [option_map]; auto. unfold ind. replace (dist (vsub p lo) (vsub q lo)) with (dist p q); auto. unfold dist. f_equal. vring.
  - intros i j. rewrite filter_In, in_prod_iff, !in_seq. cbn [fst snd]. split.
    + intros [[Hi Hj] H]. destruct (nth_error coords i) as [p|]; [|discriminate]. destruct (nth_error coords j) as [q|]; [|discriminate]. exists p, q. split; auto. split; auto.
      apply in_bin_spec; auto; [unfold dist; apply norm_pos|lia].
    + intros (p & q & Hp & Hq & H). assert (i < length coords)%nat by (apply nth_error_Some; congruence). assert (j < length coords)%nat by (apply nth_error_Some; congruence).
      split; [lia|]. rewrite Hp, Hq. apply in_bin_spec; auto; [unfold dist; apply norm_pos|lia].
Qed.

(** one voxel: no condition on the order of the particles *)
Theorem C53_small_cluster_partial coords cutoff lo L : bounding coords lo L -> 1 / 10 <= cutoff ->
  0 < vx L < cutoff -> 0 < vy L < cutoff -> 0 < vz L < cutoff ->
  let nb := Z.to_nat (Zfloor (10 * cutoff)) in
  exists counts, snd (calc_rdf coords cutoff false false false) = Ok counts /\ length counts = nb /\
    forall b, (0 < b < nb)%nat -> counts_pairs coords nb cutoff b (nth b counts 0%nat).
Proof.
  intros B C X Y Z nb. apply (C53_rdf_counts_partial coords cutoff lo L); auto.
  - assert (G : forall d k, 0 < d < cutoff -> d <> IZR k * cutoff).
    { intros d k D E. assert (0 < k)%Z by (apply lt_IZR; apply Rmult_lt_reg_r with cutoff; lra). assert (k < 1)%Z by (apply lt_IZR; apply Rmult_lt_reg_r with cutoff; lra). lia. }
    intros k. auto.
  - assert (G : forall d, 0 < d < cutoff -> Zceil (d / cutoff) = 1%Z).
    { intros d D. apply Zceil_imp. cbn. assert (E : d = d / cutoff * cutoff) by (field; lra). split; [apply Rmult_lt_reg_r with cutoff|apply Rmult_le_reg_r with cutoff]; lra. }
    rewrite !G by auto. intros x y z (Hx & Hy & Hz). assert (x = 0 /\ y = 0 /\ z = 0)%Z as (-> & -> & ->) by lia. cbn.
    destruct B as (B & (p & I & _) & _). destruct coords as [|a l]; [destruct I|]. exists a. split; auto. destruct (B a (or_introl eq_refl)) as [(B1 & B2 & B3) (B4 & B5 & B6)]. unfold vadd in *. cbn in *.
    unfold in_cube. repeat split; lra.
Qed.
(** a configuration with zero extent along some axis: nothing is ever counted *)
Theorem C53_flat_refuted coords cutoff lo L px py pz : bounding coords lo L -> 1 / 10 <= cutoff ->
  vx L = 0 \/ vy L = 0 \/ vz L = 0 ->
  snd (calc_rdf coords cutoff px py pz) = Ok (repeat 0%nat (Z.to_nat (Zfloor (10 * cutoff)))).
Proof.
  intros B C H. pose proof (bounding_dims _ _ _ B) as ED. unfold calc_rdf.
  assert (NE : coords <> []) by (destruct B as (_ & (p & I & _) & _); intros ->; destruct I).
  assert (NB : num_bins cutoff = Z.to_nat (Zfloor (10 * cutoff))).
  { unfold num_bins. f_equal. rewrite Ztrunc_floor; [f_equal; field|]. apply Rmult_le_pos; [lra|]. apply Rlt_le, Rinv_0_lt_compat. lra. }
  assert (1 <= Zfloor (10 * cutoff))%Z by (apply Zfloor_lub; cbn; lra).
  destruct coords as [|a l] eqn:EQ; [congruence|]. rewrite <- EQ in *. cbn [snd]. rewrite NB. destruct (Nat.eqb_spec (Z.to_nat (Zfloor (10 * cutoff))) 0); [lia|].
  cbn [bind get_sdist_fun].
  assert (Z0 : Zceil (0 / cutoff) = 0%Z) by (unfold Rdiv; rewrite Rmult_0_l; apply (Zceil_IZR 0)).
  assert (NV : num_voxels coords cutoff = 0%nat).
  { unfold num_voxels, rdf_N. rewrite ED. destruct H as [-> | [-> | ->]]; rewrite Z0; lia. }
  rewrite NV. cbn [seq foldM bind]. destruct (Z.to_nat (Zfloor (10 * cutoff))); reflexivity.
Qed.
(** fewer particles than voxels: the call fails *)
Theorem C53_sparse_refuted coords cutoff lo L px py pz : bounding coords lo L -> 1 / 10 <= cutoff ->
  (Z.of_nat (length coords) < Zceil (vx L / cutoff) * Zceil (vy L / cutoff) * Zceil (vz L / cutoff))%Z ->
  snd (calc_rdf coords cutoff px py pz) = Err IndexError.
Proof.
  intros B C H. pose proof (bounding_dims _ _ _ B) as ED. pose proof (bounding_shift _ _ _ B) as ES. unfold calc_rdf.
  assert (NE : coords <> []) by (destruct B as (_ & (p & I & _) & _); intros ->; destruct I).
  assert (NB : num_bins cutoff <> 0%nat).
  { unfold num_bins. rewrite Ztrunc_floor; [|apply Rmult_le_pos; [lra|]; apply Rlt_le, Rinv_0_lt_compat; lra].
    assert (1 <= Zfloor (cutoff / (1 / 10)))%Z; [|lia]. apply Zfloor_lub. cbn. replace (cutoff / (1 / 10)) with (10 * cutoff) by field. lra. }
  assert (LS : length (rdf_shift coords) = length coords) by (rewrite ES; apply map_length).
  destruct coords as [|a l] eqn:EQ; [congruence|]. rewrite <- EQ in *. cbn [snd]. destruct (Nat.eqb_spec (num_bins cutoff) 0); [congruence|].
  cbn [bind get_sdist_fun]. set (sd := fun _ _ : vec => _).
  assert (G : forall is c, (exists i, In i is /\ (length coords <= i)%nat) -> foldM (rdf_voxel coords cutoff px py pz sd) is c = Err IndexError).
  { induction is as [|i is IH]; intros c (j & Ij & Lj); [destruct Ij|]. cbn [foldM].
    destruct (rdf_voxel coords cutoff px py pz sd c i) as [c'|e] eqn:E; cbn [bind].
    - apply IH. destruct Ij as [->|Ij]; [|eauto]. exfalso. unfold rdf_voxel in E.
      rewrite (proj2 (nth_error_None (rdf_shift coords) j)) in E by lia. discriminate.
    - revert E. unfold rdf_voxel. destruct (nth_error (rdf_shift coords) i); cbn [bind]; [|congruence]. destruct nth_error; cbn [bind]; congruence. }
  rewrite G; auto. exists (length coords). split; [|lia]. apply in_seq. unfold num_voxels, rdf_N. rewrite ED. lia.
Qed.
(** two particles one unit apart, not counted *)
Theorem C53_rdf_counts_refuted : exists p q counts,
  dist p q = 1 /\ snd (calc_rdf [p; q] 2 false false false) = Ok counts /\ forall n, In n counts -> n = 0%nat.
Proof.
  exists (mkV 0 0 0), (mkV 1 0 0), (repeat 0%nat (Z.to_nat (Zfloor (10 * 2)))). split; [|split].
  - unfold dist, norm. replace (dot _ _) with 1 by (vunfold; cbn; ring). apply sqrt_1.
  - apply (C53_flat_refuted _ 2 (mkV 0 0 0) (mkV 1 0 0)); [|lra|cbn; auto]. unfold bounding, vle, vadd. cbn.
    split; [intros p [<- |[<- |[]]]; cbn; lra|].
    repeat split; solve [exists (mkV 0 0 0); cbn; split; [auto|lra]|exists (mkV 1 0 0); cbn; split; [auto|lra]].
  - intros n. apply repeat_spec.
Qed.
Example C53_nonvacuous : bounding [mkV 0 0 0; mkV 1 2 1; mkV 2 1 1] (mkV 0 0 0) (mkV 2 2 1) /\
  0 < vx (mkV 2 2 1) < 3 /\ 0 < vy (mkV 2 2 1) < 3 /\ 0 < vz (mkV 2 2 1) < 3.
Proof.
  split; [|cbn; lra]. unfold bounding, vle, vadd. cbn. split; [intros p [<- |[<- |[<- |[]]]]; cbn; lra|].
  repeat split; solve [exists (mkV 0 0 0); cbn; split; [auto|lra]|exists (mkV 1 2 1); cbn; split; [auto|lra]|exists (mkV 2 1 1); cbn; split; [auto|lra]].
Qed.
(** two voxels, each listed particle in its own voxel *)
Example C53_two_voxels_nonvacuous : let coords := [mkV 0 0 0; mkV 3 1 1] in let lo := mkV 0 0 0 in let L := mkV 3 1 1 in
  bounding coords lo L /\ (forall k, vx L <> IZR k * 2 /\ vy L <> IZR k * 2 /\ vz L <> IZR k * 2) /\
  Zceil (vx L / 2) = 2%Z /\ Zceil (vy L / 2) = 1%Z /\ Zceil (vz L / 2) = 1%Z /\
  forall x y z, in_grid 2 1 1 x y z -> exists p, nth_error coords (Z.to_nat (cell_index 2 1 x y z)) = Some p /\ in_cube lo 2 x y z p.
Proof.
  cbv zeta. cbn [vx vy vz]. split; [|split; [|split; [|split; [|split]]]].
  - unfold bounding, vle, vadd. cbn. split; [intros p [<- |[<- |[]]]; cbn; lra|].
    repeat split; solve [exists (mkV 0 0 0); cbn; split; [auto|lra]|exists (mkV 3 1 1); cbn; split; [auto|lra]].
  - intros k. assert (P : forall a, (a mod 2 = 1)%Z -> IZR a <> IZR k * 2).
    { intros a A E. rewrite <- mult_IZR in E. apply eq_IZR in E. subst a. rewrite Z_mod_mult in A. discriminate. }
    split; [|split]; apply P; reflexivity.
  - apply Zceil_imp. cbn. lra.
  - apply Zceil_imp. cbn. lra.
  - apply Zceil_imp. cbn. lra.
  - intros x y z (Hx & Hy & Hz). assert (y = 0 /\ z = 0)%Z as (-> & ->) by lia. assert (x = 0 \/ x = 1)%Z as [-> | ->] by lia; cbn; eexists; (split; [reflexivity|]); unfold in_cube; cbn; lra.
Qed.

(* ---------------- C83 ---------------- *)
Theorem C83_argument_kept_refuted : exists coords cutoff px py pz, fst (calc_rdf coords cutoff px py pz) <> coords.
Proof.
  exists [mkV 1 1 1], 1, false, false, false. cbn. intros [= H _ _]. unfold col_min in H. cbn in H. lra.
Qed.
(** the caller's array is left shifted so that its lowest corner is the origin; it is
    unchanged exactly when that already holds *)
Theorem C83_argument_shifted_partial coords cutoff lo L px py pz : bounding coords lo L ->
  fst (calc_rdf coords cutoff px py pz) = map (fun p => vsub p lo) coords /\
  (fst (calc_rdf coords cutoff px py pz) = coords <-> lo = mkV 0 0 0).
Proof.
  intros B. unfold calc_rdf. cbn [fst]. rewrite (bounding_shift _ _ _ B). split; auto. split.
  - destruct B as (_ & (p & I & _) & _). destruct coords as [|a l]; [destruct I|]. cbn [map]. intros E. injection E as E _. destruct a as [a0 a1 a2], lo as [l0 l1 l2]. unfold vsub in E. cbn in E. injection E as E0 E1 E2. f_equal; lra.
  - intros ->. rewrite <- (map_id coords) at 2. apply map_ext. intros [a b c]. unfold vsub. cbn. f_equal; lra.
Qed.
Example C83_nonvacuous : bounding [mkV 1 1 1] (mkV 1 1 1) (mkV 0 0 0).
Proof.
  unfold bounding, vle, vadd. cbn. split; [intros p [<- |[]]; cbn; lra|]. repeat split; exists (mkV 1 1 1); cbn; split; auto; lra.
Qed.
