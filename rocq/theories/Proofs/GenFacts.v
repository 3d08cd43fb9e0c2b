(** Facts about crystalline generators. *)
From Coq Require Import Reals List ZArith Bool Lra Lia Psatz.
From Flocq Require Import Core.Raux.
From Verif.Model Require Import Base Vec Voxel Strain Post Misc Transform Generator.
From Verif.Spec Require Import Geometry CrystalSpec.
From Verif.Proofs Require Import VecFacts VolumeFacts HullFacts.
Import ListNotations.
Open Scope R_scope.

Lemma in_zrange a b x : In x (zrange a b) <-> (a <= x < b)%Z.
Proof.
  unfold zrange. rewrite in_map_iff. split.
  - intros (k & <- & Hk). apply in_seq in Hk. lia.
  - intros H. exists (Z.to_nat (x - a)). split; [lia|]. apply in_seq. lia.
Qed.
Lemma NoDup_zrange a b : NoDup (zrange a b).
Proof.
  unfold zrange. apply FinFun.Injective_map_NoDup; [|apply seq_NoDup]. intros x y H. lia.
Qed.
Lemma NoDup_flat_map {A B} (f : A -> list B) l :
  NoDup l -> (forall x, In x l -> NoDup (f x)) ->
  (forall x y z, In x l -> In y l -> In z (f x) -> In z (f y) -> x = y) -> NoDup (flat_map f l).
Proof.
  induction 1 as [|x l Hx HN IH]; intros H1 H2; simpl; [constructor|].
  assert (G : forall u v : list B, NoDup u -> NoDup v -> (forall z, In z u -> ~ In z v) -> NoDup (u ++ v)).
  { clear. induction u as [|a u IH]; intros v Hu Hv Hd; simpl; auto. inversion Hu; subst. constructor.
    - intros H. apply in_app_or in H as [H|H]; [auto|]. apply (Hd a); simpl; auto.
    - apply IH; auto. intros z Hz. apply Hd; simpl; auto. }
  apply G.
  - apply H1; simpl; auto.
  - apply IH; intros; [apply H1|eapply H2]; simpl; eauto.
  - intros z Hz Hz'. apply in_flat_map in Hz' as (y & Hy & Hz'). apply Hx.
    rewrite (H2 x y z); simpl; auto.
Qed.

Definition in_block (lo hi n : Z * Z * Z) : Prop :=
  let '(a0, a1, a2) := lo in let '(b0, b1, b2) := hi in let '(x, y, z) := n in
  (a0 <= x <= b0 /\ a1 <= y <= b1 /\ a2 <= z <= b2)%Z.
Lemma in_cells lo hi n : In n (cells lo hi) <-> in_block lo hi n.
Proof.
  destruct lo as [[a0 a1] a2], hi as [[b0 b1] b2], n as [[x y] z]. unfold cells, in_block.
  rewrite in_flat_map. split.
  - intros (x' & Hx & H). apply in_flat_map in H as (y' & Hy & H). apply in_map_iff in H as (z' & E & Hz).
    inversion E; subst. rewrite in_zrange in *. lia.
  - intros (Hx & Hy & Hz). exists x. split; [apply in_zrange; lia|]. apply in_flat_map. exists y.
    split; [apply in_zrange; lia|]. apply in_map. apply in_zrange; lia.
Qed.
Lemma NoDup_cells lo hi : NoDup (cells lo hi).
Proof.
  destruct lo as [[a0 a1] a2], hi as [[b0 b1] b2]. unfold cells.
  apply NoDup_flat_map; [apply NoDup_zrange| |].
  - intros x _. apply NoDup_flat_map; [apply NoDup_zrange| |].
    + intros y _. apply FinFun.Injective_map_NoDup; [|apply NoDup_zrange]. intros u v E; congruence.
    + intros y y' z _ _ H1 H2. apply in_map_iff in H1 as (? & <- & _). apply in_map_iff in H2 as (? & E & _). congruence.
  - intros x x' z _ _ H1 H2. apply in_flat_map in H1 as (? & _ & H1). apply in_flat_map in H2 as (? & _ & H2).
    apply in_map_iff in H1 as (? & <- & _). apply in_map_iff in H2 as (? & E & _). congruence.
Qed.

Lemma mapM_Ok_map {A B} (f : A -> res B) (g : A -> B) l : (forall x, In x l -> f x = Ok (g x)) -> mapM f l = Ok (map g l).
Proof.
  induction l as [|x l IH]; intros H; simpl; [reflexivity|]. rewrite (H x) by (simpl; auto). cbn [bind].
  rewrite IH by (intros; apply H; simpl; auto). reflexivity.
Qed.

(** fractional coordinates *)
Definition fcoord (v : voxel) (p : vec) : vec := mv (minv (sbases v)) (vsub p (vo_origin v)).

Lemma get_extents_Ok v box : det (sbases v) <> 0 -> box <> [] ->
  exists e es, map (fcoord v) box = e :: es /\
    get_extents v box = Ok (vfloor (rows_min e es), vceil (rows_max e es)).
Proof.
  intros Hd Hb. destruct box as [|b bs]; [congruence|]. exists (fcoord v b), (map (fcoord v) bs).
  split; [reflexivity|]. unfold get_extents.
  rewrite (mapM_Ok_map _ (fcoord v)).
  - reflexivity.
  - intros x _. unfold solve. rewrite (proj2 (Reqb_false _ _) Hd). reflexivity.
Qed.

Definition vle (a b : vec) : Prop := vx a <= vx b /\ vy a <= vy b /\ vz a <= vz b.
Lemma vmin_l a b : vle (vmin a b) a. Proof. repeat split; apply Rmin_l. Qed.
Lemma vmin_r a b : vle (vmin a b) b. Proof. repeat split; apply Rmin_r. Qed.
Lemma vmax_l a b : vle a (vmax a b). Proof. repeat split; apply Rmax_l. Qed.
Lemma vmax_r a b : vle b (vmax a b). Proof. repeat split; apply Rmax_r. Qed.
Lemma vle_trans a b c : vle a b -> vle b c -> vle a c. Proof. unfold vle. lra. Qed.
Lemma vle_refl a : vle a a. Proof. unfold vle. lra. Qed.
Lemma rows_min_le : forall es e x, In x (e :: es) -> vle (rows_min e es) x.
Proof.
  unfold rows_min. induction es as [|y es IH]; intros e x H; cbn [fold_left].
  - destruct H as [->|[]]. apply vle_refl.
  - destruct H as [->|[->|H]].
    + eapply vle_trans; [apply IH; left; reflexivity|apply vmin_l].
    + eapply vle_trans; [apply IH; left; reflexivity|apply vmin_r].
    + apply IH. right; auto.
Qed.
Lemma rows_max_ge : forall es e x, In x (e :: es) -> vle x (rows_max e es).
Proof.
  unfold rows_max. induction es as [|y es IH]; intros e x H; cbn [fold_left].
  - destruct H as [->|[]]. apply vle_refl.
  - destruct H as [->|[->|H]].
    + eapply vle_trans; [apply vmax_l|apply IH; left; reflexivity].
    + eapply vle_trans; [apply vmax_r|apply IH; left; reflexivity].
    + apply IH. right; auto.
Qed.

Lemma fcoord_lerp v t x y : fcoord v (lerp t x y) = lerp t (fcoord v x) (fcoord v y).
Proof. unfold fcoord, lerp. generalize (minv (sbases v)) (vo_origin v). vring. Qed.
Lemma hull_extents v box e es p : map (fcoord v) box = e :: es -> in_hull box p ->
  vle (rows_min e es) (fcoord v p) /\ vle (fcoord v p) (rows_max e es).
Proof.
  intros E H.
  refine (in_hull_ind (fun q => vle (rows_min e es) (fcoord v q) /\ vle (fcoord v q) (rows_max e es)) _ box _ p H).
  - intros x y t (A1 & A2) (B1 & B2) Ht. rewrite fcoord_lerp. unfold vle, lerp in *.
    revert A1 A2 B1 B2. generalize (fcoord v x) (fcoord v y) (rows_min e es) (rows_max e es). intros a b lo hi A1 A2 B1 B2.
    cbn [vx vy vz vadd vscale vsub]. repeat split; nra.
  - intros x Hx. assert (In (fcoord v x) (e :: es)) by (rewrite <- E; apply in_map; auto).
    split; [apply rows_min_le|apply rows_max_ge]; auto.
Qed.

Lemma site_pos_spec v n f : site_pos v n f = lattice_site (sbases v) (vo_origin v) n f.
Proof. destruct n as [[a b] c]. unfold site_pos, lattice_site, zvec. generalize (sbases v). vring. Qed.
Lemma fcoord_site v a b c f : det (sbases v) <> 0 ->
  fcoord v (lattice_site (sbases v) (vo_origin v) (a, b, c) f) = vadd (zvec a b c) f.
Proof.
  intros H. unfold fcoord, lattice_site. rewrite vsub_vadd. apply mv_minv_l; auto.
Qed.

(** A site in the hull of the box belongs to the block of cells. *)
Lemma site_in_block v box lo hi n f :
  det (sbases v) <> 0 -> get_extents v box = Ok (lo, hi) -> near_cell f ->
  in_hull box (lattice_site (sbases v) (vo_origin v) n f) -> In n (cells lo hi).
Proof.
  intros Hd HE (Fx & Fy & Fz) HH.
  assert (box <> []) by (intros ->; discriminate).
  destruct (get_extents_Ok v box Hd H) as (e & es & E & HE'). rewrite HE in HE'. inversion HE'; subst. clear HE'.
  destruct (hull_extents v box e es _ E HH) as [L U]. destruct n as [[a b] c].
  rewrite fcoord_site in L, U by auto. apply in_cells. unfold in_block, vfloor, vceil.
  destruct L as (L1 & L2 & L3), U as (U1 & U2 & U3). cbn [vadd zvec vx vy vz] in *.
  assert (FL : forall x k t, x <= IZR k + t -> t < 1 -> (Zfloor x <= k)%Z).
  { intros x k t H1 H2. pose proof (Zfloor_lb x). apply Zlt_succ_le. apply lt_IZR. unfold Z.succ. rewrite plus_IZR. lra. }
  assert (CE : forall x k t, IZR k + t <= x -> -1 < t -> (k <= Zceil x)%Z).
  { intros x k t H1 H2. pose proof (Zceil_ub x). apply Zlt_succ_le. apply lt_IZR. unfold Z.succ. rewrite plus_IZR. lra. }
  repeat split; [eapply FL|eapply CE|eapply FL|eapply CE|eapply FL|eapply CE]; eauto; lra.
Qed.

Lemma combine_map_eq {A B C D} (f : A -> C) (g : B -> D) : forall a b,
  combine (map f a) (map g b) = map (fun ab => (f (fst ab), g (snd ab))) (combine a b).
Proof. induction a as [|x a IH]; intros [|y b]; simpl; f_equal; auto. Qed.
Lemma combine_app {A B} : forall (a : list A) (b : list B) a' b', length a = length b ->
  combine (a ++ a') (b ++ b') = combine a b ++ combine a' b'.
Proof. induction a as [|x a IH]; intros [|y b] a' b' L; simpl in *; try discriminate; f_equal; auto. Qed.

(** The block as a list of (position, species) pairs. *)
Lemma block_pairs g ext : well_formed g ->
  length (fst (block_atoms g ext)) = length (snd (block_atoms g ext)) /\
  combine (fst (block_atoms g ext)) (snd (block_atoms g ext)) =
  flat_map (fun n => map (fun fz => (lattice_site (sbases (g_voxel g)) (vo_origin (g_voxel g)) n (fst fz), snd fz))
                         (cell_sites g)) (cells (fst ext) (snd ext)).
Proof.
  intros [L _]. unfold block_atoms, cell_sites. cbn [fst snd].
  set (fr := st_frac (g_structure g)) in *. set (nu := st_numbers (g_structure g)) in *.
  induction (cells (fst ext) (snd ext)) as [|n cs [IH1 IH2]]; cbn [flat_map]; [auto|].
  split.
  - rewrite !app_length, !map_length, L, IH1. reflexivity.
  - rewrite combine_app by (rewrite !map_length; auto). rewrite IH2. f_equal.
    rewrite combine_map_eq. apply map_ext. intros [f z]. cbn [fst snd]. rewrite site_pos_spec. f_equal.
Qed.

(** supply_atoms of an unstrained crystal without post transform succeeds. *)
Lemma crystal_supply_plain mk c g box :
  well_formed g -> box <> [] -> g_strain g = None -> g_post g = None ->
  exists lo hi, get_extents (g_voxel g) box = Ok (lo, hi) /\
    crystal_supply mk c g box = Ok (c, g, block_atoms g (lo, hi)).
Proof.
  intros [L Hd] Hb HS HP. destruct (get_extents_Ok (g_voxel g) box Hd Hb) as (e & es & _ & HE).
  do 2 eexists. split; [exact HE|]. unfold crystal_supply. rewrite HE. cbn [bind]. rewrite HS, HP. reflexivity.
Qed.

Lemma mv_inj m a b : det m <> 0 -> mv m a = mv m b -> a = b.
Proof. intros H E. rewrite <- (mv_minv_l m a), <- (mv_minv_l m b), E; auto. Qed.

Lemma nth_error_NoDup {A} (l : list A) :
  (forall i j x, nth_error l i = Some x -> nth_error l j = Some x -> i = j) -> NoDup l.
Proof.
  induction l as [|a l IH]; intros H; constructor.
  - intros Hin. apply In_nth_error in Hin as [k Hk]. specialize (H 0%nat (S k) a eq_refl Hk). discriminate.
  - apply IH. intros i j x Hi Hj. specialize (H (S i) (S j) x Hi Hj). congruence.
Qed.

Lemma NoDup_map_on {A B} (f : A -> B) l :
  (forall x y, In x l -> In y l -> f x = f y -> x = y) -> NoDup l -> NoDup (map f l).
Proof.
  intros Hf. induction 1 as [|x l Hx HN IH]; simpl; constructor.
  - intros Hin. apply in_map_iff in Hin as (y & E & Hy). apply Hx. rewrite (Hf x y); simpl; auto.
  - apply IH. intros; apply Hf; simpl; auto.
Qed.

(** positions of a block are pairwise different *)
Lemma block_NoDup g cs : well_formed g -> distinct_mod_lattice (st_frac (g_structure g)) -> NoDup cs ->
  NoDup (flat_map (fun n => map (lattice_site (sbases (g_voxel g)) (vo_origin (g_voxel g)) n) (st_frac (g_structure g))) cs).
Proof.
  intros [_ Hd] HD HN. set (S0 := sbases (g_voxel g)) in *. set (o := vo_origin (g_voxel g)). set (fs := st_frac (g_structure g)) in *.
  assert (EQ : forall n m f f', lattice_site S0 o n f = lattice_site S0 o m f' ->
    exists a b c, vsub f f' = zvec a b c /\ (f = f' -> n = m)).
  { intros [[a b] c] [[a' b'] c'] f f' E. unfold lattice_site in E.
    assert (E' : mv S0 (vadd (zvec a b c) f) = mv S0 (vadd (zvec a' b' c') f')).
    { rewrite <- (vsub_vadd (mv S0 (vadd (zvec a b c) f)) o), E, vsub_vadd. reflexivity. }
    apply mv_inj in E'; auto. exists (a' - a)%Z, (b' - b)%Z, (c' - c)%Z.
    unfold zvec, vadd in E'. cbn in E'. inversion E' as [[X Y Z0]]. split.
    - unfold zvec, vsub. rewrite !minus_IZR. apply vec_eq; cbn; lra.
    - intros ->. assert (IZR a = IZR a') by lra. assert (IZR b = IZR b') by lra. assert (IZR c = IZR c') by lra.
      apply eq_IZR in H, H0, H1. congruence. }
  assert (FN : NoDup fs).
  { apply nth_error_NoDup. intros i j x Hi Hj. apply (HD i j x x 0%Z 0%Z 0%Z Hi Hj). unfold zvec. vring. }
  apply NoDup_flat_map; auto.
  - intros n _. apply NoDup_map_on; auto. intros f f' Hf Hf' E.
    destruct (EQ _ _ _ _ E) as (a & b & c & E1 & _).
    apply In_nth_error in Hf as [i Hi]. apply In_nth_error in Hf' as [j Hj].
    rewrite (HD i j f f' a b c Hi Hj E1) in Hi. congruence.
  - intros n m z _ _ H1 H2. apply in_map_iff in H1 as (f & <- & Hf). apply in_map_iff in H2 as (f' & E & Hf').
    destruct (EQ _ _ _ _ E) as (a & b & c & E1 & E2).
    apply In_nth_error in Hf as [i Hi]. apply In_nth_error in Hf' as [j Hj].
    assert (j = i) by (eapply (HD j i f' f a b c); eauto). subst j. rewrite Hi in Hj. inversion Hj; subst.
    symmetry. auto.
Qed.
