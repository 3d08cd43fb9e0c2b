(** Scale of a voxel (C98) and orientation of a molecule (C99). *)
From Coq Require Import Reals List ZArith Bool Lra Lia.
From Verif.Model Require Import Base Vec Transform Voxel Post Generator Molecule.
From Verif.Spec Require Import Geometry CrystalSpec.
From Verif.Proofs Require Import VecFacts VolumeFacts.
From Verif.Props Require Import GeneratorProps TransformProps MoleculeProps.
Import ListNotations.
Open Scope R_scope.

(* ------------------------------------------------------------------ *)
(** * C98: the scale of a voxel *)

(** Assigning a scale keeps bases and origin; a number dilates every site about the
    origin of the voxel, three numbers dilate along the three lattice vectors, a column
    of three numbers along the three coordinate axes. *)
Theorem C98_scale_effect : forall v a v' n f,
  set_scale v a = Ok v' ->
  vo_bases v' = vo_bases v /\ vo_origin v' = vo_origin v /\
  let '(i, j, k) := n in
  let u := vadd (zvec i j k) f in
  let x := vsub (lattice_site (sbases v') (vo_origin v') n f) (vo_origin v') in
  let s q := nth q (a_data a) 0 in
  (a_shape a = [] \/ a_shape a = [1%nat] \/ a_shape a = [1; 1]%nat -> x = vscale (s 0%nat) (mv (vo_bases v) u)) /\
  (a_shape a = [3%nat] \/ a_shape a = [1; 3]%nat ->
     x = mv (vo_bases v) (mkV (s 0%nat * vx u) (s 1%nat * vy u) (s 2%nat * vz u))) /\
  (a_shape a = [3; 1]%nat ->
     x = mkV (s 0%nat * vx (mv (vo_bases v) u)) (s 1%nat * vy (mv (vo_bases v) u)) (s 2%nat * vz (mv (vo_bases v) u))).
Proof.
  intros v a v' [[i j] k] f H.
  assert (E : vo_bases v' = vo_bases v /\ vo_origin v' = vo_origin v).
  { unfold set_scale in H. repeat match type of H with (match ?x with _ => _ end) = _ => destruct x; try discriminate end; inversion H; subst; auto. }
  destruct E as [E1 E2]. split; [exact E1|]. split; [exact E2|]. rewrite E2. cbv zeta. cbn [lattice_site].
  unfold set_scale in H. split; [|split].
  - intros [S|[S|S]]; rewrite S in H; inversion H; subst; unfold sbases, at_; generalize (nth 0 (a_data a) 0); intros; destruct v as [b sc o]; cbn [vo_scale vo_bases vo_origin]; vring.
  - intros [S|S]; rewrite S in H; inversion H; subst; unfold sbases, at_;
      generalize (nth 0 (a_data a) 0) (nth 1 (a_data a) 0) (nth 2 (a_data a) 0); intros; destruct v as [b sc o]; cbn [vo_scale vo_bases vo_origin]; vring.
  - intros S; rewrite S in H; inversion H; subst; unfold sbases, at_;
      generalize (nth 0 (a_data a) 0) (nth 1 (a_data a) 0) (nth 2 (a_data a) 0); intros; destruct v as [b sc o]; cbn [vo_scale vo_bases vo_origin]; vring.
Qed.
(** Exactly the arrays whose sizes are 1 or 3 are accepted; anything else is a ValueError. *)
Theorem C98_scale_accepted : forall v a, (length (a_shape a) <= 2)%nat ->
  ((exists v', set_scale v a = Ok v') <-> Forall (fun d => d = 1%nat \/ d = 3%nat) (a_shape a)) /\
  (forall e, set_scale v a = Err e -> e = ValueError).
Proof.
  intros v a L. unfold set_scale. destruct (a_shape a) as [|d [|d' [|? ?]]]; [| | |cbn in L; lia].
  - split; [split; [auto|eauto]|discriminate].
  - destruct d as [|[|[|[|d]]]]; (split; [split; [intros [v' H]; try discriminate; auto|intros F; inversion F as [|x y [A|A] B]; subst; try discriminate; eauto]|intros e H; inversion H; auto]).
  - assert (Q : forall x y, (x = 1%nat \/ x = 3%nat) /\ (y = 1%nat \/ y = 3%nat) <-> Forall (fun d => d = 1%nat \/ d = 3%nat) [x; y]).
    { intros x y. split; [intros [? ?]; auto|]. intros F. inversion F as [|? ? A B]; subst. inversion B; subst. auto. }
    destruct d as [|[|[|[|d]]]]; destruct d' as [|[|[|[|d']]]]; rewrite <- Q;
      (split; [split; [intros [v' H]; try discriminate; auto|intros [[A|A] [B|B]]; try discriminate; eauto]|intros e H; inversion H; auto]).
Qed.
(** So a crystal whose voxel is scaled by a number supplies the scaled crystal: every
    supplied atom lies on a site of the original crystal, dilated about the origin. *)
Theorem C98_scaled_supply : forall mk draws c g a s v' box c' g' ps zs p z,
  a_shape a = [] \/ a_shape a = [1%nat] -> a_data a = [s] -> s <> 0 -> vo_scale (g_voxel g) = SAll 1 ->
  well_formed g -> g_strain g = None -> g_post g = None -> set_scale (g_voxel g) a = Ok v' ->
  supply_atoms mk draws c (GCrystal (mkCrystal (g_structure g) v' None None)) (BArr box) = Ok (c', g', (ps, zs)) ->
  In (p, z) (combine ps zs) ->
  exists q, crystal_atom (basis_of g) (origin_of g) (cell_sites g) q z /\
    p = vadd (origin_of g) (vscale s (vsub q (origin_of g))).
Proof.
  intros mk draws c g a s v' box c' g' ps zs p z HA HD Hs HSc [HL HDet] HS HP HV HSup HI.
  assert (EV : v' = mkVoxel (vo_bases (g_voxel g)) (SAll s) (vo_origin (g_voxel g))).
  { unfold set_scale, at_ in HV. rewrite HD in HV. destruct HA as [E|E]; rewrite E in HV; inversion HV; reflexivity. }
  subst v'.
  assert (EB : basis_of g = vo_bases (g_voxel g)) by (unfold sbases; rewrite HSc; apply mscale_1).
  set (g2 := mkCrystal (g_structure g) _ None None) in HSup.
  assert (WF2 : well_formed g2).
  { split; [exact HL|]. rewrite EB in HDet. cbn. unfold sbases. cbn [vo_scale vo_bases].
    replace (det (mscale s (vo_bases (g_voxel g)))) with (s * s * s * det (vo_bases (g_voxel g))) by (generalize (vo_bases (g_voxel g)); vring).
    repeat apply Rmult_integral_contrapositive_currified; auto. }
  destruct (C36_supply_sites_once _ _ _ _ _ _ _ _ _ WF2 eq_refl eq_refl HSup) as (_ & _ & O & _).
  destruct (O p z HI) as ([[i j] k] & f & Hf & ->). exists (lattice_site (basis_of g) (origin_of g) (i, j, k) f).
  split; [exists (i, j, k), f; auto|]. rewrite EB. unfold lattice_site. cbn. unfold sbases. cbn [vo_scale vo_bases].
  generalize (vo_bases (g_voxel g)) (vo_origin (g_voxel g)). intros. vring.
Qed.
Example C98_nonvacuous : forall v, exists v', set_scale v (mkArr [1; 3]%nat [1; 2; 3]) = Ok v' /\
  Forall (fun d => d = 1%nat \/ d = 3%nat) [1; 3]%nat /\ set_scale v (mkArr [2%nat] [1; 2]) = Err ValueError /\
  vo_scale (g_voxel ex_crystal) = SAll 1 /\ well_formed ex_crystal.
Proof. intros v. eexists. split; [reflexivity|]. split; [auto|]. split; [reflexivity|]. split; [reflexivity|apply ex_wf]. Qed.

(* ------------------------------------------------------------------ *)
(** * C99: the orientation of a molecule *)

(** A matrix is a rotation up to one part in a million. *)
Definition nearly_rotation (r : mat) : Prop :=
  Rabs (det r - 1) <= / 10 ^ 6 /\
  forall v, (1 - / 10 ^ 6) * dot v v <= dot (mv r v) (mv r v) <= (1 + / 10 ^ 6) * dot v v.
Lemma rotation_near r : rotation r -> Rabs (det r - 1) <= / 10 ^ 6 /\ msumabs (msub (mm r (mt r)) mI) <= / 10 ^ 6.
Proof. intros [H D]. rewrite H, D, msumabs_0. rewrite Rminus_diag_eq by reflexivity. rewrite Rabs_R0. lra. Qed.
Lemma rotation_mI : rotation mI.
Proof. split; [unfold orthogonal|]; vring. Qed.
Lemma orient_near m r m' : set_orientation m r = Ok m' -> nearly_rotation r /\ m_orient m' = r.
Proof.
  unfold set_orientation. intros H. destruct (Rltb _ _) eqn:A; [discriminate|]. destruct (Rltb _ _) eqn:B in H; [discriminate|].
  inversion H; subst. apply Rltb_false in A, B. split; [|reflexivity]. split; [lra|]. apply near_isometry; lra.
Qed.
Lemma orient_step m o : nearly_rotation (m_orient m) -> nearly_rotation (m_orient (fst (mol_step m o))).
Proof.
  intros N. destruct o as [s p|p|s|idx n|t b|p|i|r| |i]; cbn [mol_step].
  - unfold set_atoms. destruct (_ =? _)%nat; exact N.
  - unfold update_positions. destruct (_ =? _)%nat; exact N.
  - unfold update_species. destruct (_ =? _)%nat; exact N.
  - unfold remove_atoms_st. destruct (bind _ _); [|exact N]. destruct (np_delete (m_species m) idx); [|exact N]. cbn [m_atoms].
    destruct (np_delete (m_atoms m) idx); exact N.
  - unfold mol_transform_st, set_atoms. destruct (_ =? _)%nat; [|exact N]. destruct b; [|exact N]. cbn [m_tracking]. destruct (m_tracking m); [exact N|]. destruct (mol_origin _); exact N.
  - exact N.
  - unfold set_origin_idx. destruct i as [z|]; [destruct (_ <? _)%Z|]; exact N.
  - destruct (set_orientation m r) as [m'|e] eqn:E; [|exact N]. cbn. apply orient_near in E as [E ->]. exact E.
  - destruct (reset_orientation m) as [m'|e] eqn:E; [|exact N]. cbn. apply orient_near in E as [E ->]. exact E.
  - destruct i; exact N.
Qed.
(** Whatever calls are made on a molecule, its orientation is a rotation. *)
Theorem C99_orientation_ever : forall s p o r m ops, new_molecule s p o r = Ok m ->
  nearly_rotation (m_orient (history m ops)).
Proof.
  intros s p o r m ops H. assert (N : nearly_rotation (m_orient m)).
  { unfold new_molecule in H. inv_bind H. inv_bind H. destruct r as [R|].
    - apply orient_near in H as [H ->]. exact H.
    - inversion H; subst. unfold set_atoms in Ha. destruct (_ =? _)%nat; [|discriminate]. inversion Ha; subst.
      assert (E : m_orient m = mI). { destruct o; cbn in Ha0; [inversion Ha0; auto| |inversion Ha0; auto]. destruct (_ <? _)%Z; cbn in Ha0; inversion Ha0; auto. }
      rewrite E. destruct (rotation_near mI rotation_mI). split; [assumption|apply near_isometry; assumption]. }
  clear H. revert m N. induction ops as [|op ops IH]; intros m N; cbn; auto. apply IH, orient_step, N.
Qed.
(** Every rotation can be assigned; nothing else about the molecule changes, and a
    rejected matrix changes nothing.  A matrix that is visibly not a rotation is
    rejected. *)
Theorem C99_orientation_assigned : forall m r,
  (rotation r -> exists m', mol_step m (OOrient r) = (m', Ok tt) /\ m_orient m' = r /\
     m_atoms m' = m_atoms m /\ m_species m' = m_species m /\ mol_origin m' = mol_origin m /\ m_prio m' = m_prio m) /\
  (~ nearly_rotation r -> mol_step m (OOrient r) = (m, Err ValueError)) /\
  (exists m', mol_step m OReset = (m', Ok tt) /\ m_orient m' = mI /\ m_atoms m' = m_atoms m /\ m_species m' = m_species m /\
     mol_origin m' = mol_origin m).
Proof.
  intros m r.
  assert (A : forall r, rotation r -> exists m', mol_step m (OOrient r) = (m', Ok tt) /\ m_orient m' = r /\
     m_atoms m' = m_atoms m /\ m_species m' = m_species m /\ mol_origin m' = mol_origin m /\ m_prio m' = m_prio m).
  { clear r. intros r HR. destruct (rotation_near r HR) as [B C]. cbn [mol_step]. unfold set_orientation.
    rewrite (proj2 (Rltb_false _ _)) by lra. rewrite (proj2 (Rltb_false _ _)) by lra. cbn. eexists. split; [reflexivity|]. cbn. auto. }
  split; [apply A|]. split.
  - intros N. cbn [mol_step]. destruct (set_orientation m r) as [m'|e] eqn:E; [exfalso; apply N; apply orient_near in E; apply E|].
    cbn. f_equal. unfold set_orientation in E. destruct (Rltb _ _); [inversion E; auto|]. destruct (Rltb _ _); inversion E; auto.
  - destruct (A mI rotation_mI) as (m' & E & H1 & H2 & H3 & H4 & _). exists m'. cbn [mol_step] in *. unfold reset_orientation. rewrite E. auto.
Qed.
Example C99_nonvacuous : rotation (mkM (mkV 0 (-1) 0) (mkV 1 0 0) (mkV 0 0 1)) /\ ~ nearly_rotation (mscale (-1) mI) /\
  exists m, new_molecule [8; 1]%Z [v0; mkV 1 0 0] ONone (Some (mkM (mkV 0 (-1) 0) (mkV 1 0 0) (mkV 0 0 1))) = Ok m.
Proof.
  assert (R : rotation (mkM (mkV 0 (-1) 0) (mkV 1 0 0) (mkV 0 0 1))) by (split; [unfold orthogonal|]; vring).
  split; [exact R|]. split.
  - intros [D _]. replace (det (mscale (-1) mI)) with (-1) in D by vring. revert D. unfold Rabs. destruct (Rcase_abs _); lra.
  - destruct (rotation_near _ R) as [B C]. unfold new_molecule, set_atoms. cbn [length Nat.eqb bind]. unfold set_orientation.
    rewrite (proj2 (Rltb_false _ _)) by lra. rewrite (proj2 (Rltb_false _ _)) by lra. eexists. reflexivity.
Qed.
