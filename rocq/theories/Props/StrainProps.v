(** Writing a strain matrix (C107) and placing a generator in a volume (C108). *)
From Coq Require Import Reals List Bool ZArith Lra Lia String.
From Verif.Model Require Import Base Vec Voxel Strain Generator Algebraic Volume.
From Verif.Spec Require Import Geometry CrystalSpec StrainSpec.
From Verif.Proofs Require Import VecFacts.
From Verif.Props Require Import BoxProps GeneratorProps.
Import ListNotations.
Open Scope R_scope.

(* ------------------------------------------------------------------ *)
(** * C107: the numbers given for a homogeneous strain *)

(** Points move by the tensor t about the field's origin: their displacements in
    standard mode, their fractional coordinates in crystal mode. *)
Definition acts_as (h : hstrain) (t : nat -> nat -> R) : Prop := forall pts,
  (hs_mode h <> "crystal"%string -> exists qs, apply_strain h pts = Ok qs /\
     Forall2 (fun p q => tensor_on t (vsub p (hs_origin h)) (vsub q (hs_origin h))) pts qs) /\
  (forall B, hs_mode h = "crystal"%string -> hs_bases h = Some B -> det B <> 0 ->
     exists qs, apply_strain h pts = Ok qs /\
     Forall2 (fun p q => exists f f', vsub p (hs_origin h) = mv B f /\ vsub q (hs_origin h) = mv B f' /\
                                     tensor_on t f f') pts qs).
(** everything but the matrix *)
Definition same_field (h h' : hstrain) : Prop :=
  hs_origin h' = hs_origin h /\ hs_generator_origin h' = hs_generator_origin h /\
  hs_mode h' = hs_mode h /\ hs_bases h' = hs_bases h.

Lemma Forall2_map_self {A B} (P : A -> B -> Prop) f l : (forall x, P x (f x)) -> Forall2 P l (map f l).
Proof. intros H. induction l; cbn; constructor; auto. Qed.
Lemma vm_tensor (t : nat -> nat -> R) d M : (forall i j, (i < 3)%nat -> (j < 3)%nat ->
    coord (match i with 0%nat => r0 M | 1%nat => r1 M | _ => r2 M end) j = t i j) -> tensor_on t d (vm d M).
Proof.
  intros H j Hj.
  assert (H0 := H 0%nat j ltac:(lia) Hj). assert (H1 := H 1%nat j ltac:(lia) Hj). assert (H2 := H 2%nat j ltac:(lia) Hj).
  cbn in H0, H1, H2. rewrite <- H0, <- H1, <- H2. destruct d, M as [[] [] []]. destruct j as [|[|[|j]]]; [| | |lia]; unfold vm, mv, mt, dot; cbn; ring.
Qed.
Lemma matrix_acts h t : (forall i j, (i < 3)%nat -> (j < 3)%nat ->
    coord (match i with 0%nat => r0 (hs_matrix h) | 1%nat => r1 (hs_matrix h) | _ => r2 (hs_matrix h) end) j = t i j) ->
  acts_as h t.
Proof.
  intros H pts. split.
  - intros Hm. unfold apply_strain. rewrite (proj2 (String.eqb_neq _ _) Hm). eexists. split; [reflexivity|].
    apply Forall2_map_self. intros p. rewrite vsub_vadd. apply vm_tensor; auto.
  - intros B Hm HB HD. unfold apply_strain. rewrite (proj2 (String.eqb_eq _ _) Hm), HB. unfold inv.
    rewrite (proj2 (Reqb_false _ _) HD). cbn [bind]. eexists. split; [reflexivity|].
    apply Forall2_map_self. intros p. exists (mv (minv B) (vsub p (hs_origin h))), (vm (mv (minv B) (vsub p (hs_origin h))) (hs_matrix h)).
    rewrite mv_minv_r by auto. split; [reflexivity|]. split; [|apply vm_tensor; auto].
    rewrite vsub_vadd. unfold vm at 1 3. rewrite !mt_mt. reflexivity.
Qed.
Lemma squeeze_axes s : long_axes s (squeeze s).
Proof.
  induction s as [|n s IH]; cbn; [constructor|]. destruct (Nat.eqb_spec n 1); cbn; subst; constructor; auto.
Qed.
Lemma long_axes_det s d d' : long_axes s d -> long_axes s d' -> d = d'.
Proof. intros H. revert d'. induction H; intros d' H'; inversion H'; subst; try congruence; auto. f_equal; auto. Qed.

(** C107.  The constructor and the setter read three numbers as the diagonal of the
    tensor, six as Voigt's xx yy zz yz xz xy and nine (in a row or 3x3) as its rows,
    whatever axes of length one surround them, and points then move by that tensor;
    nothing else of the field changes. *)
Theorem C107_notation : forall h a axes t, long_axes (a_shape a) axes -> tensor (at_ a) axes t ->
  exists h', set_strain_matrix h a = (h', Ok tt) /\ same_field h h' /\ acts_as h' t.
Proof.
  intros h a axes t HA HT. assert (E := long_axes_det _ _ _ (squeeze_axes (a_shape a)) HA).
  unfold set_strain_matrix, strain_arg_of. rewrite E.
  inversion HT; subst; cbn [strain_matrix]; eexists; (split; [reflexivity|]); (split; [repeat split|]);
    apply matrix_acts; cbn [hs_matrix]; intros i j Hi Hj;
    (destruct i as [|[|[|i]]]; [| | |lia]); (destruct j as [|[|[|j]]]; [| | |lia]); reflexivity.
Qed.
Theorem C107_constructed : forall a axes t origin mode, long_axes (a_shape a) axes -> tensor (at_ a) axes t ->
  exists h, new_hstrain (Some (strain_arg_of a)) origin mode = Ok h /\
    hs_mode h = mode /\ acts_as h t /\ forall v, acts_as (scrape_params h v) t /\
    hs_origin (scrape_params h v) = match origin with Some o => o | None => vo_origin v end.
Proof.
  intros a axes t origin mode HA HT. assert (E := long_axes_det _ _ _ (squeeze_axes (a_shape a)) HA).
  unfold new_hstrain, strain_arg_of. rewrite E.
  inversion HT; subst; cbn [strain_matrix bind]; unfold set_mode; rewrite orb_true_r; eexists; (split; [reflexivity|]);
    (split; [reflexivity|]); (split; [|intros v; split; [|destruct origin; reflexivity]]);
    apply matrix_acts; cbn [hs_matrix scrape_params]; intros i j Hi Hj;
    (destruct i as [|[|[|i]]]; [| | |lia]); (destruct j as [|[|[|j]]]; [| | |lia]); reflexivity.
Qed.
(** Any other shape is refused with ValueError and the field keeps its matrix. *)
Theorem C107_refused : forall h a axes, long_axes (a_shape a) axes -> (forall t, ~ tensor (at_ a) axes t) ->
  set_strain_matrix h a = (h, Err ValueError) /\
  (forall origin mode, new_hstrain (Some (strain_arg_of a)) origin mode = Err ValueError).
Proof.
  intros h a axes HA HT. assert (E := long_axes_det _ _ _ (squeeze_axes (a_shape a)) HA).
  assert (X : strain_arg_of a = StBad).
  { unfold strain_arg_of. rewrite E.
    destruct axes as [|n [|m [|]]]; try reflexivity.
    - destruct n as [|[|[|[|[|[|[|[|[|[|]]]]]]]]]]; try reflexivity; exfalso; eapply HT; constructor.
    - destruct n as [|[|[|[|[|[|[|[|[|[|]]]]]]]]]]; try reflexivity;
        destruct m as [|[|[|[|]]]]; try reflexivity; exfalso; eapply HT; constructor.
    - destruct n as [|[|[|[|[|[|[|[|[|[|]]]]]]]]]]; try reflexivity;
        destruct m as [|[|[|[|]]]]; reflexivity. }
  unfold set_strain_matrix. rewrite X. split; reflexivity.
Qed.
(** After any sequence of assignments, some of them refused, the field acts by the last
    accepted one. *)
Theorem C107_history : forall before a after axes t h0,
  long_axes (a_shape a) axes -> tensor (at_ a) axes t ->
  (forall b ax t', In b after -> long_axes (a_shape b) ax -> ~ tensor (at_ b) ax t') ->
  let h := fold_left (fun h b => fst (set_strain_matrix h b)) (before ++ a :: after) h0 in
  acts_as h t /\ same_field h0 h.
Proof.
  intros before a after axes t h0 HA HT HN. cbn zeta. rewrite fold_left_app. cbn [fold_left].
  assert (S0 : forall l h, same_field h (fold_left (fun h b => fst (set_strain_matrix h b)) l h)).
  { induction l as [|b l IH]; intros h; cbn; [repeat split|].
    assert (X := IH (fst (set_strain_matrix h b))). unfold same_field in *. destruct X as (-> & -> & -> & ->).
    unfold set_strain_matrix. destruct (strain_matrix _); repeat split. }
  assert (S1 := S0 before h0). set (h1 := fold_left _ before h0) in *.
  destruct (C107_notation h1 a axes t HA HT) as (h2 & E & S2 & A2). rewrite E. cbn [fst].
  assert (X : fold_left (fun h b => fst (set_strain_matrix h b)) after h2 = h2).
  { clear - HN. induction after as [|b l IH]; [reflexivity|]. cbn [fold_left].
    destruct (C107_refused h2 b (squeeze (a_shape b)) (squeeze_axes _)) as [Eb _].
    { intros t'. apply HN; [left; auto|apply squeeze_axes]. }
    rewrite Eb. cbn [fst]. apply IH. intros. apply HN; auto. right; auto. }
  rewrite X. split; [auto|]. unfold same_field in *. destruct S1 as (<- & <- & <- & <-), S2 as (-> & -> & -> & ->). repeat split.
Qed.
(** A shear of x by y written in Voigt's notation as a 1x6 array, about the origin. *)
Example C107_nonvacuous : let a := mkArr [1%nat; 6%nat] [1; 1; 1; 0; 0; 1/2] in
  exists t h, long_axes (a_shape a) [6%nat] /\ tensor (at_ a) [6%nat] t /\
    new_hstrain (Some (strain_arg_of a)) (Some v0) "standard" = Ok h /\
    apply_strain h [mkV 0 2 3] = Ok [mkV 1 2 3] /\
    (forall t', ~ tensor (at_ (mkArr [4%nat] [1; 2; 3; 4])) [4%nat] t').
Proof.
  eexists _, _. split; [repeat constructor; lia|]. split; [constructor|].
  split; [reflexivity|]. split; [|intros t' H; inversion H].
  cbn. unfold at_. cbn. f_equal. f_equal. vunfold. cbn. apply vec_eq; cbn; lra.
Qed.

(* ------------------------------------------------------------------ *)
(** * C108: the origin of a volume's generator *)

Lemma crystal_atom_shift B o o' sites p z :
  crystal_atom B o' sites p z <-> crystal_atom B o sites (vsub p (vsub o' o)) z.
Proof.
  split; intros ([[a b] c] & f & Hf & E); exists (a, b, c), f; (split; [auto|]); cbn [lattice_site] in *.
  - rewrite E. generalize (mv B (vadd (zvec a b c) f)). intros. vring.
  - assert (X : p = vadd (vsub p (vsub o' o)) (vsub o' o)) by vring. rewrite X, E.
    generalize (mv B (vadd (zvec a b c) f)). intros. vring.
Qed.

(** C108.  Placing a crystal in a volume with an origin gives the volume the same crystal
    moved rigidly so that its origin is the given point: an atom p is one of the
    volume's crystal exactly if p minus the move is one of the given generator's.
    Nothing else of the volume changes. *)
Theorem C108_origin : forall l g o,
  exists l' g', add_generator l (GCrystal g) (Some o) = Ok l' /\ l_gen l' = Some (GCrystal g') /\
    origin_of g' = o /\ basis_of g' = basis_of g /\ g_strain g' = g_strain g /\ g_post g' = g_post g /\
    (well_formed g -> well_formed g') /\ g_structure g' = g_structure g /\
    (forall p z, crystal_atom (basis_of g') (origin_of g') (cell_sites g') p z <->
                 crystal_atom (basis_of g) (origin_of g) (cell_sites g) (vsub p (vsub o (origin_of g))) z) /\
    l_points l' = l_points l /\ l_alg l' = l_alg l /\ l_prio l' = l_prio l /\ l_tol l' = l_tol l /\ l_atoms l' = l_atoms l.
Proof.
  intros l g o. eexists _, _. split; [reflexivity|]. split; [reflexivity|].
  split; [reflexivity|]. split; [reflexivity|]. split; [reflexivity|]. split; [reflexivity|]. split; [auto|].
  split; [reflexivity|]. split; [|repeat split].
  intros p z. apply (crystal_atom_shift (basis_of g) (origin_of g) o (cell_sites g)).
Qed.
(** Without an origin the volume's crystal is the given one. *)
Theorem C108_no_origin : forall l g, exists l', add_generator l g None = Ok l' /\ l_gen l' = Some g.
Proof. intros l [c|a|]; eexists; (split; [reflexivity|reflexivity]). Qed.
(** Populating the volume then gives the moved crystal's atoms. *)
Theorem C108_populated : forall w c l g o l1 box,
  add_generator l (GCrystal g) (Some o) = Ok l1 ->
  well_formed g -> g_strain g = None -> g_post g = None -> Forall in_cell (st_frac (g_structure g)) ->
  get_bounding_box w l = BArr box -> box <> [] ->
  exists l' ats sps, leaf_populate w c l1 = Ok (c, l') /\ l_atoms l' = Some (ats, sps) /\
    forall p z, in_hull box p ->
      (In (p, z) (combine ats sps) <->
       crystal_atom (basis_of g) (origin_of g) (cell_sites g) (vsub p (vsub o (origin_of g))) z /\ leaf_inside w l p = true).
Proof.
  intros w c l g o l1 box HA WF HS HP HF HB HN. cbn in HA. inversion HA; subst l1; clear HA.
  set (g' := mkCrystal _ _ _ _).
  destruct (C10_crystal_volume_filled w c (with_gen l (Some (GCrystal g'))) g' box) as (l' & ats & sps & H1 & H2 & _ & H3 & H4 & _); auto.
  exists l', ats, sps. split; [auto|]. split; [auto|]. intros p z Hh.
  rewrite <- (crystal_atom_shift (basis_of g) (origin_of g) o (cell_sites g)).
  split.
  - intros HI. destruct (H3 _ _ HI) as [Ha Hi]. split; [exact Ha|exact Hi].
  - intros [Ha Hi]. apply H4; auto.
Qed.
(** For an amorphous generator the origin changes nothing; for empty space it is refused. *)
Theorem C108_others : forall l a o,
  (exists l', add_generator l (GAmorphous a) (Some o) = Ok l' /\ l_gen l' = Some (GAmorphous a)) /\
  add_generator l GNull (Some o) = Err AttributeError.
Proof. intros l a o. split; [eexists; split; reflexivity|reflexivity]. Qed.
(** The example crystal placed at (1, 0, 0) in a ball: the volume has an atom at (1, 0, 0). *)
Example C108_nonvacuous : forall w, exists l1 box,
  add_generator ex_ball (GCrystal ex_crystal) (Some (mkV 1 0 0)) = Ok l1 /\
  well_formed ex_crystal /\ g_strain ex_crystal = None /\ g_post ex_crystal = None /\
  Forall in_cell (st_frac (g_structure ex_crystal)) /\ get_bounding_box w ex_ball = BArr box /\ box <> [] /\
  crystal_atom (basis_of ex_crystal) (origin_of ex_crystal) (cell_sites ex_crystal)
    (vsub (mkV 1 0 0) (vsub (mkV 1 0 0) (origin_of ex_crystal))) 11 /\ leaf_inside w ex_ball (mkV 1 0 0) = true.
Proof.
  intros w. destruct (C13_sphere_box w ex_ball eq_refl) as (b & box & _ & _ & HB & L8 & _).
  { repeat constructor; cbn; lra. }
  { eexists; cbn; eauto. }
  eexists _, box. split; [reflexivity|]. split; [apply ex_wf|]. split; [reflexivity|]. split; [reflexivity|].
  split; [repeat constructor; cbn; lra|]. split; [exact HB|]. split; [intros ->; discriminate|]. split.
  - exists (0%Z, 0%Z, 0%Z), (mkV 0 0 0). split; [cbn; auto|]. apply vec_eq; cbn; unfold dot; cbn; lra.
  - unfold leaf_inside. cbn [ex_ball l_tri l_alg fold_left alg_interior]. unfold sphere_interior.
    cbn. apply Rltb_iff. lra.
Qed.
