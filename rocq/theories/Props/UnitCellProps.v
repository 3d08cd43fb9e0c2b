(** Crystals given by a unit cell: C113. *)
From Coq Require Import Reals List ZArith Bool Lra Lia Psatz.
From Verif.Model Require Import Base Vec Voxel Strain Generator.
From Verif.Spec Require Import Geometry CrystalSpec.
From Verif.Proofs Require Import VecFacts GenFacts.
From Verif.Props Require Import GeneratorProps.
Import ListNotations.
Open Scope R_scope.

(** The crystal repeats along three edge vectors of the requested lengths, with the
    requested angles (in degrees) between them. *)
Definition repeats (C : vec -> Z -> Prop) (e : vec) : Prop := forall p z, C p z <-> C (vadd p e) z.
Definition has_cell (C : vec -> Z -> Prop) (dims angs : vec) : Prop := exists a b c,
  repeats C a /\ repeats C b /\ repeats C c /\
  norm a = vx dims /\ norm b = vy dims /\ norm c = vz dims /\
  dot b c = vy dims * vz dims * cos (vx angs * PI / 180) /\
  dot a c = vx dims * vz dims * cos (vy angs * PI / 180) /\
  dot a b = vx dims * vy dims * cos (vz angs * PI / 180).

Lemma rad90 : rad 90 = PI / 2. Proof. unfold rad. field. Qed.
Lemma rad120 : rad 120 = 2 * (PI / 3). Proof. unfold rad. field. Qed.
Lemma lattice_orthogonal dims : lattice_from_parameters dims (mkV 90 90 90) =
  mkM (mkV (vx dims) 0 0) (mkV 0 (vy dims) 0) (mkV 0 0 (vz dims)).
Proof.
  unfold lattice_from_parameters. cbn [vx vy vz]. rewrite !rad90, !cos_PI2, !sin_PI2.
  replace ((0 * 0 - 0) / (1 * 1)) with 0 by field. rewrite Rmin_right, Rmax_right by lra.
  rewrite acos_0, cos_PI2, sin_PI2. apply mat_eq; apply vec_eq; cbn; ring.
Qed.
Lemma site_step B o n f p sites z i : (i < 3)%nat ->
  let e := mv B (match i with 0%nat => mkV 1 0 0 | 1%nat => mkV 0 1 0 | _ => mkV 0 0 1 end) in
  In (f, z) sites -> p = lattice_site B o n f -> crystal_atom B o sites (vadd p e) z /\ crystal_atom B o sites (vsub p e) z.
Proof.
  intros Hi e Hf ->. destruct n as [[a b] c].
  assert (Z1 : forall k, IZR (k + 1) = IZR k + 1) by (intros; rewrite plus_IZR; ring).
  assert (Z2 : forall k, IZR (k - 1) = IZR k - 1) by (intros; rewrite minus_IZR; ring).
  destruct i as [|[|[|i]]]; [| | |lia]; (split;
    [eexists (_, _, _), f; split; [exact Hf|]|eexists (_, _, _), f; split; [exact Hf|]]).
  all: unfold e, lattice_site, zvec.
  1: instantiate (3 := (a + 1)%Z); instantiate (2 := b); instantiate (1 := c); rewrite Z1; destruct B as [[] [] []], f, o; apply vec_eq; vunfold; cbn; ring.
  1: instantiate (3 := (a - 1)%Z); instantiate (2 := b); instantiate (1 := c); rewrite Z2; destruct B as [[] [] []], f, o; apply vec_eq; vunfold; cbn; ring.
  1: instantiate (3 := a); instantiate (2 := (b + 1)%Z); instantiate (1 := c); rewrite Z1; destruct B as [[] [] []], f, o; apply vec_eq; vunfold; cbn; ring.
  1: instantiate (3 := a); instantiate (2 := (b - 1)%Z); instantiate (1 := c); rewrite Z2; destruct B as [[] [] []], f, o; apply vec_eq; vunfold; cbn; ring.
  1: instantiate (3 := a); instantiate (2 := b); instantiate (1 := (c + 1)%Z); rewrite Z1; destruct B as [[] [] []], f, o; apply vec_eq; vunfold; cbn; ring.
  1: instantiate (3 := a); instantiate (2 := b); instantiate (1 := (c - 1)%Z); rewrite Z2; destruct B as [[] [] []], f, o; apply vec_eq; vunfold; cbn; ring.
Qed.
Lemma columns_repeat B o sites i : (i < 3)%nat ->
  repeats (crystal_atom B o sites) (mv B (match i with 0%nat => mkV 1 0 0 | 1%nat => mkV 0 1 0 | _ => mkV 0 0 1 end)).
Proof.
  intros Hi p z. split.
  - intros (n & f & Hf & E). eapply (site_step B o n f p sites z i); eauto.
  - intros (n & f & Hf & E). assert (X := proj2 (site_step B o n f _ sites z i Hi Hf E)).
    replace (vsub (vadd p _) _) with p in X by vring. exact X.
Qed.

(** The whole lattice is given by the columns of the cell matrix. *)
Lemma unit_cell_gen zs coords dims angs st o g : from_unit_cell zs coords dims angs st o = Ok g ->
  length zs = length coords /\ basis_of g = lattice_from_parameters dims angs /\
  cell_sites g = combine coords zs /\ origin_of g = match o with Some o => o | None => v0 end /\ g_strain g = st.
Proof.
  unfold from_unit_cell. destruct (Nat.eqb_spec (length zs) (length coords)); [|discriminate]. cbn [negb].
  unfold new_crystal, set_structure, new_voxel. cbn [st_matrix]. destruct (check_bases _) as [b|] eqn:E; [|discriminate].
  cbn [bind]. intros H. inversion H; subst g. clear H.
  assert (b = lattice_from_parameters dims angs) as ->.
  { unfold check_bases in E. destruct (collinear _ _); [discriminate|]. destruct (collinear _ _); [discriminate|]. destruct (collinear _ _); [discriminate|]. congruence. }
  split; [auto|]. split; [destruct o; unfold sbases; cbn; apply mscale_1|]. split; [reflexivity|]. split; [destruct o; reflexivity|reflexivity].
Qed.

(** True for right angles: any edge lengths, any atoms, any origin. *)
Theorem C113_orthogonal_partial : forall zs coords dims st o,
  0 < vx dims -> 0 < vy dims -> 0 < vz dims -> length zs = length coords ->
  exists g, from_unit_cell zs coords dims (mkV 90 90 90) st o = Ok g /\
    has_cell (crystal_atom (basis_of g) (origin_of g) (cell_sites g)) dims (mkV 90 90 90).
Proof.
  intros zs coords [a b c] st o Ha Hb Hc HL. cbn [vx vy vz] in *.
  assert (D : det (mkM (mkV a 0 0) (mkV 0 b 0) (mkV 0 0 c)) <> 0).
  { vunfold. replace (a * (b * c - 0 * 0) + 0 * (0 * 0 - 0 * c) + 0 * (0 * 0 - b * 0)) with (a * b * c) by ring.
    apply Rgt_not_eq, Rlt_gt. apply Rmult_lt_0_compat; [apply Rmult_lt_0_compat|]; auto. }
  destruct (from_unit_cell zs coords (mkV a b c) (mkV 90 90 90) st o) as [g|e] eqn:E.
  2:{ exfalso. unfold from_unit_cell in E. rewrite HL, Nat.eqb_refl in E. cbn [negb] in E.
      unfold new_crystal, set_structure, new_voxel in E. cbn [st_matrix] in E. rewrite lattice_orthogonal in E. cbn [vx vy vz] in E.
      rewrite (check_bases_det _ D) in E. discriminate. }
  exists g. split; [reflexivity|]. destruct (unit_cell_gen _ _ _ _ _ _ _ E) as (_ & EB & _). rewrite EB, lattice_orthogonal. cbn [vx vy vz].
  set (B := mkM _ _ _).
  assert (NX : forall x u, 0 < x -> dot u u = x * x -> norm u = x).
  { intros x u Hx Hu. unfold norm. rewrite Hu. apply sqrt_square. lra. }
  assert (C90 : cos (90 * PI / 180) = 0) by (replace (90 * PI / 180) with (PI / 2) by field; apply cos_PI2).
  exists (mv B (mkV 1 0 0)), (mv B (mkV 0 1 0)), (mv B (mkV 0 0 1)).
  split; [apply (columns_repeat B _ _ 0); lia|]. split; [apply (columns_repeat B _ _ 1); lia|]. split; [apply (columns_repeat B _ _ 2); lia|].
  cbn [vx vy vz]. rewrite C90.
  split; [apply NX; auto; unfold B; vunfold; cbn; ring|]. split; [apply NX; auto; unfold B; vunfold; cbn; ring|].
  split; [apply NX; auto; unfold B; vunfold; cbn; ring|].
  repeat split; unfold B; vunfold; cbn; ring.
Qed.

(** The hexagonal cell: the rows of pymatgen's matrix are used as if they were columns. *)
Lemma lattice_hexagonal c : lattice_from_parameters (mkV 1 1 c) (mkV 90 90 120) =
  mkM (mkV 1 0 0) (mkV (-1/2) (sqrt 3 / 2) 0) (mkV 0 0 c).
Proof.
  unfold lattice_from_parameters. cbn [vx vy vz]. rewrite !rad90, !cos_PI2, !sin_PI2, rad120, cos_2PI3.
  replace ((0 * 0 - -1/2) / (1 * 1)) with (1 / 2) by field. rewrite Rmin_right, Rmax_right by lra.
  replace (acos (1 / 2)) with (PI / 3). 2:{ rewrite <- cos_PI3 at 1. symmetry. apply acos_cos. pose proof PI_RGT_0. lra. }
  rewrite cos_PI3, sin_PI3. apply mat_eq; apply vec_eq; cbn; field.
Qed.
Theorem C113_hexagonal_refuted : exists g, from_unit_cell [6%Z] [v0] (mkV 1 1 10) (mkV 90 90 120) None None = Ok g /\
  let C := crystal_atom (basis_of g) (origin_of g) (cell_sites g) in
  (forall p q z z', C p z -> C q z' -> dist p q <> 1) /\ ~ has_cell C (mkV 1 1 10) (mkV 90 90 120).
Proof.
  assert (S3 : sqrt 3 * sqrt 3 = 3) by (apply sqrt_sqrt; lra). assert (P3 : 0 < sqrt 3) by (apply sqrt_lt_R0; lra).
  destruct (from_unit_cell [6%Z] [v0] (mkV 1 1 10) (mkV 90 90 120) None None) as [g|e] eqn:E.
  2:{ exfalso. unfold from_unit_cell in E. cbn [length Nat.eqb negb] in E.
      unfold new_crystal, set_structure, new_voxel in E. cbn [st_matrix] in E. rewrite lattice_hexagonal in E.
      rewrite check_bases_det in E; [discriminate|]. vunfold. nra. }
  exists g. split; [reflexivity|]. destruct (unit_cell_gen _ _ _ _ _ _ _ E) as (_ & EB & ES & EO & _).
  rewrite EB, ES, EO, lattice_hexagonal. cbn zeta.
  assert (NO : forall p q z z', crystal_atom (mkM (mkV 1 0 0) (mkV (-1/2) (sqrt 3 / 2) 0) (mkV 0 0 10)) v0 (combine [v0] [6%Z]) p z ->
    crystal_atom (mkM (mkV 1 0 0) (mkV (-1/2) (sqrt 3 / 2) 0) (mkV 0 0 10)) v0 (combine [v0] [6%Z]) q z' -> dist p q <> 1).
  { intros p q z z' ([[a b] c] & f & Hf & ->) ([[a' b'] c'] & f' & Hf' & ->) HD.
    destruct Hf as [Hf|[]]. destruct Hf' as [Hf'|[]]. inversion Hf; inversion Hf'; subst f f'.
    apply (f_equal (fun x => x * x)) in HD. unfold dist in HD. rewrite norm_sq in HD.
    set (n := (a - a')%Z) in *. set (m := (b - b')%Z) in *. set (k := (c - c')%Z) in *.
    assert (HQ : IZR n * IZR n + (- (1/2) * IZR n + sqrt 3 / 2 * IZR m) * (- (1/2) * IZR n + sqrt 3 / 2 * IZR m) + 100 * (IZR k * IZR k) = 1).
    { rewrite <- (Rmult_1_r 1) at 3. rewrite <- HD. unfold n, m, k. rewrite !minus_IZR. unfold lattice_site, zvec. vunfold. cbn. field. }
    assert (K0 : k = 0%Z).
    { destruct (Z.eq_dec k 0) as [|N]; auto. exfalso. assert (1 <= IZR k * IZR k).
      { rewrite <- mult_IZR. apply IZR_le. nia. }
      pose proof (Rle_0_sqr (IZR n)). pose proof (Rle_0_sqr (- (1/2) * IZR n + sqrt 3 / 2 * IZR m)). unfold Rsqr in *. lra. }
    rewrite K0 in HQ. assert (N2 : (n * n <= 1)%Z).
    { apply le_IZR. rewrite mult_IZR. pose proof (Rle_0_sqr (- (1/2) * IZR n + sqrt 3 / 2 * IZR m)). unfold Rsqr in *. lra. }
    assert (NN : n = 0%Z \/ n = 1%Z \/ n = (-1)%Z) by nia.
    destruct NN as [-> |[-> | ->]].
    - assert (X : 3 * (IZR m * IZR m) = 4).
      { rewrite <- S3. cbn in HQ. lra. }
      rewrite <- mult_IZR, <- mult_IZR in X. apply eq_IZR in X. assert (m * m = 0 \/ m * m = 1 \/ 2 <= m * m)%Z by nia. lia.
    - assert (X : 3 * (IZR m * IZR m) = 1).
      { assert (Y : - (1/2) + sqrt 3 / 2 * IZR m = 0) by (apply Rsqr_0_uniq; unfold Rsqr; cbn in HQ; lra).
        assert (W : sqrt 3 * IZR m = 1) by lra. rewrite <- S3. replace (sqrt 3 * sqrt 3 * (IZR m * IZR m)) with ((sqrt 3 * IZR m) * (sqrt 3 * IZR m)) by ring. rewrite W. ring. }
      rewrite <- mult_IZR, <- mult_IZR in X. apply eq_IZR in X. lia.
    - assert (X : 3 * (IZR m * IZR m) = 1).
      { assert (Y : (1/2) + sqrt 3 / 2 * IZR m = 0) by (apply Rsqr_0_uniq; unfold Rsqr; cbn in HQ; lra).
        assert (W : sqrt 3 * IZR m = -1) by lra. rewrite <- S3. replace (sqrt 3 * sqrt 3 * (IZR m * IZR m)) with ((sqrt 3 * IZR m) * (sqrt 3 * IZR m)) by ring. rewrite W. ring. }
      rewrite <- mult_IZR, <- mult_IZR in X. apply eq_IZR in X. lia. }
  split; [exact NO|]. intros (u & v & w & HU & _ & _ & NU & _).
  assert (C0 : crystal_atom (mkM (mkV 1 0 0) (mkV (-1/2) (sqrt 3 / 2) 0) (mkV 0 0 10)) v0 (combine [v0] [6%Z]) v0 6).
  { exists (0%Z, 0%Z, 0%Z), v0. split; [left; reflexivity|]. unfold lattice_site, zvec. apply vec_eq; vunfold; cbn; ring. }
  apply (NO (vadd v0 u) v0 6%Z 6%Z); [exact (proj1 (HU v0 6%Z) C0)|exact C0|].
  unfold dist. replace (vsub (vadd v0 u) v0) with u by vring. exact NU.
Qed.
(** Whatever the angles, the cell has the right volume, so the number density is right. *)
Theorem C113_volume_partial : forall zs coords dims angs st o g,
  from_unit_cell zs coords dims angs st o = Ok g ->
  0 < vx dims -> 0 < vy dims -> 0 < vz dims ->
  let al := vx angs * PI / 180 in let be := vy angs * PI / 180 in let ga := vz angs * PI / 180 in
  0 < sin al -> 0 < sin be -> - (sin al * sin be) <= cos al * cos be - cos ga <= sin al * sin be ->
  (det (basis_of g)) ^ 2 = (vx dims * vy dims * vz dims) ^ 2 *
    (1 + 2 * cos al * cos be * cos ga - cos al ^ 2 - cos be ^ 2 - cos ga ^ 2).
Proof.
  intros zs coords [a b c] [A B G] st o g H Ha Hb Hc al be ga Sa Sb HR. cbn [vx vy vz] in *.
  destruct (unit_cell_gen _ _ _ _ _ _ _ H) as (_ & EB & _). rewrite EB. clear EB H.
  unfold lattice_from_parameters. cbn [vx vy vz]. unfold rad. fold al be ga.
  assert (SS : 0 < sin al * sin be) by (apply Rmult_lt_0_compat; auto).
  set (v := (cos al * cos be - cos ga) / (sin al * sin be)).
  assert (V : v * (sin al * sin be) = cos al * cos be - cos ga) by (unfold v; field; lra).
  assert (V1 : -1 <= v <= 1) by (split; nra).
  rewrite Rmin_right, Rmax_right by lra. 
  assert (CG : cos (acos v) = v) by (apply cos_acos; lra).
  assert (SG : sin (acos v) ^ 2 = 1 - v ^ 2). { pose proof (sin2_cos2 (acos v)) as X. unfold Rsqr in X. rewrite CG in X. lra. }
  assert (SA : sin al ^ 2 = 1 - cos al ^ 2). { pose proof (sin2_cos2 al) as X. unfold Rsqr in X. lra. }
  assert (SB : sin be ^ 2 = 1 - cos be ^ 2). { pose proof (sin2_cos2 be) as X. unfold Rsqr in X. lra. }
  set (sg := sin (acos v)) in *.
  match goal with |- det ?M ^ 2 = _ => replace (det M) with (a * b * c * (sin be * sin al * sg)) by (vunfold; cbn; ring) end.
  replace ((a * b * c * (sin be * sin al * sg)) ^ 2) with ((a * b * c) ^ 2 * (sin be ^ 2 * sin al ^ 2 * sg ^ 2)) by ring.
  f_equal. rewrite SG.
  replace (sin be ^ 2 * sin al ^ 2 * (1 - v ^ 2)) with (sin be ^ 2 * sin al ^ 2 - (v * (sin al * sin be)) ^ 2) by ring.
  rewrite V, SA, SB. ring.
Qed.
(** The rows of the matrix that the generator stores do have the requested lengths and angles:
    the crystal of the transposed matrix has the cell. *)
Theorem C113_rows_partial : forall zs coords dims angs st o g,
  from_unit_cell zs coords dims angs st o = Ok g ->
  0 < vx dims -> 0 < vy dims -> 0 < vz dims ->
  let al := vx angs * PI / 180 in let be := vy angs * PI / 180 in let ga := vz angs * PI / 180 in
  0 < sin al -> 0 < sin be -> - (sin al * sin be) <= cos al * cos be - cos ga <= sin al * sin be ->
  has_cell (crystal_atom (mt (basis_of g)) (origin_of g) (cell_sites g)) dims angs.
Proof.
  intros zs coords [a b c] [A B G] st o g H Ha Hb Hc al be ga Sa Sb HR. cbn [vx vy vz] in *.
  destruct (unit_cell_gen _ _ _ _ _ _ _ H) as (_ & EB & _). rewrite EB. clear EB H.
  unfold lattice_from_parameters. cbn [vx vy vz]. unfold rad. fold al be ga.
  assert (SS : 0 < sin al * sin be) by (apply Rmult_lt_0_compat; auto).
  set (v := (cos al * cos be - cos ga) / (sin al * sin be)).
  assert (V : v * (sin al * sin be) = cos al * cos be - cos ga) by (unfold v; field; lra).
  assert (V1 : -1 <= v <= 1) by (split; nra).
  rewrite Rmin_right, Rmax_right by lra.
  assert (CG : cos (acos v) = v) by (apply cos_acos; lra).
  assert (SG : sin (acos v) ^ 2 = 1 - v ^ 2). { pose proof (sin2_cos2 (acos v)) as X. unfold Rsqr in X. rewrite CG in X. lra. }
  assert (SA : sin al ^ 2 = 1 - cos al ^ 2). { pose proof (sin2_cos2 al) as X. unfold Rsqr in X. lra. }
  assert (SB : sin be ^ 2 = 1 - cos be ^ 2). { pose proof (sin2_cos2 be) as X. unfold Rsqr in X. lra. }
  rewrite CG. set (sg := sin (acos v)) in *. set (M := mt _).
  assert (NX : forall x u, 0 < x -> dot u u = x * x -> norm u = x).
  { intros x u Hx Hu. unfold norm. rewrite Hu. apply sqrt_square. lra. }
  exists (mv M (mkV 1 0 0)), (mv M (mkV 0 1 0)), (mv M (mkV 0 0 1)).
  split; [apply (columns_repeat M _ _ 0); lia|]. split; [apply (columns_repeat M _ _ 1); lia|]. split; [apply (columns_repeat M _ _ 2); lia|].
  cbn [vx vy vz]. split; [|split; [|split; [|split; [|split]]]].
  - apply NX; auto. transitivity (a * a * (sin be ^ 2 + cos be ^ 2)); [unfold M; vunfold; cbn; ring|rewrite SB; ring].
  - apply NX; auto. transitivity (b * b * (sin al ^ 2 * (v ^ 2 + sg ^ 2) + cos al ^ 2)); [unfold M; vunfold; cbn; ring|rewrite SG, SA; ring].
  - apply NX; auto. unfold M; vunfold; cbn; ring.
  - fold al. unfold M; vunfold; cbn; ring.
  - fold be. unfold M; vunfold; cbn; ring.
  - fold ga. transitivity (a * b * (cos al * cos be - v * (sin al * sin be))); [unfold M; vunfold; cbn; ring|rewrite V; ring].
Qed.
Example C113_nonvacuous : exists g, from_unit_cell [6%Z] [v0] (mkV 1 1 10) (mkV 90 90 120) None None = Ok g /\
  0 < sin (90 * PI / 180) /\ cos (90 * PI / 180) * cos (90 * PI / 180) - cos (120 * PI / 180) = 1 / 2.
Proof.
  destruct C113_hexagonal_refuted as (g & E & _). exists g. split; [exact E|].
  replace (90 * PI / 180) with (PI / 2) by field. replace (120 * PI / 180) with (2 * (PI / 3)) by field.
  rewrite sin_PI2, cos_PI2, cos_2PI3. split; lra.
Qed.

(** Which space group is used: C114.  The tables agree when looking up the symbol of a
    number and then the number of that symbol gives the number back. *)
Definition consistent {S} (tb : sg_tables S) := forall n s, symbol_of tb n = Some s -> number_of tb s = Some n.

(** Given a number only, or a symbol only, that group expands the sites; given neither, or an
    unknown one, the call fails. *)
Theorem C114_single_partial : forall S (tb : sg_tables S) zs coords dims angs st o, consistent tb ->
  (forall n s, symbol_of tb n = Some s -> length zs = length coords ->
     from_spacegroup tb zs coords dims angs (Some n) None st o =
     let '(zs', cs') := expand tb n zs coords in
     new_crystal (mkStruct (lattice_from_parameters dims angs) cs' zs') st o) /\
  (forall s n, number_of tb s = Some n -> length zs = length coords ->
     from_spacegroup tb zs coords dims angs None (Some s) st o =
     let '(zs', cs') := expand tb n zs coords in
     new_crystal (mkStruct (lattice_from_parameters dims angs) cs' zs') st o) /\
  (exists e, from_spacegroup tb zs coords dims angs None None st o = Err e) /\
  (forall n, symbol_of tb n = None -> exists e, from_spacegroup tb zs coords dims angs (Some n) None st o = Err e) /\
  (forall sgn s, number_of tb s = None -> exists e, from_spacegroup tb zs coords dims angs sgn (Some s) st o = Err e).
Proof.
  intros S tb zs coords dims angs st o HC. unfold from_spacegroup, space_group.
  split; [|split; [|split; [|split]]].
  - intros n s Hs HL. rewrite Hs. cbn [bind]. rewrite (HC _ _ Hs). cbn [bind]. rewrite HL, Nat.eqb_refl. reflexivity.
  - intros s n Hs HL. cbn [bind]. rewrite Hs. cbn [bind]. rewrite HL, Nat.eqb_refl. reflexivity.
  - eexists. reflexivity.
  - intros n Hn. rewrite Hn. eexists. reflexivity.
  - intros sgn s Hs. cbn [bind]. rewrite Hs. eexists. reflexivity.
Qed.
(** With both, the number is ignored. *)
Theorem C114_symbol_wins : forall S (tb : sg_tables S) zs coords dims angs sgn s st o,
  from_spacegroup tb zs coords dims angs sgn (Some s) st o = from_spacegroup tb zs coords dims angs None (Some s) st o.
Proof. reflexivity. Qed.

(** Space groups 1 (P1) and 2 (P-1), with their site expansions. *)
Definition triclinic : sg_tables bool := mkTables bool
  (fun n => if Z.eqb n 1 then Some false else if Z.eqb n 2 then Some true else None)
  (fun s => Some (if s then 2%Z else 1%Z))
  (fun n zs cs => if Z.eqb n 1 then (zs, cs) else (zs ++ zs, cs ++ map (vscale (-1)) cs)).
Lemma triclinic_consistent : consistent triclinic.
Proof.
  intros n s. cbn. destruct (Z.eqb_spec n 1) as [->|]; [intros H; inversion H; reflexivity|].
  destruct (Z.eqb_spec n 2) as [->|]; [intros H; inversion H; reflexivity|discriminate].
Qed.
(** "sym [...] Overriden by sgn, if both supplied" *)
Theorem C114_number_overrides_refuted : exists S (tb : sg_tables S) zs coords dims angs n s g g' p z,
  consistent tb /\ symbol_of tb n <> None /\
  from_spacegroup tb zs coords dims angs (Some n) None None None = Ok g /\
  from_spacegroup tb zs coords dims angs (Some n) (Some s) None None = Ok g' /\
  crystal_atom (basis_of g) (origin_of g) (cell_sites g) p z /\
  forall z', ~ crystal_atom (basis_of g') (origin_of g') (cell_sites g') p z'.
Proof.
  set (f := mkV (1/4) 0 0).
  assert (CB : check_bases (lattice_from_parameters (mkV 1 1 1) (mkV 90 90 90)) = Ok mI).
  { rewrite lattice_orthogonal. rewrite check_bases_det; [reflexivity|]. vunfold. cbn. lra. }
  exists bool, triclinic, [6%Z], [f], (mkV 1 1 1), (mkV 90 90 90), 2%Z, false.
  eexists. eexists. exists (vscale (-1) f), 6%Z.
  split; [apply triclinic_consistent|]. split; [discriminate|].
  unfold from_spacegroup, space_group, new_crystal, set_structure, new_voxel. cbn [bind symbol_of number_of triclinic Z.eqb Pos.eqb length Nat.eqb negb expand app map st_matrix].
  rewrite CB. cbn [bind]. split; [reflexivity|]. split; [reflexivity|].
  unfold basis_of, origin_of, cell_sites, sbases. cbn [g_voxel g_structure st_frac st_numbers combine vo_bases vo_scale vo_origin].
  cbn [vo_bases vo_scale]. rewrite !mscale_1. split.
  - exists (0%Z, 0%Z, 0%Z), (vscale (-1) f). split; [right; left; f_equal; apply vec_eq; cbn; ring|].
    unfold lattice_site, zvec, f. apply vec_eq; vunfold; cbn; lra.
  - intros z' ([[a b] c] & f' & [Hf|[]] & E). inversion Hf; subst f' z'.
    apply (f_equal vx) in E. unfold lattice_site, zvec, f, mv, mI, vadd, dot in E. cbn in E.
    assert (X : IZR (2 * a) = IZR (-1)) by (rewrite mult_IZR; lra). apply eq_IZR in X. lia.
Qed.
Example C114_nonvacuous : exists n s, consistent triclinic /\ symbol_of triclinic n = Some s /\ number_of triclinic s = Some n.
Proof. pose proof triclinic_consistent as C. exists 2%Z. eexists. split; [exact C|]. split; [reflexivity|]. apply C. reflexivity. Qed.
