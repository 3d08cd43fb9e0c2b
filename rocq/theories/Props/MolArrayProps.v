(** The arrays given to a molecule: C116. *)
From Coq Require Import Reals List ZArith Bool Lra Lia.
From Flocq Require Import Core.Raux.
From Verif.Model Require Import Base Vec Voxel Transform Molecule.
From Verif.Spec Require Import ArraySpec.
From Verif.Proofs Require Import VecFacts.
Import ListNotations.
Open Scope R_scope.
Local Arguments IZR : simpl never.

Lemma rows3_spec : forall n l, length l = (3 * n)%nat ->
  length (rows3 l) = n /\ forall i, (i < n)%nat -> nth i (rows3 l) v0 = mkV (nth (i * 3 + 0) l 0) (nth (i * 3 + 1) l 0) (nth (i * 3 + 2) l 0).
Proof.
  induction n as [|n IH]; intros l H.
  - destruct l; [|cbn in H; lia]. split; [reflexivity|]. intros i Hi. lia.
  - destruct l as [|a [|b [|c t]]]; cbn in H; try lia. destruct (IH t ltac:(lia)) as [L N]. cbn [rows3]. split; [cbn; lia|].
    intros [|i] Hi; [reflexivity|]. cbn [nth]. rewrite N by lia. f_equal; reflexivity.
Qed.
Lemma reshape3_ok : forall n a, length (a_data a) = (3 * n)%nat -> reshape3 a = Ok (rows3 (a_data a)).
Proof.
  intros n a H. unfold reshape3. rewrite H, Nat.mul_comm, Nat.mod_mul by lia. reflexivity.
Qed.
Lemma int_species_whole a zs : whole a zs -> int_species a = zs.
Proof. intros H. unfold int_species. rewrite H, map_map. transitivity (map (fun z : Z => z) zs); [apply map_ext; intros; apply Ztrunc_IZR|apply map_id]. Qed.

(** N rows of three and N whole numbers are taken as they are; another number of species
    is refused. *)
Theorem C116_rows_partial : forall m species positions n zs,
  proper positions -> a_shape positions = [n; 3%nat] -> whole species zs ->
  (length zs = n -> exists m', set_atoms_arr m species positions = Ok m' /\ m_species m' = zs /\ rows_of positions n (m_atoms m')) /\
  (length zs <> n -> set_atoms_arr m species positions = Err ValueError).
Proof.
  intros m sp po n zs HP HS HW. unfold proper in HP. rewrite HS in HP. cbn in HP.
  assert (L : length (a_data po) = (3 * n)%nat) by lia. destruct (rows3_spec n _ L) as [R1 R2].
  unfold set_atoms_arr. rewrite (reshape3_ok n) by exact L. cbn [bind]. rewrite (int_species_whole _ _ HW). unfold set_atoms. rewrite R1. split; intros H.
  - rewrite H, Nat.eqb_refl. eexists. split; [reflexivity|]. cbn. split; [reflexivity|]. split; [exact R1|exact R2].
  - destruct (Nat.eqb_spec n (length zs)); [congruence|reflexivity].
Qed.
(** The same for update_positions, which also keeps the number of atoms. *)
Theorem C116_update_partial : forall m positions n,
  proper positions -> a_shape positions = [n; 3%nat] ->
  (n = length (m_atoms m) -> exists m', update_positions_arr m positions = Ok m' /\ m_species m' = m_species m /\ rows_of positions n (m_atoms m')) /\
  (n <> length (m_atoms m) -> update_positions_arr m positions = Err ValueError).
Proof.
  intros m po n HP HS. unfold proper in HP. rewrite HS in HP. cbn in HP. assert (L : length (a_data po) = (3 * n)%nat) by lia.
  destruct (rows3_spec n _ L) as [R1 R2]. unfold update_positions_arr. rewrite L. split; intros H.
  - rewrite <- H, Nat.eqb_refl. unfold update_positions. rewrite R1, <- H, Nat.eqb_refl. eexists. split; [reflexivity|]. cbn. split; [reflexivity|]. split; [exact R1|exact R2].
  - destruct (Nat.eqb_spec (3 * n) (3 * length (m_atoms m))); [lia|reflexivity].
Qed.
Theorem C116_species_partial : forall m species zs, whole species zs ->
  (length zs = length (m_species m) -> exists m', update_species_arr m species = Ok m' /\ m_species m' = zs /\ m_atoms m' = m_atoms m) /\
  (length zs <> length (m_species m) -> update_species_arr m species = Err ValueError).
Proof.
  intros m sp zs HW. unfold update_species_arr, update_species. rewrite (int_species_whole _ _ HW). split; intros H.
  - rewrite H, Nat.eqb_refl. eexists. split; [reflexivity|]. auto.
  - destruct (Nat.eqb_spec (length zs) (length (m_species m))); [congruence|reflexivity].
Qed.

(** "Any other shape is refused": a (3, 2) array of two columns is accepted, and neither
    atom is a column of it; a number of 1.9 as species becomes hydrogen. *)
Theorem C116_transposed_refuted : exists m species positions m',
  proper positions /\ a_shape positions = [3; 2]%nat /\ whole species [6; 8]%Z /\
  set_atoms_arr m species positions = Ok m' /\ ~ columns_of positions 2 (m_atoms m') /\ ~ columns_of positions 2 (rev (m_atoms m')).
Proof.
  exists (mkMol [] [] false None None mI 0), (mkArr [2%nat] [6; 8]), (mkArr [3; 2]%nat [0; 1; 2; 3; 4; 5]). eexists.
  split; [reflexivity|]. split; [reflexivity|]. split; [reflexivity|]. split; [cbn; reflexivity|].
  cbn [m_atoms]. split; intros [_ H]; specialize (H 0%nat ltac:(lia)); cbn in H; inversion H; lra.
Qed.
Theorem C116_fraction_refuted : forall m positions, proper positions -> a_shape positions = [1; 3]%nat ->
  exists m', set_atoms_arr m (mkArr [1%nat] [19/10]) positions = Ok m' /\ m_species m' = [1%Z].
Proof.
  intros m po HP HS. unfold proper in HP. rewrite HS in HP. cbn in HP.
  destruct (rows3_spec 1 _ HP) as [R1 _]. unfold set_atoms_arr. rewrite (reshape3_ok 1) by exact HP. cbn [bind].
  unfold set_atoms. rewrite R1. cbn. eexists. split; [reflexivity|]. cbn. unfold int_species. cbn.
  f_equal. rewrite Ztrunc_floor by lra. apply Zfloor_imp. cbn [Z.add Pos.add]. lra.
Qed.
(** What any accepted array does: its entries in reading order, three to an atom. *)
Theorem C116_reading_order : forall m species positions m', set_atoms_arr m species positions = Ok m' ->
  length (a_data positions) = (3 * length (m_atoms m'))%nat /\
  (forall i, (i < length (m_atoms m'))%nat ->
     nth i (m_atoms m') v0 = mkV (nth (3 * i) (a_data positions) 0) (nth (3 * i + 1) (a_data positions) 0) (nth (3 * i + 2) (a_data positions) 0)) /\
  length (m_species m') = length (m_atoms m').
Proof.
  intros m sp po m' H. unfold set_atoms_arr, reshape3 in H. destruct (Nat.eqb_spec (length (a_data po) mod 3) 0) as [E|]; [|discriminate].
  cbn [bind] in H. unfold set_atoms in H. destruct (Nat.eqb_spec (length (rows3 (a_data po))) (length (int_species sp))) as [E2|]; [|discriminate].
  inversion H; subst m'; clear H. cbn. apply Nat.mod_divides in E as [n E]; [|lia]. destruct (rows3_spec n _ E) as [R1 R2].
  rewrite R1. split; [lia|]. split; [|congruence]. intros i Hi. rewrite R2 by lia. f_equal; f_equal; lia.
Qed.
Example C116_nonvacuous : let po := mkArr [2; 3]%nat [0; 0; 0; 0; 0; 9/8] in let sp := mkArr [2%nat] [6; 8] in
  proper po /\ a_shape po = [2; 3]%nat /\ whole sp [6; 8]%Z.
Proof. split; [reflexivity|]. split; reflexivity. Qed.
