(** The origin of a molecule and the removal of atoms: C140, C141. *)
From Coq Require Import Reals List ZArith Bool Lra Lia Sorting.Sorted.
From Verif.Model Require Import Base Vec Transform Molecule.
From Verif.Spec Require Import GenObjSpec MolOriginSpec.
From Verif.Proofs Require Import VecFacts VolumeFacts.
From Verif.Props Require Import MoleculeProps WulffObjProps.
Import ListNotations.
Open Scope R_scope.

(* ---------------- C141 ---------------- *)
Lemma history_snoc m h o : history m (h ++ [o]) = fst (mol_step (history m h) o).
Proof. unfold history. rewrite fold_left_app. reflexivity. Qed.

Lemma follow_step m o : paired m ->
  (forall b, tells_to_follow o b -> m_tracking (fst (mol_step m o)) = b) /\
  ((forall b, ~ tells_to_follow o b) -> m_tracking (fst (mol_step m o)) = m_tracking m).
Proof.
  unfold paired. intros P. destruct o as [s p|p|s|idx n|t b|p|i|r| |i]; cbn [mol_step]; split; try (intros b' Q; inversion Q; subst; clear Q); intros.
  - unfold set_atoms. destruct (Nat.eqb _ _); reflexivity.
  - unfold update_positions. destruct (Nat.eqb _ _); reflexivity.
  - unfold update_species. destruct (Nat.eqb _ _); reflexivity.
  - unfold remove_atoms_st. destruct (bind _ _); [|reflexivity]. destruct (np_delete _ _); [|reflexivity]. destruct (np_delete _ _); reflexivity.
  - unfold mol_transform_st, set_atoms. destruct (Nat.eqb _ _); [|reflexivity]. destruct b; [|reflexivity]. cbn [m_tracking].
    destruct (m_tracking m) eqn:T; [reflexivity|]. unfold mol_origin. cbn [m_tracking m_origin]. rewrite ?T. destruct (m_origin m); cbn; auto.
  - reflexivity.
  - exfalso. eapply H. constructor.
  - unfold set_origin_idx. destruct i as [z|]; [|reflexivity]. destruct (_ <? _)%Z; reflexivity.
  - exfalso. eapply H. constructor.
  - unfold set_orientation. destruct (Rltb _ _); [reflexivity|]. destruct (Rltb _ _); reflexivity.
  - unfold reset_orientation, set_orientation. destruct (Rltb _ _); [reflexivity|]. destruct (Rltb _ _); reflexivity.
  - destruct i; reflexivity.
Qed.
Lemma index_step m o :
  (forall z, o = OOriginIdx (PInt z) -> (Z.abs z < Z.of_nat (length (m_atoms m)))%Z -> m_oidx (fst (mol_step m o)) = Some z) /\
  ((forall z, o = OOriginIdx (PInt z) -> (Z.of_nat (length (m_atoms m)) <= Z.abs z)%Z) -> m_oidx (fst (mol_step m o)) = m_oidx m).
Proof.
  destruct o as [s p|p|s|idx n|t b|p|i|r| |i]; cbn [mol_step]; split; try discriminate; intros.
  - unfold set_atoms. destruct (Nat.eqb _ _); reflexivity.
  - unfold update_positions. destruct (Nat.eqb _ _); reflexivity.
  - unfold update_species. destruct (Nat.eqb _ _); reflexivity.
  - unfold remove_atoms_st. destruct (bind _ _); [|reflexivity]. destruct (np_delete _ _); [|reflexivity]. destruct (np_delete _ _); reflexivity.
  - unfold mol_transform_st, set_atoms. destruct (Nat.eqb _ _); [|reflexivity]. destruct b; [|reflexivity]. cbn [m_tracking].
    destruct (m_tracking m) eqn:T; [reflexivity|]. unfold mol_origin. cbn [m_tracking m_origin]. rewrite ?T. destruct (m_origin m); reflexivity.
  - reflexivity.
  - injection H as ->. unfold set_origin_idx. rewrite (proj2 (Z.ltb_lt _ _) H0). reflexivity.
  - destruct i as [z|]; [|reflexivity]. unfold set_origin_idx. specialize (H z eq_refl). rewrite (proj2 (Z.ltb_ge _ _) H). reflexivity.
  - unfold set_orientation. destruct (Rltb _ _); [reflexivity|]. destruct (Rltb _ _); reflexivity.
  - unfold reset_orientation, set_orientation. destruct (Rltb _ _); [reflexivity|]. destruct (Rltb _ _); reflexivity.
  - destruct i; reflexivity.
Qed.
Lemma point_step m o : paired m ->
  (forall p, o = OOriginPoint p -> m_origin (fst (mol_step m o)) = Some p) /\
  (forall t q, o = OTransform t true -> m_tracking m = false -> m_origin m = Some q -> m_origin (fst (mol_step m o)) = Some (apply_pt t q)) /\
  ((forall p, o <> OOriginPoint p) -> (forall t, o = OTransform t true -> m_tracking m = true) -> m_origin (fst (mol_step m o)) = m_origin m).
Proof.
  unfold paired. intros P. destruct o as [s p|p|s|idx n|t b|p|i|r| |i]; cbn [mol_step]; (split; [|split]); try discriminate; intros.
  - unfold set_atoms. destruct (Nat.eqb _ _); reflexivity.
  - unfold update_positions. destruct (Nat.eqb _ _); reflexivity.
  - unfold update_species. destruct (Nat.eqb _ _); reflexivity.
  - unfold remove_atoms_st. destruct (bind _ _); [|reflexivity]. destruct (np_delete _ _); [|reflexivity]. destruct (np_delete _ _); reflexivity.
  - injection H as -> ->. unfold mol_transform_st, set_atoms. rewrite map_length, (proj2 (Nat.eqb_eq _ _)) by auto. cbn [m_tracking]. rewrite H0.
    unfold mol_origin. cbn [m_tracking m_origin]. rewrite H1. reflexivity.
  - unfold mol_transform_st, set_atoms. destruct (Nat.eqb _ _); [|reflexivity]. destruct b; [|reflexivity]. cbn [m_tracking]. rewrite (H0 t eq_refl). reflexivity.
  - injection H as ->. reflexivity.
  - exfalso. eapply H. reflexivity.
  - unfold set_origin_idx. destruct i as [z|]; [|reflexivity]. destruct (_ <? _)%Z; reflexivity.
  - unfold set_orientation. destruct (Rltb _ _); [reflexivity|]. destruct (Rltb _ _); reflexivity.
  - unfold reset_orientation, set_orientation. destruct (Rltb _ _); [reflexivity|]. destruct (Rltb _ _); reflexivity.
  - destruct i; reflexivity.
Qed.

Section Follow.
Context (m0 : molecule) (P0 : paired m0) (H0 : has_origin m0).
Definition count (h : list mol_op) : nat := length (m_atoms (history m0 h)).
Lemma follow_after h b : m_tracking m0 = b -> latest tells_to_follow b h (m_tracking (history m0 h)).
Proof.
  intros E. induction h as [|o h IH] using rev_ind; [rewrite <- E; constructor|]. rewrite history_snoc.
  destruct (follow_step (history m0 h) o) as [S1 S2]; [apply history_ok; auto|].
  assert (D : (exists b, tells_to_follow o b) \/ forall b, ~ tells_to_follow o b).
  { destruct o; try (right; intros b' Q; inversion Q; fail); left; eexists; constructor. }
  destruct D as [[b' D]|D]; [rewrite (S1 b' D); eapply latest_set; eauto|rewrite (S2 D); apply latest_keep; auto].
Qed.
Lemma index_exists h i : m_oidx m0 = i -> index_after count i h (m_oidx (history m0 h)).
Proof.
  intros E. induction h as [|o h IH] using rev_ind; [rewrite <- E; constructor|]. rewrite history_snoc.
  destruct (index_step (history m0 h) o) as [S1 S2].
  destruct o as [| | | | | |[z|]| | |]; try (rewrite S2; [apply index_kept; [exact IH|discriminate]|discriminate]).
  destruct (Z_lt_le_dec (Z.abs z) (Z.of_nat (count h))) as [L|L]; unfold count in L.
  - rewrite (S1 z eq_refl L). eapply index_given; eauto.
  - rewrite S2; [apply index_kept; auto|]; intros y Q; injection Q as <-; auto.
Qed.
Lemma point_exists h b q : m_tracking m0 = b -> m_origin m0 = q -> point_after b q h (m_origin (history m0 h)).
Proof.
  intros Eb E. induction h as [|o h IH] using rev_ind; [rewrite <- E; constructor|]. rewrite history_snoc.
  destruct (history_ok h m0 P0 H0) as [PH OH]. pose proof (follow_after h b Eb) as F.
  destruct (point_step (history m0 h) o PH) as (S1 & S2 & S3).
  assert (K : (forall p, o <> OOriginPoint p) -> (forall t, o <> OTransform t true) -> point_after b q (h ++ [o]) (m_origin (fst (mol_step (history m0 h) o)))).
  { intros N1 N2. rewrite S3; [|auto|intros t Q; destruct (N2 t Q)]. apply point_kept; auto. intros t Q; destruct (N2 t Q). }
  destruct o as [| | | |t []|p| | | |]; try (apply K; intros; discriminate).
  - destruct (m_tracking (history m0 h)) eqn:T.
    + rewrite S3; [|discriminate|auto]. apply point_kept; auto. discriminate.
    + destruct (m_origin (history m0 h)) as [x|] eqn:O; [|destruct (OH T O)]. rewrite (S2 t x eq_refl eq_refl eq_refl). apply point_moved; auto.
  - rewrite (S1 p eq_refl). eapply point_given; eauto.
Qed.
End Follow.
Lemma follow_fun b h x y : latest tells_to_follow b h x -> latest tells_to_follow b h y -> x = y.
Proof. intros A B. refine (latest_unique _ _ _ _ _ A _ B). intros o u v U V. inversion U; subst; inversion V; reflexivity. Qed.
Lemma index_fun n i0 h i : index_after n i0 h i -> forall j, index_after n i0 h j -> i = j.
Proof.
  induction 1 as [|h i z A IH L|h i o A IH L]; intros j B.
  - inversion B as [|h' ? ? ? ? E|h' ? ? ? ? E]; auto; destruct h'; discriminate.
  - inversion B as [E|h' ? z' ? ? E|h' ? o' B' L' E]; subst; [destruct h; discriminate| |]; apply app_inj_tail in E as [-> E].
    + injection E as ->. reflexivity.
    + subst o'. specialize (L' z eq_refl). lia.
  - inversion B as [E|h' ? z' ? L' E|h' ? o' B' L' E]; subst; [destruct h; discriminate| |]; apply app_inj_tail in E as [-> E].
    + subst o. specialize (L z' eq_refl). lia.
    + auto.
Qed.
Lemma point_fun b q0 h q : point_after b q0 h q -> forall x, point_after b q0 h x -> q = x.
Proof.
  induction 1 as [|h q p A IH|h q t A IH F|h q o A IH N F]; intros x B.
  - inversion B as [|h' ? ? ? E|h' ? ? ? ? E|h' ? ? ? ? ? E]; auto; destruct h'; discriminate.
  - inversion B as [E|h' ? ? ? E|h' ? ? ? ? E|h' ? ? ? N' ? E]; subst; [destruct h; discriminate| | |]; apply app_inj_tail in E as [-> E]; try discriminate E.
    + injection E as ->. reflexivity.
    + subst. destruct (N' p eq_refl).
  - inversion B as [E|h' ? ? ? E|h' ? ? B' ? E|h' ? ? ? N' F' E]; subst; [destruct h; discriminate| | |]; apply app_inj_tail in E as [-> E]; try discriminate E.
    + injection E as ->. specialize (IH _ B'). congruence.
    + subst. specialize (F' t eq_refl). discriminate (follow_fun _ _ _ _ F F').
  - inversion B as [E|h' ? ? ? E|h' ? ? B' F' E|h' ? ? ? N' F' E]; subst; [destruct h; discriminate| | |]; apply app_inj_tail in E as [-> E].
    + subst. edestruct N; reflexivity.
    + subst. specialize (F _ eq_refl). discriminate (follow_fun _ _ _ _ F F').
    + auto.
Qed.
Lemma new_starts s p o r m : new_molecule s p o r = Ok m ->
  m_tracking m = follows_at_first o /\ m_oidx m = index_at_first o /\ m_origin m = point_at_first o.
Proof.
  unfold new_molecule, set_atoms. intros H. destruct (Nat.eqb _ _); [|discriminate]. cbn [bind] in H. inv_bind H.
  assert (A : m_tracking a = follows_at_first o /\ m_oidx a = index_at_first o /\ m_origin a = point_at_first o).
  { destruct o as [|z|q]; cbn in Ha; [injection Ha as <-; auto| |injection Ha as <-; auto]. destruct (_ <? _)%Z; cbn in Ha; [|discriminate]. injection Ha as <-. auto. }
  destruct r as [R|]; [|injection H as <-; exact A]. unfold set_orientation in H. destruct (Rltb _ _); [discriminate|]. destruct (Rltb _ _); [discriminate|].
  injection H as <-. exact A.
Qed.

(** C141.  After any history of calls, accepted or refused: a molecule last told to keep a
    point has that point, as moved since, for its origin; one last told to follow an atom
    has the atom its last accepted index denotes now, raises IndexError when the index
    denotes none any more, and AttributeError when no index was ever accepted. *)
Theorem C141_origin : forall s p o r m0 h f i q, new_molecule s p o r = Ok m0 ->
  let m := history m0 h in
  let atoms_after h' := length (m_atoms (history m0 h')) in
  latest tells_to_follow (follows_at_first o) h f ->
  index_after atoms_after (index_at_first o) h i ->
  point_after (follows_at_first o) (point_at_first o) h q ->
  (f = false -> exists x, q = Some x /\ mol_origin m = Ok x) /\
  (f = true -> i = None -> mol_origin m = Err AttributeError) /\
  (f = true -> forall z, i = Some z ->
     (forall k, denotes (length (m_atoms m)) z k -> mol_origin m = Ok (nth k (m_atoms m) v0)) /\
     (~ valid_index (length (m_atoms m)) z -> mol_origin m = Err IndexError)).
Proof.
  intros s p o r m0 h f i q N m n F I Q. destruct (new_ok _ _ _ _ _ N) as [P0 O0]. destruct (new_starts _ _ _ _ _ N) as (E1 & E2 & E3).
  pose proof (follow_fun _ _ _ _ F (follow_after m0 P0 O0 h _ E1)) as ->.
  pose proof (index_fun _ _ _ _ I _ (index_exists m0 h _ E2)) as ->.
  pose proof (point_fun _ _ _ _ Q _ (point_exists m0 P0 O0 h _ _ E1 E3)) as ->. fold m.
  destruct (history_ok h m0 P0 O0) as [PH OH]. fold m in PH, OH.
  unfold mol_origin. split; [|split]; intros T; rewrite T.
  - specialize (OH T). destruct (m_origin m) as [x|]; [eauto|congruence].
  - intros ->. reflexivity.
  - intros z ->. destruct (py_index_spec (length (m_atoms m)) z) as [S1 S2]. split.
    + intros k K. assert (V : valid_index (length (m_atoms m)) z) by (unfold denotes, valid_index in *; lia).
      destruct (S1 V) as (j & -> & L & D). cbn. f_equal. f_equal. unfold denotes in *; lia.
    + intros V. rewrite (S2 V). reflexivity.
Qed.
(** Every history says one thing of each kind, and no more. *)
Theorem C141_determined : forall s p o r m0 h, new_molecule s p o r = Ok m0 ->
  let atoms_after h' := length (m_atoms (history m0 h')) in
  exists f i q, latest tells_to_follow (follows_at_first o) h f /\
    index_after atoms_after (index_at_first o) h i /\ point_after (follows_at_first o) (point_at_first o) h q /\
    forall f' i' q', latest tells_to_follow (follows_at_first o) h f' ->
      index_after atoms_after (index_at_first o) h i' -> point_after (follows_at_first o) (point_at_first o) h q' ->
      f' = f /\ i' = i /\ q' = q.
Proof.
  intros s p o r m0 h N n. destruct (new_ok _ _ _ _ _ N) as [P0 O0]. destruct (new_starts _ _ _ _ _ N) as (E1 & E2 & E3).
  exists (m_tracking (history m0 h)), (m_oidx (history m0 h)), (m_origin (history m0 h)).
  split; [apply follow_after; auto|]. split; [exact (index_exists m0 h _ E2)|]. split; [apply point_exists; auto|].
  intros f i q F I Q. split; [exact (follow_fun _ _ _ _ F (follow_after m0 P0 O0 h _ E1))|]. split.
  - exact (index_fun _ _ _ _ I _ (index_exists m0 h _ E2)).
  - exact (point_fun _ _ _ _ Q _ (point_exists m0 P0 O0 h _ _ E1 E3)).
Qed.
(** two atoms; follow atom 5 (refused), then atom -1, shift, then keep a point and shift *)
Example C141_nonvacuous : let m0 := mkMol [1; 1]%Z [mkV 0 0 0; mkV 1 0 0] false (Some (mkV 0 0 0)) None mI 0 in
  let t := TTranslation (mkV 0 0 1) false false in
  new_molecule [1; 1]%Z [mkV 0 0 0; mkV 1 0 0] ONone None = Ok m0 /\
  mol_origin (history m0 [OOriginIdx (PInt 5)]) = Err AttributeError /\
  mol_origin (history m0 [OOriginIdx (PInt 5); OOriginIdx (PInt (-1)); OTransform t true]) = Ok (vadd (mkV 1 0 0) (mkV 0 0 1)) /\
  mol_origin (history m0 [OOriginIdx (PInt (-1)); OOriginPoint (mkV 4 4 4); OTransform t true; OTransform t false]) = Ok (vadd (mkV 4 4 4) (mkV 0 0 1)).
Proof. cbv zeta. repeat split; reflexivity. Qed.

(* ---------------- C140 ---------------- *)
(** Refuted: the new origin index is checked and then forgotten.  Whatever the molecule, a
    removal that is accepted with one leaves exactly what the removal without one leaves,
    and the molecule follows what it followed before. *)
Theorem C140_new_origin_refuted : forall m idx z,
  snd (mol_step m (ORemove idx (Some (PInt z)))) = Ok tt ->
  mol_step m (ORemove idx (Some (PInt z))) = mol_step m (ORemove idx None) /\
  (forall p, m_tracking m = false -> m_origin m = Some p -> mol_origin (fst (mol_step m (ORemove idx (Some (PInt z))))) = Ok p).
Proof.
  intros m idx z. cbn [mol_step]. unfold remove_atoms_st.
  destruct (_ <=? _)%Z; [discriminate|]. destruct (existsb (Z.eqb z) idx); [discriminate|]. cbn [bind]. intros H. split; [reflexivity|].
  intros p T O. rewrite T in *. destruct (np_delete (m_species m) idx); [|discriminate]. cbn [m_atoms] in *. destruct (np_delete (m_atoms m) idx); [|discriminate].
  unfold mol_origin. cbn. rewrite O. reflexivity.
Qed.
(** an accepted removal with a new origin index, after which the origin is no atom at all *)
Example C140_refuted_instance : let m := mkMol [1; 6; 8]%Z [mkV 1 0 0; mkV 2 0 0; mkV 3 0 0] false (Some (mkV 0 0 0)) None mI 0 in
  let m' := fst (mol_step m (ORemove [0]%Z (Some (PInt 1)))) in
  snd (mol_step m (ORemove [0]%Z (Some (PInt 1)))) = Ok tt /\ m_atoms m' = [mkV 2 0 0; mkV 3 0 0] /\ mol_origin m' = Ok (mkV 0 0 0).
Proof. cbv zeta. repeat split; reflexivity. Qed.

(** What can be relied on: every refusal, in the order they are checked, leaves the
    molecule untouched; anything else removes exactly the atoms denoted. *)
Definition follows_listed (m : molecule) (idx : list Z) : Prop := m_tracking m = true /\ exists i, m_oidx m = Some i /\ In i idx.
Definition follows_nothing (m : molecule) : Prop := m_tracking m = true /\ m_oidx m = None.
(** the new origin index is absent, or an integer in range that is not itself listed *)
Definition acceptable (m : molecule) (idx : list Z) (k : option pyidx) : Prop :=
  k = None \/ exists z, k = Some (PInt z) /\ (Z.abs z < Z.of_nat (length (m_atoms m)))%Z /\ ~ In z idx.
Lemma mem_iff z l : existsb (Z.eqb z) l = true <-> In z l.
Proof. rewrite existsb_exists. split; [intros (x & X & E); apply Z.eqb_eq in E; subst; auto|intros X; exists z; rewrite Z.eqb_refl; auto]. Qed.
Lemma mem_not z l : existsb (Z.eqb z) l = false <-> ~ In z l.
Proof. rewrite <- not_true_iff_false, mem_iff. tauto. Qed.
Theorem C140_removal_partial : forall m idx k, length (m_species m) = length (m_atoms m) ->
  let n := length (m_atoms m) in
  let out := mol_step m (ORemove idx k) in
  (k = Some POther -> out = (m, Err TypeError)) /\
  (forall z, k = Some (PInt z) -> (Z.of_nat n <= Z.abs z)%Z \/ In z idx -> out = (m, Err IndexError)) /\
  (acceptable m idx k -> follows_listed m idx -> out = (m, Err NotImplementedError)) /\
  (acceptable m idx k -> follows_nothing m -> out = (m, Err AttributeError)) /\
  (acceptable m idx k -> ~ follows_listed m idx -> ~ follows_nothing m ->
    (~ Forall (valid_index n) idx -> out = (m, Err IndexError)) /\
    (Forall (valid_index n) idx -> exists keep, StronglySorted lt keep /\
       (forall i, In i keep <-> (i < n)%nat /\ ~ exists z, In z idx /\ denotes n z i) /\
       out = (mkMol (select keep (m_species m)) (select keep (m_atoms m)) (m_tracking m) (m_origin m) (m_oidx m) (m_orient m) (m_prio m), Ok tt))).
Proof.
  intros m idx k P n out. unfold out. cbn [mol_step]. clear out.
  assert (ACC : acceptable m idx k -> remove_atoms_st m idx k = remove_atoms_st m idx None).
  { intros [->|(z & -> & L & NI)]; [reflexivity|]. unfold remove_atoms_st. rewrite (proj2 (Z.leb_gt _ _) L), (proj2 (mem_not _ _) NI). reflexivity. }
  split; [intros ->; reflexivity|]. split.
  { intros z -> B. unfold remove_atoms_st. fold n. destruct (Z.leb_spec (Z.of_nat n) (Z.abs z)) as [L|L]; [reflexivity|].
    destruct B as [B|B]; [lia|]. rewrite (proj2 (mem_iff _ _) B). reflexivity. }
  split; [|split].
  - intros A (T & i & I & L). rewrite (ACC A). unfold remove_atoms_st. cbn [bind]. rewrite T, I, (proj2 (mem_iff _ _) L). reflexivity.
  - intros A (T & I). rewrite (ACC A). unfold remove_atoms_st. cbn [bind]. rewrite T, I. reflexivity.
  - intros A NL NN. rewrite (ACC A).
    assert (TR : m_tracking m = true -> exists i, m_oidx m = Some i /\ ~ In i idx).
    { intros T. destruct (m_oidx m) as [i|] eqn:I; [|exfalso; apply NN; split; auto]. exists i. split; auto. intros L. apply NL. split; auto. eauto. }
    destruct (C60_remove_exact m idx P TR) as [R1 R2]. rewrite remove_atoms_agree in R1, R2. fold n in R1, R2.
    assert (SAME : forall m', remove_atoms_st m idx None = (m', Ok tt) -> m' = mkMol (m_species m') (m_atoms m') (m_tracking m) (m_origin m) (m_oidx m) (m_orient m) (m_prio m)).
    { unfold remove_atoms_st. intros m' H. destruct (bind _ _); [|discriminate]. destruct (np_delete (m_species m) idx); [|discriminate]. cbn [m_atoms] in H.
      destruct (np_delete (m_atoms m) idx); [|discriminate]. injection H as <-. reflexivity. }
    assert (FAIL : forall m' e, remove_atoms_st m idx None = (m', Err e) -> m' = m).
    { unfold remove_atoms_st. intros m' e H. destruct (bind _ _); [|injection H as <-; reflexivity].
      pose proof (np_delete_len (m_species m) (m_atoms m) idx P) as D. destruct (np_delete (m_species m) idx); [|injection H as <-; reflexivity].
      cbn [m_atoms] in H. destruct (np_delete (m_atoms m) idx); [discriminate|contradiction]. }
    destruct (remove_atoms_st m idx None) as [m' [[]|e]] eqn:E; cbn [rmap] in R1, R2; split; intros V.
    + discriminate (R2 V).
    + destruct (R1 V) as (m1 & keep & Q & S & K & A1 & A2). injection Q as <-. exists keep. split; auto. split; auto. rewrite (SAME _ eq_refl), A1, A2. reflexivity.
    + rewrite (FAIL _ _ eq_refl). specialize (R2 V). congruence.
    + destruct (R1 V) as (m1 & keep & Q & _). discriminate Q.
Qed.
Example C140_nonvacuous : let m := mkMol [1; 6; 8]%Z [mkV 1 0 0; mkV 2 0 0; mkV 3 0 0] true None (Some 1%Z) mI 0 in
  acceptable m [0; -1]%Z (Some (PInt 1)) /\ ~ follows_listed m [0; -1]%Z /\ ~ follows_nothing m /\ Forall (valid_index 3) [0; -1]%Z /\
  acceptable m [1]%Z (Some (PInt 2)) /\ follows_listed m [1]%Z.
Proof.
  cbv zeta. unfold acceptable, follows_listed, follows_nothing, valid_index. cbn. repeat split.
  - right. exists 1%Z. repeat split; lia.
  - intros (_ & i & E & [L|[L|[]]]); injection E as <-; lia.
  - intros [_ E]; discriminate.
  - repeat constructor; lia.
  - right. exists 2%Z. repeat split; lia.
  - exists 1%Z. auto.
Qed.
