(** Molecules: C57-C61, C79. *)
From Coq Require Import Reals List ZArith Bool Lra Lia Sorting.Sorted.
From Verif.Model Require Import Base Vec Transform Molecule.
From Verif.Proofs Require Import VecFacts VolumeFacts BatchFacts.
Import ListNotations.
Open Scope R_scope.

(** The state after a history of calls, whether or not they raise. *)
Definition history (m : molecule) (ops : list mol_op) : molecule := fold_left (fun m o => fst (mol_step m o)) ops m.
Definition paired (m : molecule) : Prop := length (m_species m) = length (m_atoms m).

Lemma mapM_len {A B} (f : A -> res B) l r : mapM f l = Ok r -> length r = length l.
Proof. revert r. induction l as [|a l IH]; intros r H; cbn in H; [inversion H; auto|]. inv_bind H. inv_bind H. inversion H; subst. cbn. f_equal. eauto. Qed.
Lemma np_delete_len {A B} (l : list A) (l' : list B) idx : length l = length l' ->
  match np_delete l idx, np_delete l' idx with
  | Ok r, Ok r' => length r = length r'
  | Err e, Err e' => e = e'
  | _, _ => False
  end.
Proof.
  intros E. unfold np_delete. rewrite E. destruct (mapM (py_index (length l')) idx) as [js|e]; cbn; auto.
  rewrite !map_length. revert l' E. generalize 0%nat. induction l as [|a l IH]; intros k [|b l'] E; try discriminate; auto.
  cbn. destruct (negb (existsb (Nat.eqb k) js)); cbn; [f_equal|]; apply IH; auto.
Qed.
Definition has_origin (m : molecule) : Prop := m_tracking m = false -> m_origin m <> None.
(** the one call that may fail half way: moving a molecule that tracks an atom without
    having an index, atoms first *)
Definition half_moved (m m' : molecule) (o : mol_op) : Prop :=
  exists t, o = OTransform t true /\ m_tracking m = true /\ m_oidx m = None /\
    m_atoms m' = map (apply_pt t) (m_atoms m) /\ m_species m' = m_species m.
Lemma step_paired m o : paired m -> has_origin m ->
  paired (fst (mol_step m o)) /\ has_origin (fst (mol_step m o)) /\
  (forall e, snd (mol_step m o) = Err e -> (m_atoms (fst (mol_step m o)) = m_atoms m /\ m_species (fst (mol_step m o)) = m_species m) \/
                                          half_moved m (fst (mol_step m o)) o).
Proof.
  unfold paired, has_origin. intros P HO. destruct o as [s p|p|s|idx n|t b|p|i|r| |i]; cbn [mol_step].
  - unfold set_atoms. destruct (Nat.eqb_spec (length p) (length s)); cbn; split; auto; split; auto; discriminate.
  - unfold update_positions. destruct (Nat.eqb_spec (length p) (length (m_atoms m))); cbn; split; auto; try lia; split; auto; discriminate.
  - unfold update_species. destruct (Nat.eqb_spec (length s) (length (m_species m))); cbn; split; auto; try lia; split; auto; discriminate.
  - unfold remove_atoms_st. destruct (bind _ _) as [[]|e]; [|cbn; auto].
    pose proof (np_delete_len (m_species m) (m_atoms m) idx P) as D. cbn [m_atoms].
    destruct (np_delete (m_species m) idx) as [s|], (np_delete (m_atoms m) idx) as [a|]; cbn; try contradiction; auto; split; auto; split; auto; discriminate.
  - unfold mol_transform_st, set_atoms. rewrite map_length. destruct (Nat.eqb_spec (length (m_atoms m)) (length (m_species m))) as [E|E]; [|exfalso; lia].
    destruct b; cbn [andb negb m_tracking mol_origin].
    + destruct (m_tracking m) eqn:T; cbn.
      { rewrite map_length. split; auto. split; [discriminate|]. destruct (m_oidx m) eqn:OI; [discriminate|]. intros e _. right. exists t. auto. }
      unfold mol_origin. cbn. destruct (m_origin m) eqn:O; cbn; rewrite map_length; [split; auto; split; congruence|exfalso; apply HO; auto].
    + cbn. rewrite map_length. split; auto. split; auto. discriminate.
  - cbn. split; auto. split; [discriminate|discriminate].
  - unfold set_origin_idx. destruct i as [z|]; [destruct (_ <? _)%Z|]; cbn; split; auto; (split; [discriminate|intros; left; split; auto]).
  - unfold set_orientation. destruct (Rltb _ _); [cbn; auto|]. destruct (Rltb _ _); cbn; split; auto; split; auto; discriminate.
  - unfold reset_orientation, set_orientation. destruct (Rltb _ _); [cbn; auto|]. destruct (Rltb _ _); cbn; split; auto; split; auto; discriminate.
  - destruct i; cbn; split; auto; split; auto; discriminate.
Qed.
Lemma new_ok s p o r m : new_molecule s p o r = Ok m -> paired m /\ has_origin m.
Proof.
  unfold new_molecule, set_atoms. intros H. destruct (Nat.eqb_spec (length p) (length s)) as [E|E]; [|discriminate]. cbn [bind] in H.
  inv_bind H. assert (A : paired a /\ has_origin a).
  { unfold paired, has_origin. destruct o as [|z|q]; cbn in Ha; [inversion Ha; subst; cbn; split; congruence| |inversion Ha; subst; cbn; split; congruence].
    destruct (_ <? _)%Z; cbn in Ha; inversion Ha; subst. cbn. split; congruence. }
  destruct r as [R|]; [|inversion H; subst; exact A]. unfold set_orientation in H. destruct (Rltb _ _); [discriminate|]. destruct (Rltb _ _); [discriminate|].
  inversion H; subst. exact A.
Qed.
Lemma history_ok ops : forall m, paired m -> has_origin m -> paired (history m ops) /\ has_origin (history m ops).
Proof. induction ops as [|o ops IH]; intros m P HO; cbn; auto. destruct (step_paired m o P HO) as (A & B & _). apply IH; auto. Qed.

(** C57: atoms and species stay paired through any history after construction. *)
Theorem C57_paired s p o r m ops : new_molecule s p o r = Ok m ->
  length (m_species (history m ops)) = length (m_atoms (history m ops)).
Proof. intros H. destruct (new_ok _ _ _ _ _ H) as [P HO]. exact (proj1 (history_ok ops m P HO)). Qed.
(** A call that raises changes neither, with one exception: a transformation of a molecule
    that was told to track an atom without ever having got a valid index. *)
Theorem C57_failed_call_partial s p o r m ops op e : new_molecule s p o r = Ok m ->
  let m1 := history m ops in let m2 := fst (mol_step m1 op) in snd (mol_step m1 op) = Err e ->
  (m_atoms m2 = m_atoms m1 /\ m_species m2 = m_species m1) \/
  (exists t, op = OTransform t true /\ m_tracking m1 = true /\ m_oidx m1 = None /\
     m_atoms m2 = map (apply_pt t) (m_atoms m1) /\ m_species m2 = m_species m1).
Proof.
  intros H m1 m2 E. destruct (new_ok _ _ _ _ _ H) as [P HO]. destruct (history_ok ops m P HO) as [P1 H1].
  destruct (step_paired m1 op P1 H1) as (_ & _ & K). exact (K e E).
Qed.
(** The exception occurs: set_origin with an index out of range raises but leaves the molecule
    tracking, and the next transformation moves the atoms and raises. *)
Theorem C57_failed_call_refuted : exists m m1 m2 t,
  new_molecule [8; 1]%Z [mkV 0 0 0; mkV 1 0 0] ONone None = Ok m /\
  mol_step m (OOriginIdx (PInt 2)) = (m1, Err IndexError) /\
  mol_step m1 (OTransform t true) = (m2, Err AttributeError) /\ m_atoms m1 = [mkV 0 0 0; mkV 1 0 0] /\ m_atoms m2 = [mkV 0 0 1; mkV 1 0 1].
Proof.
  do 3 eexists. exists (TTranslation (mkV 0 0 1) true false). split; [reflexivity|]. split; [reflexivity|]. split; [reflexivity|]. split; [reflexivity|].
  cbn. repeat f_equal; apply vec_eq; vunfold; cbn; ring.
Qed.
Definition ex_mol : molecule := mkMol [8; 1; 1]%Z [mkV 0 0 0; mkV 1 0 0; mkV 0 1 0] true None (Some 1%Z) mI 0.
Example C57_nonvacuous : new_molecule [8; 1; 1]%Z [mkV 0 0 0; mkV 1 0 0; mkV 0 1 0] (OIdx 1) None = Ok ex_mol /\
  snd (mol_step ex_mol (ORemove [1]%Z None)) = Err NotImplementedError /\
  snd (mol_step ex_mol (ORemove [0]%Z None)) = Ok tt /\ snd (mol_step ex_mol (OUpdatePositions [])) = Err ValueError.
Proof. repeat split; reflexivity. Qed.

(* ---------------- C58 ---------------- *)
Lemma mol_transform_origin m t o : mol_origin m = Ok o -> paired m ->
  exists m', mol_transform m t true = Ok m' /\ mol_origin m' = Ok (apply_pt t o) /\ paired m' /\ m_tracking m' = m_tracking m.
Proof.
  intros H P. unfold mol_transform, set_atoms. rewrite map_length. unfold paired in *. rewrite (proj2 (Nat.eqb_eq _ _)) by auto. cbn [bind m_tracking].
  unfold mol_origin in *. destruct (m_tracking m) eqn:T.
  - cbn [m_oidx]. destruct (m_oidx m) as [i|] eqn:OI; [|discriminate]. eexists. split; [reflexivity|]. cbn. rewrite map_length, ?OI.
    inv_bind H. rewrite Ha. cbn. inversion H; subst. split; [|split; auto]. f_equal.
    rewrite (nth_indep _ v0 (apply_pt t v0)), map_nth; auto. rewrite map_length.
    unfold py_index in Ha. destruct ((0 <=? i)%Z && (i <? Z.of_nat (length (m_atoms m)))%Z) eqn:B.
    + inversion Ha. lia.
    + destruct ((- Z.of_nat (length (m_atoms m)) <=? i)%Z && (i <? 0)%Z) eqn:B2; inversion Ha. lia.
  - cbn. destruct (m_origin m) as [q|]; [|discriminate]. inversion H; subst. eexists. split; [reflexivity|]. cbn. rewrite map_length. auto.
Qed.
(** The origin is carried along by a sequence of transformations, in both modes. *)
Theorem C58_origin_moves m ts o : mol_origin m = Ok o -> paired m ->
  exists m', from_molecule m ts = Ok m' /\ mol_origin m' = Ok (fold_left (fun p t => apply_pt t p) ts o).
Proof.
  intros H P. unfold from_molecule. revert m o H P. induction ts as [|t ts IH]; intros m o H P; cbn [foldM fold_left].
  - exists m. auto.
  - destruct (mol_transform_origin m t o H P) as (m' & E & O & P' & _). rewrite E. cbn [bind]. apply IH; auto.
Qed.
(** transform_origin=False: a fixed origin stays, a tracked one still follows its atom;
    the atoms move in both cases. *)
Theorem C58_origin_stays m t o : mol_origin m = Ok o -> paired m ->
  exists m', mol_transform m t false = Ok m' /\ m_atoms m' = map (apply_pt t) (m_atoms m) /\ m_species m' = m_species m /\
    mol_origin m' = Ok (if m_tracking m then apply_pt t o else o).
Proof.
  intros H P. destruct (mol_transform_origin m t o H P) as (m' & E & O & P' & T). unfold mol_transform, set_atoms in *. rewrite map_length in *.
  unfold paired in *. rewrite (proj2 (Nat.eqb_eq _ _)) in * by auto. cbn [bind m_tracking] in *. eexists. split; [reflexivity|]. cbn. split; auto. split; auto.
  destruct (m_tracking m) eqn:TR.
  - cbn [m_oidx] in E. destruct (m_oidx m) eqn:OI; [|discriminate]. inversion E; subst. exact O.
  - unfold mol_origin in *. cbn. rewrite TR in H. exact H.
Qed.
Example C58_nonvacuous : mol_origin ex_mol = Ok (mkV 1 0 0) /\ paired ex_mol /\
  mol_origin (set_origin_point ex_mol (mkV 5 5 5)) = Ok (mkV 5 5 5).
Proof. repeat split; reflexivity. Qed.

(* ---------------- C60 ---------------- *)
(** Index z (counted from the end when negative) denotes position i of n. *)
Definition denotes (n : nat) (z : Z) (i : nat) : Prop := (i < n)%nat /\ (z = Z.of_nat i \/ z = (Z.of_nat i - Z.of_nat n)%Z).
Definition valid_index (n : nat) (z : Z) : Prop := (- Z.of_nat n <= z < Z.of_nat n)%Z.
Lemma py_index_spec n z : (valid_index n z -> exists i, py_index n z = Ok i /\ (i < n)%nat /\ denotes n z i) /\
  (~ valid_index n z -> py_index n z = Err IndexError).
Proof.
  unfold py_index, valid_index, denotes. split; intros H.
  - destruct (Z.leb_spec 0 z), (Z.ltb_spec z (Z.of_nat n)); cbn [andb]; try lia.
    + exists (Z.to_nat z). repeat split; auto; lia.
    + destruct (Z.leb_spec (- Z.of_nat n) z), (Z.ltb_spec z 0); cbn [andb]; try lia. exists (Z.to_nat (z + Z.of_nat n)). repeat split; lia.
  - destruct (Z.leb_spec 0 z), (Z.ltb_spec z (Z.of_nat n)); cbn [andb]; try lia; auto;
      destruct (Z.leb_spec (- Z.of_nat n) z), (Z.ltb_spec z 0); cbn [andb]; auto; lia.
Qed.
Lemma mapM_index n idx : (Forall (valid_index n) idx -> exists js, mapM (py_index n) idx = Ok js /\ forall i, (i < n)%nat -> (In i js <-> exists z, In z idx /\ denotes n z i)) /\
  (~ Forall (valid_index n) idx -> mapM (py_index n) idx = Err IndexError).
Proof.
  induction idx as [|z idx IH]; cbn [mapM].
  - split; [|intros H; exfalso; apply H; constructor]. intros _. exists []. split; auto. intros i Hi. split; [contradiction|intros (z & [] & _)].
  - destruct IH as [IH1 IH2]. destruct (py_index_spec n z) as [P1 P2]. split.
    + intros H. inversion H as [|? ? V F]; subst. destruct (P1 V) as (j & -> & L & D). destruct (IH1 F) as (js & -> & J). cbn. exists (j :: js). split; auto.
      intros i Hi. cbn. rewrite (J i Hi). split.
      * intros [<-|(w & W & DW)]; eauto. 
      * intros (w & [<-|W] & DW); [left; unfold denotes, valid_index in *; lia|right; eauto].
    + intros H. assert (V : valid_index n z \/ ~ valid_index n z) by (unfold valid_index; lia). destruct V as [V|V].
      * destruct (P1 V) as (j & -> & _). rewrite IH2; [reflexivity|]. intros F. apply H. constructor; auto.
      * rewrite (P2 V). reflexivity.
Qed.
Lemma delete_keep {A} (l : list A) js : exists keep,
  StronglySorted lt keep /\ (forall i, In i keep <-> (i < length l)%nat /\ ~ In i js) /\
  map snd (filter (fun ia => negb (existsb (Nat.eqb (fst ia)) js)) (combine (seq 0 (length l)) l)) = flat_map (fun i => match nth_error l i with Some a => [a] | None => [] end) keep.
Proof.
  exists (filter (fun i => negb (existsb (Nat.eqb i) js)) (seq 0 (length l))).
  assert (EX : forall i, existsb (Nat.eqb i) js = true <-> In i js).
  { intros i. rewrite existsb_exists. split; [intros (x & Hx & E); apply Nat.eqb_eq in E; subst; auto|intros H; exists i; rewrite Nat.eqb_refl; auto]. }
  split; [|split].
  - assert (S : forall s n, StronglySorted lt (seq s n)).
    { intros s n. revert s. induction n; intros s; cbn; constructor; auto. apply Forall_forall. intros x Hx. apply in_seq in Hx. lia. }
    specialize (S 0%nat (length l)). induction S as [|a t S IH F]; cbn; [constructor|].
    destruct (negb (existsb (Nat.eqb a) js)); auto. constructor; auto. apply Forall_forall. intros x Hx. apply filter_In in Hx as [Hx _]. rewrite Forall_forall in F. auto.
  - intros i. rewrite filter_In, in_seq, negb_true_iff, <- not_true_iff_false, EX. intuition lia.
  - assert (G : forall (l l0 : list A) , map snd (filter (fun ia => negb (existsb (Nat.eqb (fst ia)) js)) (combine (seq (length l0) (length l)) l)) =
      flat_map (fun i => match nth_error (l0 ++ l) i with Some a => [a] | None => [] end) (filter (fun i => negb (existsb (Nat.eqb i) js)) (seq (length l0) (length l)))).
    { clear. induction l as [|a l IH]; intros l0; cbn; auto. specialize (IH (l0 ++ [a])). rewrite app_length, Nat.add_1_r, <- app_assoc in IH. cbn in IH.
      destruct (negb (existsb (Nat.eqb (length l0)) js)); cbn; auto. rewrite IH. rewrite nth_error_app2, Nat.sub_diag by auto. reflexivity. }
    exact (G l []).
Qed.
(** select keep l: the entries of l at the listed positions *)
Definition select {A} (keep : list nat) (l : list A) : list A :=
  flat_map (fun i => match nth_error l i with Some a => [a] | None => [] end) keep.
Lemma sorted_ext (a b : list nat) : StronglySorted lt a -> StronglySorted lt b -> (forall i, In i a <-> In i b) -> a = b.
Proof.
  intros SA. revert b. induction SA as [|x a SA IH F]; intros b SB E.
  - destruct b as [|y b]; auto. exfalso. apply (E y). left; auto.
  - destruct SB as [|y b SB G]; [exfalso; apply (E x); left; auto|].
    rewrite Forall_forall in F, G. assert (x = y).
    { destruct (proj1 (E x) (or_introl eq_refl)) as [|Hx]; auto. destruct (proj2 (E y) (or_introl eq_refl)) as [|Hy]; auto. specialize (F _ Hy). specialize (G _ Hx). lia. }
    subst y. f_equal. apply IH; auto. intros i. split; intros H.
    + destruct (proj1 (E i) (or_intror H)) as [->|]; auto. specialize (F _ H). lia.
    + destruct (proj2 (E i) (or_intror H)) as [->|]; auto. specialize (G _ H). lia.
Qed.
(** C60: success keeps exactly the unlisted atoms, in order, positions and species
    alike; it fails with IndexError exactly when some index is out of range. *)
Theorem C60_remove_exact m idx : length (m_species m) = length (m_atoms m) ->
  (m_tracking m = true -> exists i, m_oidx m = Some i /\ ~ In i idx) ->
  let n := length (m_atoms m) in
  (Forall (valid_index n) idx ->
     exists m' keep, remove_atoms m idx None = Ok m' /\ StronglySorted lt keep /\
       (forall i, In i keep <-> (i < n)%nat /\ ~ exists z, In z idx /\ denotes n z i) /\
       m_atoms m' = select keep (m_atoms m) /\ m_species m' = select keep (m_species m)) /\
  (~ Forall (valid_index n) idx -> remove_atoms m idx None = Err IndexError).
Proof.
  intros P T n. unfold remove_atoms. cbn [bind].
  assert (C : (if m_tracking m then match m_oidx m with Some i => if existsb (Z.eqb i) idx then Err NotImplementedError else Ok tt | None => Err AttributeError end else Ok tt) = Ok tt).
  { destruct (m_tracking m); auto. destruct (T eq_refl) as (i & -> & NI). destruct (existsb (Z.eqb i) idx) eqn:E; [|reflexivity]. exfalso. apply existsb_exists in E as (z & Hz & E).
    apply Z.eqb_eq in E. subst. auto. }
  rewrite C. cbn [bind]. destruct (mapM_index n idx) as [M1 M2]. unfold np_delete. rewrite P. fold n. split.
  - intros V. destruct (M1 V) as (js & -> & J). cbn [bind].
    destruct (delete_keep (m_atoms m) js) as (keep & K1 & K2 & K3). destruct (delete_keep (m_species m) js) as (keep' & K1' & K2' & K3').
    assert (keep' = keep) by (apply sorted_ext; auto; intros i; rewrite K2, K2', P; tauto). subst keep'.
    eexists. exists keep. split; [reflexivity|]. split; auto. split; [|cbn; rewrite P in K3'; unfold n; auto].
    intros i. rewrite K2. fold n. split; intros [L H]; (split; [auto|]); rewrite <- J in * by auto; auto.
  - intros V. rewrite (M2 V). reflexivity.
Qed.
Example C60_nonvacuous : Forall (valid_index 3) [-1; 0]%Z /\ ~ In 1%Z [-1; 0]%Z /\
  remove_atoms ex_mol [-1; 0]%Z None = Ok (mkMol [1]%Z [mkV 1 0 0] true None (Some 1%Z) mI 0).
Proof. split; [repeat constructor; unfold valid_index; cbn; lia|]. split; [cbn; lia|]. reflexivity. Qed.

(* ---------------- C59 ---------------- *)
(** Refuted: removing atom 0 while tracking atom 1 moves the origin to another atom. *)
Theorem C59_tracked_origin_refuted : exists m m' idx,
  new_molecule [8; 1; 1]%Z [mkV 0 0 0; mkV 1 0 0; mkV 0 1 0] (OIdx 1) None = Ok m /\
  (forall i, m_oidx m = Some i -> ~ In i idx /\ ~ In (i - 3)%Z idx) /\
  mol_origin m = Ok (mkV 1 0 0) /\ remove_atoms m idx None = Ok m' /\ mol_origin m' = Ok (mkV 0 1 0).
Proof.
  exists ex_mol. eexists. exists [0]%Z. split; [reflexivity|]. split; [|repeat split; reflexivity].
  intros i H. inversion H; subst. cbn. lia.
Qed.
Lemma select_app {A} k1 k2 (l : list A) : select (k1 ++ k2) l = select k1 l ++ select k2 l.
Proof. unfold select. apply flat_map_app. Qed.
Lemma select_len {A} k (l : list A) : Forall (fun i => (i < length l)%nat) k -> length (select k l) = length k.
Proof.
  induction 1 as [|i k H F IH]; cbn; auto. destruct (nth_error l i) eqn:E; [cbn; f_equal; exact IH|].
  apply nth_error_None in E. lia.
Qed.
Lemma select_nth {A} k (l : list A) j i : Forall (fun i => (i < length l)%nat) k -> nth_error k j = Some i -> nth_error (select k l) j = nth_error l i.
Proof.
  intros F. revert j. induction F as [|a k H F IH]; intros j Hj; [destruct j; discriminate|].
  cbn. destruct (nth_error l a) eqn:E; [|apply nth_error_None in E; lia]. destruct j; cbn in *; [inversion Hj; subst; auto|]. apply IH; auto.
Qed.
Lemma sorted_prefix keep i : StronglySorted lt keep -> (forall j, (j <= i)%nat -> In j keep) -> nth_error keep i = Some i.
Proof.
  intros S H. assert (G : forall s keep i, StronglySorted lt keep -> (forall j, In j keep -> (s <= j)%nat) -> (forall j, (s <= j <= s + i)%nat -> In j keep) -> nth_error keep i = Some (s + i)%nat).
  { clear. intros s keep i. revert s keep. induction i as [|i IH]; intros s keep St L H.
    - destruct St as [|a keep St F]; [exfalso; apply (H s); lia|]. cbn. f_equal. specialize (L a (or_introl eq_refl)).
      destruct (H s ltac:(lia)) as [->|Hs]; [lia|]. rewrite Forall_forall in F. specialize (F _ Hs). lia.
    - destruct St as [|a keep St F]; [exfalso; apply (H s); lia|]. cbn. rewrite Forall_forall in F.
      assert (a = s). { specialize (L a (or_introl eq_refl)). destruct (H s ltac:(lia)) as [->|Hs]; auto. specialize (F _ Hs). lia. } subst.
      replace (s + S i)%nat with (S s + i)%nat by lia. apply IH; [auto| |].
      + intros j Hj. specialize (F _ Hj). lia.
      + intros j Hj. destruct (H j ltac:(lia)) as [->|]; auto. lia. }
  apply (G 0%nat); [auto|intros; lia|intros; apply H; lia].
Qed.
(** True when the tracked index is non-negative and only later atoms are removed. *)
Theorem C59_tracked_origin_partial m i idx m' o : length (m_species m) = length (m_atoms m) ->
  m_tracking m = true -> m_oidx m = Some (Z.of_nat i) -> mol_origin m = Ok o ->
  (forall z j, In z idx -> denotes (length (m_atoms m)) z j -> (i < j)%nat) ->
  remove_atoms m idx None = Ok m' -> mol_origin m' = Ok o.
Proof.
  intros P T I O H R. set (n := length (m_atoms m)) in *.
  unfold mol_origin in O. rewrite T, I in O. inv_bind O. inversion O; subst. clear O.
  assert (LI : (i < n)%nat /\ a = i).
  { unfold py_index in Ha. fold n in Ha. destruct (Z.leb_spec 0 (Z.of_nat i)), (Z.ltb_spec (Z.of_nat i) (Z.of_nat n)); cbn [andb] in Ha; try lia.
    - inversion Ha. lia.
    - destruct (Z.ltb_spec (Z.of_nat i) 0); [lia|]. rewrite andb_false_r in Ha. discriminate. }
  destruct LI as [LI ->]. clear Ha.
  assert (NI : forall k, m_oidx m = Some k -> ~ In k idx).
  { intros k Hk HI. rewrite I in Hk. inversion Hk; subst. specialize (H _ i HI (conj LI (or_introl eq_refl))). lia. }
  destruct (C60_remove_exact m idx P (fun _ => ex_intro _ _ (conj I (NI _ I)))) as [A B]. fold n in A, B.
  assert (V : Forall (valid_index n) idx \/ ~ Forall (valid_index n) idx).
  { destruct (Forall_dec (valid_index n) ltac:(intros z; unfold valid_index; destruct (Z_le_dec (- Z.of_nat n) z), (Z_lt_dec z (Z.of_nat n)); [left; lia|right; lia..]) idx); auto. }
  destruct V as [V|V]; [|rewrite (B V) in R; discriminate].
  destruct (A V) as (m2 & keep & E & K1 & K2 & K3 & _). rewrite E in R. inversion R; subst m2. clear R.
  assert (KI : nth_error keep i = Some i).
  { apply sorted_prefix; auto. intros j Hj. apply K2. split; [lia|]. intros (z & Hz & D). specialize (H z j Hz D). lia. }
  assert (F : Forall (fun i => (i < length (m_atoms m))%nat) keep) by (apply Forall_forall; intros x Hx; apply K2 in Hx; apply Hx).
  pose proof (select_nth keep (m_atoms m) i i F KI) as SN.
  assert (TM : m_tracking m' = true /\ m_oidx m' = Some (Z.of_nat i)).
  { unfold remove_atoms in E. cbn [bind] in E. inv_bind E. inv_bind E. inv_bind E. inversion E; subst. cbn. auto. }
  destruct TM as [TM IM]. unfold mol_origin. rewrite TM, IM, K3.
  assert (LS : (i < length (select keep (m_atoms m)))%nat) by (rewrite select_len by auto; apply nth_error_Some; congruence).
  unfold py_index. destruct (Z.leb_spec 0 (Z.of_nat i)); [|lia]. destruct (Z.ltb_spec (Z.of_nat i) (Z.of_nat (length (select keep (m_atoms m))))); [|lia].
  cbn [andb bind]. rewrite Nat2Z.id. f_equal. apply nth_error_nth. rewrite SN. apply nth_error_nth'. exact LI.
Qed.
(** ... or negative (counted from the end) and only earlier atoms are removed. *)
Lemma sorted_suffix n keep i : StronglySorted lt keep -> (i < n)%nat -> (forall j, In j keep -> (j < n)%nat) -> (forall j, (i <= j < n)%nat -> In j keep) ->
  exists pre, keep = pre ++ seq i (n - i).
Proof.
  intros St L B H. exists (filter (fun j => Nat.ltb j i) keep). apply sorted_ext; auto.
  - assert (G : forall a b, StronglySorted lt a -> StronglySorted lt b -> (forall x y, In x a -> In y b -> (x < y)%nat) -> StronglySorted lt (a ++ b)).
    { clear. induction 1 as [|x a Sa IH F]; intros Sb X; cbn; auto. constructor; [apply IH; auto; intros; apply X; cbn; auto|].
      apply Forall_app. split; auto. apply Forall_forall. intros y Hy. apply X; cbn; auto. }
    apply G.
    + clear - St. induction St as [|x a Sa IH F]; cbn [filter]; [constructor|]. destruct (Nat.ltb x i); auto. constructor; auto.
      rewrite Forall_forall in *. intros y Hy. apply filter_In in Hy as [Hy _]. auto.
    + generalize (n - i)%nat. clear. intros k. revert i. induction k; intros i; cbn; constructor; auto. apply Forall_forall. intros x Hx. apply in_seq in Hx. lia.
    + intros x y Hx Hy. apply filter_In in Hx as [_ Hx]. apply Nat.ltb_lt in Hx. apply in_seq in Hy. lia.
  - intros j. rewrite in_app_iff, filter_In, in_seq, Nat.ltb_lt. split.
    + intros HI. specialize (B _ HI). destruct (Nat.lt_ge_cases j i); [left; auto|right; lia].
    + intros [[HI _]|HI]; auto. apply H. lia.
Qed.
Theorem C59_tracked_origin_end_partial m k idx m' o : length (m_species m) = length (m_atoms m) ->
  m_tracking m = true -> m_oidx m = Some (- Z.of_nat (S k))%Z -> mol_origin m = Ok o ->
  (forall z j, In z idx -> denotes (length (m_atoms m)) z j -> (j < length (m_atoms m) - S k)%nat) ->
  remove_atoms m idx None = Ok m' -> mol_origin m' = Ok o.
Proof.
  intros P T I O H R. set (n := length (m_atoms m)) in *.
  unfold mol_origin in O. rewrite T, I in O. inv_bind O. inversion O; subst o. clear O.
  assert (LI : (S k <= n)%nat /\ a = (n - S k)%nat).
  { unfold py_index in Ha. fold n in Ha. destruct (Z.leb_spec 0 (- Z.of_nat (S k))); [lia|]. cbn [andb] in Ha.
    destruct (Z.leb_spec (- Z.of_nat n) (- Z.of_nat (S k))); [|discriminate]. destruct (Z.ltb_spec (- Z.of_nat (S k)) 0); [|lia].
    cbn [andb] in Ha. assert (EA : a = Z.to_nat (- Z.of_nat (S k) + Z.of_nat n)) by congruence. clear Ha. lia. }
  destruct LI as [LI ->]. clear Ha.
  assert (NI : forall z, m_oidx m = Some z -> ~ In z idx).
  { intros z Hz HI. rewrite I in Hz. inversion Hz; subst. specialize (H _ (n - S k)%nat HI). unfold denotes in H.
    assert ((n - S k < n - S k)%nat); [|lia]. apply H. lia. }
  destruct (C60_remove_exact m idx P (fun _ => ex_intro _ _ (conj I (NI _ I)))) as [A B]. fold n in A, B.
  destruct (Forall_dec (valid_index n) ltac:(intros z; unfold valid_index; destruct (Z_le_dec (- Z.of_nat n) z), (Z_lt_dec z (Z.of_nat n)); [left; lia|right; lia..]) idx) as [V|V];
    [|rewrite (B V) in R; discriminate].
  destruct (A V) as (m2 & keep & E & K1 & K2 & K3 & _). rewrite E in R. inversion R; subst m2. clear R.
  destruct (sorted_suffix n keep (n - S k) K1 ltac:(lia)) as (pre & ->).
  { intros j Hj. apply K2 in Hj. apply Hj. }
  { intros j Hj. apply K2. split; [lia|]. intros (z & Hz & D). specialize (H z j Hz D). lia. }
  replace (n - (n - S k))%nat with (S k) in * by lia.
  assert (F : Forall (fun i => (i < length (m_atoms m))%nat) (pre ++ seq (n - S k) (S k))) by (apply Forall_forall; intros x Hx; apply K2 in Hx; apply Hx).
  assert (KI : nth_error (pre ++ seq (n - S k) (S k)) (length pre) = Some (n - S k)%nat) by (rewrite nth_error_app2, Nat.sub_diag by auto; reflexivity).
  pose proof (select_nth _ (m_atoms m) _ _ F KI) as SN. pose proof (select_len _ _ F) as SL. rewrite app_length, seq_length in SL.
  assert (TM : m_tracking m' = true /\ m_oidx m' = Some (- Z.of_nat (S k))%Z).
  { unfold remove_atoms in E. cbn [bind] in E. inv_bind E. inv_bind E. inv_bind E. inversion E; subst. cbn [m_tracking m_oidx]. auto. }
  destruct TM as [TM IM]. unfold mol_origin. rewrite TM, IM, K3. unfold py_index. rewrite SL.
  destruct (Z.leb_spec 0 (- Z.of_nat (S k))); [lia|]. cbn [andb]. destruct (Z.leb_spec (- Z.of_nat (length pre + S k)) (- Z.of_nat (S k))); [|lia].
  destruct (Z.ltb_spec (- Z.of_nat (S k)) 0); [|lia]. cbn [andb bind]. replace (Z.to_nat _) with (length pre) by lia.
  f_equal. apply nth_error_nth. rewrite SN. apply nth_error_nth'. fold n. lia.
Qed.
Example C59_end_nonvacuous : exists m m', new_molecule [8; 1; 1]%Z [mkV 0 0 0; mkV 1 0 0; mkV 0 1 0] (OIdx (-1)) None = Ok m /\
  mol_origin m = Ok (mkV 0 1 0) /\ (forall z j, In z [0]%Z -> denotes 3 z j -> (j < 3 - 1)%nat) /\ remove_atoms m [0]%Z None = Ok m'.
Proof. do 2 eexists. split; [reflexivity|]. split; [reflexivity|]. split; [|reflexivity]. intros z j [<-|[]] [L [E|E]]; lia. Qed.
Example C59_nonvacuous : m_oidx ex_mol = Some (Z.of_nat 1) /\ mol_origin ex_mol = Ok (mkV 1 0 0) /\
  (forall z j, In z [-1]%Z -> denotes 3 z j -> (1 < j)%nat) /\
  remove_atoms ex_mol [-1]%Z None = Ok (mkMol [8; 1]%Z [mkV 0 0 0; mkV 1 0 0] true None (Some 1%Z) mI 0).
Proof. repeat split. intros z j [<-|[]] [L [E|E]]; lia. Qed.

(* ---------------- C79 ---------------- *)
(** "remove_atoms refuses to remove the tracked atom" is false: the index is compared
    literally, so its negative alias goes through and the origin becomes unusable. *)
Theorem C79_tracked_atom_protected_refuted : exists m m',
  new_molecule [8; 1; 1]%Z [mkV 0 0 0; mkV 1 0 0; mkV 0 1 0] (OIdx 2) None = Ok m /\
  mol_origin m = Ok (mkV 0 1 0) /\ denotes 3 (-1) 2 /\
  remove_atoms m [-1]%Z None = Ok m' /\ mol_origin m' = Err IndexError.
Proof.
  eexists. eexists. split; [reflexivity|]. split; [reflexivity|]. split; [split; [lia|right; reflexivity]|]. split; reflexivity.
Qed.
(** It does hold when tracked and removed indices use the same (literal) form. *)
Theorem C79_tracked_atom_protected_partial m idx i no m' : m_tracking m = true -> m_oidx m = Some i -> In i idx ->
  remove_atoms m idx no <> Ok m'.
Proof.
  intros T I H E. unfold remove_atoms in E. inv_bind E. rewrite T, I in E. rewrite (proj2 (existsb_exists _ _)) in E; [discriminate|].
  exists i. split; auto. apply Z.eqb_refl.
Qed.
Example C79_nonvacuous : exists m, m_tracking m = true /\ m_oidx m = Some 1%Z /\ In 1%Z [2; 1]%Z /\ length (m_atoms m) = 3%nat.
Proof. exists (mkMol [6; 8; 1]%Z [v0; mkV 1 0 0; mkV 2 0 0] true None (Some 1%Z) mI 0). repeat split. right. left. reflexivity. Qed.

(* ---------------- C61 ---------------- *)
(** Refuted: a rejected index turns tracking on, so the fixed origin is lost. *)
Theorem C61_rejected_origin_refuted : exists m m',
  new_molecule [8; 1]%Z [mkV 0 0 0; mkV 1 0 0] ONone None = Ok m /\ mol_origin m = Ok v0 /\
  set_origin_idx m (PInt 7) = (m', Err IndexError) /\ mol_origin m' = Err AttributeError.
Proof. do 2 eexists. repeat split; reflexivity. Qed.
(** It holds for molecules that already track an atom; and a rejected call never
    touches atoms, species or orientation. *)
Theorem C61_rejected_origin_partial m i m' e : set_origin_idx m i = (m', Err e) ->
  m_atoms m' = m_atoms m /\ m_species m' = m_species m /\ m_orient m' = m_orient m /\ m_prio m' = m_prio m /\
  (m_tracking m = true -> mol_origin m' = mol_origin m).
Proof.
  unfold set_origin_idx. intros H. destruct i as [z|]; [destruct (_ <? _)%Z|]; inversion H; subst; cbn; repeat split; auto;
    intros T; unfold mol_origin; cbn; rewrite T; reflexivity.
Qed.
Example C61_nonvacuous : m_tracking ex_mol = true /\ exists m', set_origin_idx ex_mol (PInt 3) = (m', Err IndexError).
Proof. split; [reflexivity|]. eexists. reflexivity. Qed.
(** The two renderings of remove_atoms and transform agree. *)
Lemma remove_atoms_agree m idx n : remove_atoms m idx n = let '(m', r) := remove_atoms_st m idx n in rmap (fun _ => m') r.
Proof.
  unfold remove_atoms, remove_atoms_st. destruct (match n with None => _ | Some _ => _ end) as [[]|]; cbn [bind]; [|reflexivity].
  destruct (if m_tracking m then _ else _) as [[]|]; cbn [bind]; [|reflexivity]. cbn [m_atoms].
  destruct (np_delete (m_species m) idx) as [s|]; cbn [bind]; [|reflexivity]. destruct (np_delete (m_atoms m) idx); reflexivity.
Qed.
Lemma mol_transform_agree m t b : mol_transform m t b = let '(m', r) := mol_transform_st m t b in rmap (fun _ => m') r.
Proof.
  unfold mol_transform, mol_transform_st. destruct (set_atoms _ _ _) as [m1|]; cbn [bind]; [|reflexivity].
  destruct b; cbn [andb]; [|reflexivity]. destruct (m_tracking m1); cbn [negb]; [destruct (m_oidx m1); reflexivity|]. destruct (mol_origin m1); reflexivity.
Qed.
