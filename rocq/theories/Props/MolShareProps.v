(** Molecules and the arrays of their users (C132). *)
From Coq Require Import Reals List Bool ZArith Arith Lra Lia.
From Verif.Model Require Import Base Vec Transform Molecule MolShare.
From Verif.Spec Require Import Geometry MolShareSpec.
From Verif.Proofs Require Import VecFacts VolumeFacts.
From Verif.Props Require Import MoleculeProps StateProps.
Import ListNotations.
Open Scope R_scope.

Lemma run_snoc w h e : mw_run w (h ++ [e]) = mw_step (mw_run w h) e.
Proof. unfold mw_run. rewrite fold_left_app. reflexivity. Qed.
Lemma told_app ms mine h h' : told ms mine (h ++ h') =
  told ms mine h ++ told (fold_left mats_step h ms) (fold_left mine_step h mine) h'.
Proof. revert ms mine. induction h as [|e h IH]; intros; cbn; [reflexivity|]. rewrite IH, app_assoc. reflexivity. Qed.
Lemma arrays_step w e : mw_mats (mw_step w e) = mats_step (mw_mats w) e /\ mw_mine (mw_step w e) = mine_step (mw_mine w) e.
Proof.
  destruct w as [ms mine past cur sl m]. destruct e as [i r|b i v|n i v|v|s b|b|i|o]; cbn [mw_step call_now mats_step mine_step mw_mats mw_mine]; auto.
  - destruct (Nat.eqb _ _); auto.
  - destruct (m_tracking m); [destruct (m_oidx m); [destruct (py_index _ _)|]|destruct (m_origin m)]; auto.
  - destruct (mol_step _ _). auto.
  - destruct (mol_step _ _). auto.
  - destruct (mol_step _ _). auto.
  - destruct (mol_step _ _). auto.
Qed.
Lemma arrays_run w h : mw_mats (mw_run w h) = fold_left mats_step h (mw_mats w) /\ mw_mine (mw_run w h) = fold_left mine_step h (mw_mine w).
Proof.
  revert w. induction h as [|e h IH]; intros w; [auto|]. cbn [mw_run fold_left]. destruct (arrays_step w e) as [<- <-]. apply IH.
Qed.
(** one call: what it leaves of atoms and orientation *)
Lemma step_fields m o : let m' := fst (mol_step m o) in
  (stores_atoms m o = false -> m_atoms m' = m_atoms m) /\
  match o with
  | OOrient _ | OReset => match snd (mol_step m o) with Ok _ => True | Err _ => m_orient m' = m_orient m end
  | _ => m_orient m' = m_orient m
  end.
Proof.
  destruct o as [s p|p|s|idx n|t b|p|i|r| |i]; cbn [mol_step stores_atoms].
  - unfold set_atoms. destruct (_ =? _)%nat; cbn; split; auto; discriminate.
  - unfold update_positions. destruct (_ =? _)%nat; cbn; split; auto; discriminate.
  - unfold update_species. destruct (_ =? _)%nat; cbn; auto.
  - unfold remove_atoms_st. destruct (bind _ _); [|cbn; auto]. destruct (np_delete (m_species m) idx); [|cbn; auto]. cbn [m_atoms].
    destruct (np_delete (m_atoms m) idx); cbn; split; auto; discriminate.
  - unfold mol_transform_st, set_atoms. rewrite map_length. destruct (_ =? _)%nat; [|cbn; auto]. split; [discriminate|]. destruct b; [|reflexivity]. cbn [m_tracking]. destruct (m_tracking m); [reflexivity|]. destruct (mol_origin _); reflexivity.
  - cbn; auto.
  - unfold set_origin_idx. destruct i as [z|]; [destruct (_ <? _)%Z|]; cbn; auto.
  - unfold set_orientation. destruct (Rltb _ _); [cbn; auto|]. destruct (Rltb _ _); cbn; auto.
  - unfold reset_orientation, set_orientation. destruct (Rltb _ _); [cbn; auto|]. destruct (Rltb _ _); cbn; auto.
  - destruct i; cbn; auto.
Qed.
Lemma orient_ok m r u : snd (mol_step m (OOrient r)) = Ok u -> m_orient (fst (mol_step m (OOrient r))) = r.
Proof. cbn [mol_step]. unfold set_orientation. destruct (Rltb _ _); [discriminate|]. destruct (Rltb _ _); [discriminate|]. reflexivity. Qed.
Lemma seen_call w e o : call_now w e = Some o -> seen (mw_step w e) = fst (mol_step (seen w) o).
Proof.
  intros H. pose proof (step_fields (seen w) o) as [A B]. pose proof (orient_ok (seen w)) as OK. destruct w as [ms mine past cur sl m].
  unfold mw_step. rewrite H. set (w0 := mkMW ms mine past cur sl m) in *.
  assert (SA : m_atoms (seen w0) = cur) by reflexivity. assert (SO : m_orient (seen w0) = match sl with OwnM q => q | SharedM i => ms i end) by reflexivity.
  set (m0 := seen w0) in *.
  destruct (mol_step m0 o) as [m' r] eqn:E. cbn [fst snd] in *.
  assert (S : m_atoms m' = if stores_atoms m0 o then m_atoms m' else cur).
  { destruct (stores_atoms _ o) eqn:K; [reflexivity|]. rewrite <- SA. exact (A eq_refl). }
  assert (O : m_orient m' = match new_slot w0 e o r m' with OwnM q => q | SharedM i => ms i end).
  { unfold new_slot. cbn [mw_orient w0].
    assert (KEEP : m_orient m' = m_orient m0 -> m_orient m' = match sl with OwnM q => q | SharedM i => ms i end) by (intros ->; exact SO).
    destruct e as [i q|b i v|n i v|v|s b|b|i|o']; cbn [call_now] in H; try discriminate; injection H as <-; try (apply KEEP, B).
    - cbn [mw_mats w0] in *. destruct r as [u|x]; [|apply KEEP, B]. specialize (OK (ms i) u). rewrite E in OK. apply OK. reflexivity.
    - destruct o' as [| | | | | | |q| |]; try (apply KEEP, B); destruct r; try reflexivity; apply KEEP, B. }
  unfold seen, slot_mat. cbn [mw_mol mw_atoms mw_orient mw_mats]. rewrite <- S, <- O. destruct m'. reflexivity.
Qed.
Lemma call_mine w e o : call_now w e = Some o -> mw_past (mw_step w e) = if stores_atoms (seen w) o then mw_past w ++ [mw_atoms w] else mw_past w.
Proof.
  intros H. destruct w as [ms mine past cur sl m]. unfold mw_step. rewrite H. destruct (mol_step _ o). auto.
Qed.

(* ------------------------------------------------------------------ *)
(** * What is given *)
(** calls do not look at the orientation *)
Lemma step_alike m u o : same_but_orient m u ->
  snd (mol_step m o) = snd (mol_step u o) /\ same_but_orient (fst (mol_step m o)) (fst (mol_step u o)).
Proof.
  destruct m as [s a tr og ix r pr], u as [s' a' tr' og' ix' r' pr']. intros (A&B&C&D&E&F). cbn in *. subst. unfold same_but_orient.
  destruct o as [s p|p|s|idx n|t b|p|i|q| |i]; cbn [mol_step].
  - unfold set_atoms. destruct (_ =? _)%nat; cbn; repeat split.
  - unfold update_positions. cbn [m_atoms]. destruct (_ =? _)%nat; cbn; repeat split.
  - unfold update_species. cbn [m_species]. destruct (_ =? _)%nat; cbn; repeat split.
  - unfold remove_atoms_st. cbn [m_atoms m_tracking m_oidx m_species]. destruct (bind _ _); [|cbn; repeat split]. destruct (np_delete s' idx); [|cbn; repeat split].
    destruct (np_delete a' idx); cbn; repeat split.
  - unfold mol_transform_st, set_atoms. cbn [m_atoms m_species]. destruct (_ =? _)%nat; [|cbn; repeat split]. cbn [m_tracking]. unfold mol_origin. cbn [m_tracking m_origin m_oidx m_atoms].
    destruct b; [|cbn; repeat split]. destruct tr'; [destruct ix'; cbn; repeat split|destruct og'; cbn; repeat split].
  - cbn; repeat split.
  - unfold set_origin_idx. destruct i as [z|]; [cbn [m_atoms]; destruct (_ <? _)%Z|]; cbn; repeat split.
  - unfold set_orientation. destruct (Rltb _ _); [cbn; repeat split|]. destruct (Rltb _ _); cbn; repeat split.
  - unfold reset_orientation, set_orientation. destruct (Rltb _ _); [cbn; repeat split|]. destruct (Rltb _ _); cbn; repeat split.
  - destruct i; cbn; repeat split.
Qed.
Lemma told_one ms mine e : told ms mine [e] = match e with GiveAtoms s b => [OSetAtoms s (mine b)] | GivePositions b => [OUpdatePositions (mine b)]
   | GiveOrient i => [OOrient (ms i)] | Call o => [o] | _ => [] end.
Proof. destruct e; reflexivity. Qed.
Lemma told_call w e : told (mw_mats w) (mw_mine w) [e] = match call_now w e with Some o => [o] | None => [] end.
Proof. destruct e; reflexivity. Qed.
Lemma history_app m a b : history m (a ++ b) = history (history m a) b.
Proof. unfold history. apply fold_left_app. Qed.

(** C132.  As long as the program does not write to what it read from the molecule, atoms,
    species, origin and priority are those of the calls with the values of their time: the
    arrays given were copied. *)
Theorem C132_copied_partial : forall ms mine m h, Forall (fun e => ~ writes_back e) h ->
  same_but_orient (seen (mw_run (mw_new ms mine m) h)) (history m (told ms mine h)).
Proof.
  intros ms mine m h. induction h as [|e h IH] using rev_ind; intros Q.
  - cbn. repeat split.
  - apply Forall_app in Q as [Q QE]. inversion QE as [|? ? NE _]; subst. specialize (IH Q).
    rewrite run_snoc, told_app, history_app. set (w := mw_run (mw_new ms mine m) h) in *.
    assert (AR := arrays_run (mw_new ms mine m) h). fold w in AR. cbn [mw_new mw_mats mw_mine] in AR. destruct AR as [AR1 AR2]. rewrite <- AR1, <- AR2.
    rewrite told_call. destruct (call_now w e) as [o|] eqn:C.
    + rewrite (seen_call _ _ _ C). cbn [history fold_left]. apply step_alike, IH.
    + cbn [history fold_left]. destruct w as [ms1 mine1 past cur sl m1]. destruct e; cbn in C; try discriminate; cbn [mw_step call_now]; try exact IH; exfalso; apply NE; exact I.
Qed.
(** and if it does not write to matrices it gave as orientations either, the whole molecule *)
Theorem C132_left_alone_partial : forall ms mine m h, Forall (fun e => ~ writes_back e) h -> orients_left_alone h ->
  seen (mw_run (mw_new ms mine m) h) = history m (told ms mine h).
Proof.
  intros ms mine m h Q LA.
  enough (K : seen (mw_run (mw_new ms mine m) h) = history m (told ms mine h) /\
    (forall i, mw_orient (mw_run (mw_new ms mine m) h) = SharedM i -> exists h1 h2, h = h1 ++ GiveOrient i :: h2)) by apply K.
  induction h as [|e h IH] using rev_ind.
  - split; [destruct m; reflexivity|]. intros i H. discriminate.
  - apply Forall_app in Q as [Q QE]. inversion QE as [|? ? NE _]; subst.
    assert (LA' : orients_left_alone h).
    { intros h1 i h2 d h3 ->. apply (LA h1 i h2 d (h3 ++ [e])). repeat (rewrite <- app_assoc; cbn). reflexivity. }
    destruct (IH Q LA') as [V I].
    rewrite run_snoc, told_app, history_app. set (w := mw_run (mw_new ms mine m) h) in *.
    assert (AR := arrays_run (mw_new ms mine m) h). fold w in AR. cbn [mw_new mw_mats mw_mine] in AR. destruct AR as [AR1 AR2]. rewrite <- AR1, <- AR2.
    rewrite told_call.
    assert (J : forall i, mw_orient w = SharedM i -> exists h1 h2, h ++ [e] = h1 ++ GiveOrient i :: h2).
    { intros i H. destruct (I i H) as (h1 & h2 & ->). exists h1, (h2 ++ [e]). rewrite <- app_assoc. reflexivity. }
    destruct (call_now w e) as [o|] eqn:C.
    + rewrite (seen_call _ _ _ C), V. split; [reflexivity|].
      destruct w as [ms1 mine1 past cur sl m1]. unfold mw_step. rewrite C. destruct (mol_step (seen (mkMW ms1 mine1 past cur sl m1)) o) as [m' r].
      intros i. cbn [mw_orient]. unfold new_slot.
      destruct e as [j q|b j v|n j v|v|s b|b|j|o']; cbn [call_now] in C; try discriminate; injection C as <-; try exact (J i).
      * destruct r; [|exact (J i)]. intros H. injection H as <-. exists h, []. reflexivity.
      * destruct o'; try exact (J i); destruct r; try exact (J i); discriminate.
    + cbn [history fold_left]. rewrite <- V. destruct w as [ms1 mine1 past cur sl m1]. cbn [mw_orient] in J, I. destruct e as [j q|b j v|n j v|v|s b|b|j|o']; cbn in C; try discriminate; cbn [mw_step call_now].
      * split; [|exact J]. unfold seen, slot_mat. cbn. destruct sl as [r|i]; [reflexivity|]. f_equal. unfold upd_fun. destruct (Nat.eqb_spec j i); [|reflexivity].
        subst j. exfalso. destruct (I i eq_refl) as (h1 & h2 & ->). apply (LA h1 i h2 q []). rewrite <- app_assoc. reflexivity.
      * split; [reflexivity|exact J].
      * exfalso. apply NE. exact Logic.I.
      * exfalso. apply NE. exact Logic.I.
Qed.
(** C132 (and C99) fail when it does: the orientation becomes whatever is written *)
Theorem C132_orientation_refuted : forall ms mine m i r q, rotation r -> ms i = r ->
  let h := [GiveOrient i; WriteMat i q] in
  snd (mol_step m (OOrient r)) = Ok tt /\ m_orient (history m (told ms mine h)) = r /\ m_orient (seen (mw_run (mw_new ms mine m) h)) = q.
Proof.
  intros ms mine m i r q HR E h. destruct (C99_orientation_assigned m r) as [A _]. destruct (A HR) as (m' & S & O & _).
  split; [rewrite S; reflexivity|]. split.
  - unfold h, history. cbn [told app fold_left]. rewrite E, S. exact O.
  - destruct (C99_orientation_assigned (seen (mw_new ms mine m)) r) as [B _]. destruct (B HR) as (m2 & S2 & _).
    unfold h, mw_run. cbn [fold_left]. unfold mw_step at 2, mw_new. cbn [call_now mw_mats]. rewrite E. unfold mw_new in S2. rewrite S2.
    cbn [new_slot]. unfold mw_step. cbn [call_now]. unfold seen, slot_mat. cbn. unfold upd_fun. rewrite Nat.eqb_refl. reflexivity.
Qed.

(* ------------------------------------------------------------------ *)
(** * What is read *)
Lemma put_row_len i v l : length (put_row i v l) = length l.
Proof. revert i. induction l; intros []; cbn; auto. Qed.
Lemma put_row_nth i v l j d : (i < length l)%nat -> nth j (put_row i v l) d = if Nat.eqb j i then v else nth j l d.
Proof. revert i j. induction l as [|x l IH]; intros i j H; [cbn in H; lia|]. destruct i, j; cbn; auto. apply IH. cbn in H. lia. Qed.
Lemma past_len w e : (length (mw_past w) <= length (mw_past (mw_step w e)))%nat.
Proof.
  assert (PL : forall n i v l, length (put_past n i v l) = length l) by (intros n i v l; revert n; induction l; intros []; cbn; auto).
  destruct (call_now w e) as [o|] eqn:C.
  - rewrite (call_mine w e o C). destruct (stores_atoms _ _); [rewrite app_length; cbn; lia|lia].
  - destruct w as [ms mine past cur sl m]. destruct e; cbn in C; try discriminate; cbn [mw_step call_now mw_past]; auto.
    + destruct (Nat.eqb _ _); cbn; [lia|rewrite PL; lia].
    + destruct (m_tracking m); [destruct (m_oidx m); [destruct (py_index _ _)|]|destruct (m_origin m)]; cbn; lia.
Qed.
Lemma past_run w h : (length (mw_past w) <= length (mw_past (mw_run w h)))%nat.
Proof.
  induction h as [|e h IH] using rev_ind; [apply le_n|]. rewrite run_snoc. pose proof (past_len (mw_run w h) e). lia.
Qed.
(** an array read from .atoms is the molecule's own until a call stores a new one: *)
Theorem C132_atoms_shared_refuted : forall w i v, let n := length (mw_past w) in let w' := mw_step w (WriteGot n i v) in
  got w n = m_atoms (seen w) /\
  ((i < length (m_atoms (seen w)))%nat -> nth i (m_atoms (seen w')) v0 = v /\ forall j, j <> i -> nth j (m_atoms (seen w')) v0 = nth j (m_atoms (seen w)) v0) /\
  length (m_atoms (seen w')) = length (m_atoms (seen w)) /\ m_species (seen w') = m_species (seen w).
Proof.
  intros w i v n w'. destruct w as [ms mine past cur sl m]. cbn [mw_past] in n. unfold w'. cbn [mw_step call_now]. unfold n. rewrite Nat.eqb_refl.
  unfold got, seen. cbn. rewrite app_nth2, Nat.sub_diag by lia. cbn. split; [reflexivity|]. split.
  - intros H. rewrite put_row_nth, Nat.eqb_refl by auto. split; [reflexivity|]. intros j Hj. rewrite put_row_nth by auto. rewrite (proj2 (Nat.eqb_neq j i)); auto.
  - split; [apply put_row_len|reflexivity].
Qed.
(** afterwards the program's copy and the molecule have parted for good *)
Theorem C132_parted_partial : forall w e o h n i v, call_now w e = Some o -> stores_atoms (seen w) o = true -> (n <= length (mw_past w))%nat ->
  let w' := mw_run (mw_step w e) h in seen (mw_step w' (WriteGot n i v)) = seen w'.
Proof.
  intros w e o h n i v C S N w'. assert (L : (n < length (mw_past w'))%nat).
  { pose proof (past_run (mw_step w e) h) as P. fold w' in P. pose proof (call_mine w e o C) as K. rewrite S in K. rewrite K, app_length in P. cbn in P. lia. }
  destruct w' as [ms mine past cur sl m]. cbn [mw_past] in L. cbn [mw_step call_now]. rewrite (proj2 (Nat.eqb_neq n (length past))) by lia. reflexivity.
Qed.
(** and calls never change arrays that were read before and replaced *)
Theorem C132_old_arrays_kept_partial : forall w e o n, call_now w e = Some o -> (n <= length (mw_past w))%nat -> got (mw_step w e) n = got w n.
Proof.
  intros w e o n C N. pose proof (call_mine w e o C) as K. unfold got.
  assert (SA : stores_atoms (seen w) o = false -> mw_atoms (mw_step w e) = mw_atoms w).
  { intros S. destruct w as [ms mine past cur sl m]. unfold mw_step. rewrite C. destruct (mol_step _ o). rewrite S. reflexivity. }
  destruct (stores_atoms (seen w) o) eqn:S.
  - rewrite K, <- app_assoc. rewrite (app_assoc (mw_past w)). rewrite app_nth1 by (rewrite app_length; cbn; lia). reflexivity.
  - rewrite K, (SA eq_refl). reflexivity.
Qed.
(** writing to the origin: a point of its own moves alone, ... *)
Theorem C132_origin_point_partial : forall w v q, m_tracking (mw_mol w) = false -> m_origin (mw_mol w) = Some q ->
  let w' := mw_step w (WriteOrigin v) in
  mol_origin (seen w') = Ok v /\ m_atoms (seen w') = m_atoms (seen w) /\ m_species (seen w') = m_species (seen w) /\ m_orient (seen w') = m_orient (seen w).
Proof.
  intros w v q T O w'. destruct w as [ms mine past cur sl m]. cbn [mw_mol] in T, O. unfold w'. cbn [mw_step call_now]. rewrite T, O. unfold seen, mol_origin. cbn. auto.
Qed.
(** ... an origin that tracks an atom takes the atom with it *)
Theorem C132_origin_atom_refuted : forall w v z j, m_tracking (mw_mol w) = true -> m_oidx (mw_mol w) = Some z -> py_index (length (mw_atoms w)) z = Ok j ->
  let w' := mw_step w (WriteOrigin v) in
  mol_origin (seen w') = Ok v /\ nth j (m_atoms (seen w')) v0 = v /\ forall i, i <> j -> nth i (m_atoms (seen w')) v0 = nth i (m_atoms (seen w)) v0.
Proof.
  intros w v z j T O P w'. destruct w as [ms mine past cur sl m]. cbn [mw_mol mw_atoms] in T, O, P. unfold w'. cbn [mw_step call_now]. rewrite T, O, P.
  assert (J : (j < length cur)%nat).
  { unfold py_index in P. destruct ((0 <=? z) && (z <? Z.of_nat (length cur)))%Z eqn:E.
    - inversion P; subst. apply andb_prop in E as [E1 E2]. apply Z.leb_le in E1. apply Z.ltb_lt in E2. lia.
    - destruct ((- Z.of_nat (length cur) <=? z) && (z <? 0))%Z eqn:E'; [|discriminate P]. inversion P; subst. apply andb_prop in E' as [E1 E2]. apply Z.leb_le in E1. apply Z.ltb_lt in E2. lia. }
  unfold seen, mol_origin. cbn. rewrite T, O. rewrite put_row_len, P. cbn. rewrite put_row_nth, Nat.eqb_refl by auto. split; [reflexivity|]. split; [reflexivity|].
  intros i Hi. rewrite put_row_nth by auto. rewrite (proj2 (Nat.eqb_neq i j)); auto.
Qed.
Example C132_nonvacuous : exists m, new_molecule [8; 1]%Z [v0; mkV 1 0 0] (OIdx 1) None = Ok m /\
  let w := mw_new (fun _ => mI) (fun _ => [mkV 5 5 5; v0]) m in
  m_tracking (mw_mol w) = true /\ py_index (length (mw_atoms w)) 1 = Ok 1%nat /\
  let h := [GivePositions 0; WriteMine 0 0 v0; GiveOrient 3; Call (OTransform (TTranslation (mkV 1 0 0) true false) true)] in
  Forall (fun e => ~ writes_back e) h /\ orients_left_alone h /\ m_atoms (seen (mw_run w h)) = [vadd (mkV 5 5 5) (mkV 1 0 0); vadd v0 (mkV 1 0 0)].
Proof.
  eexists. split; [reflexivity|]. cbv zeta. split; [reflexivity|]. split; [reflexivity|].
  assert (F : Forall (fun e => ~ writes_back e) [GivePositions 0; WriteMine 0 0 v0; GiveOrient 3; Call (OTransform (TTranslation (mkV 1 0 0) true false) true)]).
  { repeat constructor; intros H; exact H. }
  assert (L : orients_left_alone [GivePositions 0; WriteMine 0 0 v0; GiveOrient 3; Call (OTransform (TTranslation (mkV 1 0 0) true false) true)]).
  { intros h1 i h2 d h3 E. destruct h1 as [|? [|? [|? [|? h1]]]]; cbn in E; inversion E; try (destruct h2 as [|? h2]; [discriminate|]; inversion E; destruct h2; discriminate). destruct h1; discriminate. }
  split; [exact F|]. split; [exact L|]. destruct (C132_copied_partial (fun _ => mI) (fun _ => [mkV 5 5 5; v0])
    (mkMol [8; 1]%Z [v0; mkV 1 0 0] true None (Some 1%Z) mI 0) _ F) as (_ & A & _).
  cbn [rmap] in *. etransitivity; [exact A|]. cbn [told mats_step mine_step app]. unfold history. cbn [fold_left].
  cbn [mol_step update_positions length Nat.eqb m_atoms keep_on_err fst m_species m_tracking m_origin m_oidx m_orient m_prio upd_fun].
  destruct (rotation_near mI rotation_mI) as [R1 R2]. unfold set_orientation. rewrite (proj2 (Rltb_false _ _)) by lra. rewrite (proj2 (Rltb_false _ _)) by lra.
  reflexivity.
Qed.
