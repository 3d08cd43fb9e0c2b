(** Only the order of the priorities matters (C153). *)
From Coq Require Import Reals List ZArith Bool Permutation Lia Lra.
From Verif.Model Require Import Base Vec Algebraic Transform Voxel Post Generator Volume Molecule Scene Priority.
From Verif.Spec Require Import PrioritySpec SceneSpec RenumberSpec.
From Verif.Proofs Require Import PriorityFacts VolumeFacts SceneFacts VecFacts.
From Verif.Props Require Import SceneProps VolumeProps WholeProps GroupProps.
Import ListNotations.
Open Scope R_scope.

Section Abstract.
Context {Ob Pt Sp : Type} (prio : Ob -> Z) (atoms : Ob -> list Pt) (species : Ob -> list Sp) (inside : Ob -> Pt -> bool).
Variable f : Z -> Z.
Definition alike (o o' : Ob) : Prop := atoms o' = atoms o /\ species o' = species o /\ forall p, inside o' p = inside o p.
Variable R : Ob -> Ob -> Prop.
Definition Rf (o o' : Ob) : Prop := R o o' /\ prio o' = f (prio o).
Variable ps : list Z.
Hypothesis K : keeps_order f ps.
Lemma keeps_leb a b : In a ps -> In b ps -> (f a <=? f b)%Z = (a <=? b)%Z.
Proof. intros Ha Hb. pose proof (K a b Ha Hb). pose proof (K b a Hb Ha). destruct (Z.leb_spec a b), (Z.leb_spec (f a) (f b)); try reflexivity; exfalso; lia. Qed.
Lemma keeps_ltb a b : In a ps -> In b ps -> (f a <? f b)%Z = (a <? b)%Z.
Proof. intros Ha Hb. pose proof (K a b Ha Hb). destruct (Z.ltb_spec a b), (Z.ltb_spec (f a) (f b)); try reflexivity; exfalso; lia. Qed.
Lemma keeps_eqb a b : In a ps -> In b ps -> (f a =? f b)%Z = (a =? b)%Z.
Proof. intros Ha Hb. pose proof (K a b Ha Hb). pose proof (K b a Hb Ha). destruct (Z.eqb_spec a b), (Z.eqb_spec (f a) (f b)); try reflexivity; exfalso; subst; lia. Qed.
Lemma insert_alike x x' l l' : In (prio x) ps -> Forall (fun o => In (prio o) ps) l -> Rf x x' -> Forall2 Rf l l' ->
  Forall2 Rf (insert_by prio x l) (insert_by prio x' l').
Proof.
  intros Hx HF HR H. induction H as [|y y' l l' Hy H IH]; cbn; [auto|]. inversion HF; subst.
  destruct HR as [HR P], Hy as [Hy Q]. rewrite P, Q, keeps_leb by auto. destruct (prio x <=? prio y)%Z.
  - constructor; [split; auto|]. constructor; [split; auto|]. auto.
  - constructor; [split; auto|]. auto.
Qed.
Lemma insert_in x l : Forall (fun o => In (prio o) ps) l -> In (prio x) ps -> Forall (fun o => In (prio o) ps) (insert_by prio x l).
Proof. intros HF Hx. induction HF; cbn; [auto|]. destruct (_ <=? _)%Z; auto. Qed.
Lemma sort_in l : Forall (fun o => In (prio o) ps) l -> Forall (fun o => In (prio o) ps) (sort_by prio l).
Proof. induction 1; cbn; [auto|]. apply insert_in; auto. Qed.
Lemma sort_alike l l' : Forall (fun o => In (prio o) ps) l -> Forall2 Rf l l' -> Forall2 Rf (sort_by prio l) (sort_by prio l').
Proof. intros HF H. induction H as [|x x' l l' Hx H IH]; cbn; [auto|]. inversion HF; subst. apply insert_alike; auto. apply sort_in; auto. Qed.
(** np.unique *)
Lemma unique_insert_alike v i l : In v ps -> Forall (fun wj => In (fst wj) ps) l ->
  unique_insert (f v) i (map (fun wj => (f (fst wj), snd wj)) l) = map (fun wj => (f (fst wj), snd wj)) (unique_insert v i l).
Proof.
  intros Hv HF. induction HF as [|[w j] l Hw HF IH]; [reflexivity|]. cbn in *. rewrite keeps_ltb, keeps_eqb by auto.
  destruct (v <? w)%Z; [reflexivity|]. destruct (v =? w)%Z; [reflexivity|]. cbn. rewrite IH. reflexivity.
Qed.
Lemma unique_insert_in v i l : In v ps -> Forall (fun wj => In (fst wj) ps) l -> Forall (fun wj => In (fst wj) ps) (unique_insert v i l).
Proof.
  intros Hv HF. induction HF as [|[w j] l Hw HF IH]; cbn in *; [auto|]. destruct (v <? w)%Z; [auto|]. destruct (v =? w)%Z; auto.
Qed.
Lemma unique_from_in l i : Forall (fun v => In v ps) l -> Forall (fun wj => In (fst wj) ps) (unique_from i l).
Proof. intros H. revert i. induction H; intros i; cbn; [auto|]. apply unique_insert_in; auto. Qed.
Lemma unique_from_alike l i : Forall (fun v => In v ps) l ->
  unique_from i (map f l) = map (fun wj => (f (fst wj), snd wj)) (unique_from i l).
Proof. intros H. revert i. induction H as [|v l Hv H IH]; intros i; [reflexivity|]. cbn. rewrite IH. apply unique_insert_alike; auto. apply unique_from_in; auto. Qed.
Lemma unique_alike l : Forall (fun v => In v ps) l -> np_unique_index (map f l) = np_unique_index l.
Proof. intros H. unfold np_unique_index. rewrite unique_from_alike by auto. rewrite map_map. reflexivity. Qed.
Hypothesis RA : forall o o', R o o' -> alike o o'.
Lemma prio_map l l' : Forall2 Rf l l' -> map prio l' = map f (map prio l).
Proof. induction 1 as [|x y l l' [_ H] _ IH]; cbn; congruence. Qed.
Lemma Forall2_length' {A B} (Q : A -> B -> Prop) l l' : Forall2 Q l l' -> length l = length l'.
Proof. induction 1; cbn; congruence. Qed.
Lemma priorities_alike l l' : Forall (fun o => In (prio o) ps) l -> Forall2 Rf l l' -> get_priorities prio l' = get_priorities prio l.
Proof.
  intros HF H. unfold get_priorities. rewrite (prio_map _ _ H), <- (Forall2_length' _ _ _ H).
  rewrite unique_alike; [reflexivity|]. apply Forall_map. exact HF.
Qed.
Lemma check_alike i o o' e (l l' : list Ob) : alike o o' -> Forall2 Rf l l' ->
  check_object atoms inside l' i o' e = check_object atoms inside l i o e.
Proof.
  intros (A & S & I) H. unfold check_object. rewrite A, <- (Forall2_length' _ _ _ H). generalize (ones (length (atoms o))) as m.
  generalize 0%nat as k. revert e. induction H as [|x x' l l' [Hx _] H IH]; intros e k m; cbn; [reflexivity|].
  destruct e as [|e]; cbn; [reflexivity|]. rewrite IH. f_equal. destruct (i =? k)%nat; [reflexivity|]. do 2 f_equal.
  unfold interior_mask. apply map_ext. apply RA in Hx as (_ & _ & Hx). exact Hx.
Qed.
Lemma checks_alike l l' : Forall (fun o => In (prio o) ps) l -> Forall2 Rf l l' -> checks prio atoms inside l' = checks prio atoms inside l.
Proof.
  intros HF H. unfold checks. rewrite (priorities_alike _ _ HF H). destruct (get_priorities prio l) as [rel offs]. clear HF.
  rewrite <- (Forall2_length' _ _ _ H).
  assert (G : forall m m' k, Forall2 Rf m m' -> forall L L', Forall2 Rf L L' -> map (fun io => let '(i, ob) := io in check_object atoms inside L' i ob (nth (S (nth i rel 0%nat)) offs 0%nat)) (combine (seq k (length m)) m')
    = map (fun io => let '(i, ob) := io in check_object atoms inside L i ob (nth (S (nth i rel 0%nat)) offs 0%nat)) (combine (seq k (length m)) m)).
  { intros m m' k HM. revert k. induction HM as [|x x' m m' [Hx Px] HM IH]; intros k L L' HL; cbn; [reflexivity|]. rewrite (IH _ _ _ HL). f_equal.
    apply check_alike; auto. }
  apply G; auto.
Qed.
Lemma stack_alike l l' cks : Forall2 Rf l l' -> stack_atoms atoms l' cks = stack_atoms atoms l cks /\ stack_species species l' cks = stack_species species l cks.
Proof.
  intros H. unfold stack_atoms, stack_species. revert cks. induction H as [|x x' l l' [Hx _] H IH]; intros [|k cks]; cbn; auto.
  destruct (RA _ _ Hx) as (A & S & _). destruct (IH cks) as [-> ->]. rewrite A, S. auto.
Qed.
End Abstract.

(* ------------------------------------------------------------------ *)
(** * Volumes *)
Lemma renumbered_same w v v' : renumbered v v' -> vol_result v' = vol_result v /\ forall p, vol_inside w v' p = vol_inside w v p.
Proof.
  revert v'. induction v as [l|pr vs ca IH] using volume_ind'; intros v' H; inversion H as [l0 p0 E1 E2|p0 q0 vols0 vols' ca0 f F KO PM E1 E2]; subst; cbn [vol_result vol_inside].
  - auto.
  - split; [reflexivity|]. intros p. clear H KO PM. induction F as [|x y l l' Hx F IHl]; cbn; [reflexivity|]. inversion IH as [|? ? I1 I2]; subst.
    destruct (I1 _ Hx) as [_ ->]. rewrite IHl by auto. reflexivity.
Qed.
Lemma renumbered_alike w v v' : renumbered v v' -> alike vol_atoms vol_species (vol_inside w) v v'.
Proof. intros H. destruct (renumbered_same w _ _ H) as [A B]. unfold alike, vol_atoms, vol_species. rewrite A. auto. Qed.
Lemma leaf_populate_prio w c l p : leaf_populate w c (with_prio l p) = rmap (fun r => (fst r, with_prio (snd r) p)) (leaf_populate w c l).
Proof.
  unfold leaf_populate. cbn [with_prio l_gen]. destruct (l_gen l) as [g|]; [|reflexivity].
  change (get_bounding_box w (with_prio l p)) with (get_bounding_box w l).
  destruct (supply_atoms _ _ _ _ _) as [[[c' g'] [co sp]]|]; [|reflexivity]. cbn.
  change (leaf_check w (with_prio l p) co) with (leaf_check w l co). destruct (index_mask co _); [|reflexivity]. cbn.
  destruct (index_mask sp _); reflexivity.
Qed.
(** how two calls on renumbered objects compare *)
Definition same_outcome {A} (Q : A -> A -> Prop) (r r' : res (nat * A)) : Prop :=
  match r, r' with Ok a, Ok a' => fst a = fst a' /\ Q (snd a) (snd a') | Err e, Err e' => e = e' | _, _ => False end.
Lemma mapMS_outcome {A} (Q : A -> A -> Prop) (g : nat -> A -> res (nat * A)) l l' : Forall2 (fun x x' => forall c, same_outcome Q (g c x) (g c x')) l l' ->
  forall c, same_outcome (Forall2 Q) (mapMS g c l) (mapMS g c l').
Proof.
  induction 1 as [|x x' l l' Hx H IH]; intros c; cbn; [auto|]. specialize (Hx c).
  destruct (g c x) as [[k y]|e], (g c x') as [[k' y']|e']; cbn in *; try contradiction; try exact Hx. destruct Hx as [-> Hy].
  specialize (IH k'). destruct (mapMS g k' l) as [[m ys]|e], (mapMS g k' l') as [[m' ys']|e']; cbn in *; try contradiction; try exact IH.
  destruct IH as [-> IH]. auto.
Qed.
Lemma mapMS_prio {A} (g : nat -> A -> res (nat * A)) (prio : A -> Z) l : (forall c x k y, In x l -> g c x = Ok (k, y) -> prio y = prio x) ->
  forall c k l', mapMS g c l = Ok (k, l') -> map prio l' = map prio l.
Proof.
  induction l as [|x l IH]; intros H c k l' E; cbn in E; [injection E as _ <-; reflexivity|].
  inv_bind E. destruct a as [k1 y]. cbn in E. inv_bind E. destruct a as [k2 ys]. cbn in E. injection E as _ <-. cbn.
  rewrite (H _ _ _ _ (or_introl eq_refl) Ha), (IH (fun c x k y Hx => H c x k y (or_intror Hx)) _ _ _ Ha0). reflexivity.
Qed.
Lemma Forall2_in_both {A} (Q : A -> A -> Prop) (prio : A -> Z) f l l' : Forall2 Q l l' -> map prio l' = map f (map prio l) -> Forall2 (Rf prio f Q) l l'.
Proof. induction 1 as [|x y l l' H F IH]; cbn; intros E; [constructor|]. injection E as E1 E2. constructor; [split; auto|auto]. Qed.
Lemma Rf_left {A} (prio : A -> Z) f Q l l' : Forall2 (Rf prio f Q) l l' -> Forall2 Q l l'.
Proof. induction 1 as [|x y l l' [H _] F IH]; auto. Qed.
Lemma in_prios {A} (prio : A -> Z) l : Forall (fun o => In (prio o) (map prio l)) l.
Proof. apply Forall_forall. intros x Hx. apply in_map. exact Hx. Qed.
Lemma populate_outcome w v v' : renumbered v v' -> forall c, same_outcome renumbered (vol_populate w c v) (vol_populate w c v').
Proof.
  revert v'. induction v as [l|pr vs ca IH] using volume_ind'; intros v' H c; inversion H as [l0 p0 E1 E2|p0 q0 vols0 vols' ca0 f F KO PM E1 E2]; subst; cbn [vol_populate].
  - rewrite leaf_populate_prio. destruct (leaf_populate w c l) as [[k l2]|e]; cbn; auto. split; [reflexivity|constructor].
  - assert (M : same_outcome (Forall2 renumbered) (mapMS (vol_populate w) c vs) (mapMS (vol_populate w) c vols')).
    { apply mapMS_outcome. clear H KO PM. induction F as [|x y l l' Hx F IHl]; constructor; inversion IH; subst; auto. }
    assert (PR : forall x k j y, vol_populate w k x = Ok (j, y) -> vol_prio y = vol_prio x) by (intros x k j y Hy; apply (vol_populate_static _ _ _ _ _ Hy)).
    destruct (mapMS (vol_populate w) c vs) as [[k us]|e] eqn:E1, (mapMS (vol_populate w) c vols') as [[k' us']|e'] eqn:E2; cbn in M; try contradiction; cbn [bind fst snd]; [|exact M].
    destruct M as [-> M].
    pose proof (mapMS_prio _ vol_prio _ (fun c x k y _ Hy => PR x c k y Hy) _ _ _ E1) as P1.
    pose proof (mapMS_prio _ vol_prio _ (fun c x k y _ Hy => PR x c k y Hy) _ _ _ E2) as P2.
    assert (KP : keeps_order f (map vol_prio us)) by (rewrite P1; assumption).
    assert (FR : Forall2 (Rf vol_prio f renumbered) us us') by (apply Forall2_in_both; [exact M|congruence]).
    pose proof (sort_alike vol_prio f renumbered _ KP _ _ (in_prios vol_prio us) FR) as SA.
    pose proof (sort_in vol_prio _ _ (in_prios vol_prio us)) as SI.
    pose proof (checks_alike vol_prio vol_atoms vol_species (vol_inside w) f renumbered _ KP (renumbered_alike w) _ _ SI SA) as CA.
    destruct (stack_alike vol_prio vol_atoms vol_species (vol_inside w) f renumbered (renumbered_alike w) _ _ (checks vol_prio vol_atoms (vol_inside w) (sort_by vol_prio us)) SA) as [SA1 SA2].
    rewrite CA, SA1, SA2. clear CA SA1 SA2.
    pose proof (Rf_left _ _ _ _ _ SA) as SL. pose proof (prio_map _ _ _ _ _ SA) as SP.
    destruct (sort_by vol_prio us) as [|u sus] eqn:ES, (sort_by vol_prio us') as [|u' sus'] eqn:ES'; try solve [inversion SL]; [reflexivity|].
    split; [reflexivity|]. cbn [snd]. apply ReMulti with f; [exact SL| |exact SP].
    intros a b Ha Hb. apply KP.
    + apply in_map_iff in Ha as (x & <- & Hx). rewrite Forall_forall in SI. apply SI. exact Hx.
    + apply in_map_iff in Hb as (x & <- & Hx). rewrite Forall_forall in SI. apply SI. exact Hx.
Qed.
Lemma renumbered_obj_same w o o' : renumbered_obj o o' -> ob_result o' = ob_result o /\ (forall p, ob_inside w o' p = ob_inside w o p) /\
  read_atoms o' = read_atoms o /\ read_species o' = read_species o.
Proof.
  intros [v v' H|m p]; cbn; [|auto]. destruct (renumbered_same w _ _ H) as [A B]. repeat split; auto.
  - unfold read_atoms. cbn. rewrite A. inversion H; reflexivity.
  - unfold read_species. cbn. rewrite A. reflexivity.
Qed.
Lemma renumbered_obj_alike w o o' : renumbered_obj o o' -> alike ob_atoms ob_species (ob_inside w) o o'.
Proof. intros H. destruct (renumbered_obj_same w _ _ H) as (A & B & _). unfold alike, ob_atoms, ob_species. rewrite A. auto. Qed.
Lemma ob_populate_outcome w o o' : renumbered_obj o o' -> forall c, same_outcome renumbered_obj (ob_populate w c o) (ob_populate w c o').
Proof.
  intros [v v' H|m p] c; cbn.
  - pose proof (populate_outcome w _ _ H c) as S. destruct (vol_populate w c v) as [[k u]|e], (vol_populate w c v') as [[k' u']|e']; cbn in *; try contradiction; auto.
    destruct S as [-> S]. split; [reflexivity|constructor; exact S].
  - split; [reflexivity|constructor].
Qed.
Lemma ob_populate_prio w o k j o' : ob_populate w k o = Ok (j, o') -> ob_prio o' = ob_prio o.
Proof.
  destruct o as [v|m]; cbn; intros H; [|injection H as _ <-; reflexivity]. inv_bind H. destruct a as [k1 v1]. cbn in H. injection H as _ <-. cbn.
  apply (vol_populate_static _ _ _ _ _ Ha).
Qed.
Lemma select_alike {A} (read : sobj -> res (option (list A))) cks l l' : Forall2 (fun o o' => read o' = read o) l l' -> select read cks l' = select read cks l.
Proof. intros H. revert cks. induction H as [|x y l l' Hx H IH]; intros cks; cbn; [reflexivity|]. rewrite Hx. destruct (read x); [|reflexivity]. cbn. destruct (match cks with None => _ | _ => _ end); [|reflexivity]. cbn. destruct (match a with None => _ | _ => _ end); [|reflexivity]. cbn. rewrite IH. reflexivity. Qed.

(* ------------------------------------------------------------------ *)
(** * C153 *)
Theorem C153_order_only : forall w c s s' objs objs',
  sc_objects s = Some objs -> sc_objects s' = Some objs' -> renumbered_objs objs objs' ->
  match populate w c s, populate w c s' with
  | Ok (k, t), Ok (k', t') => k = k' /\ all_atoms t' = all_atoms t /\ all_species t' = all_species t
  | Err e, Err e' => e = e'
  | _, _ => False
  end.
Proof.
  intros w c s s' objs objs' E E' [F (f & KO & PM)]. unfold populate. rewrite E, E'.
  assert (M : same_outcome (Forall2 renumbered_obj) (mapMS (ob_populate w) c objs) (mapMS (ob_populate w) c objs')).
  { apply mapMS_outcome. clear E E' KO PM. induction F; constructor; auto. apply ob_populate_outcome. assumption. }
  destruct (mapMS (ob_populate w) c objs) as [[k us]|e] eqn:E1, (mapMS (ob_populate w) c objs') as [[k' us']|e'] eqn:E2; cbn in M; try contradiction; cbn [bind fst snd]; [|exact M].
  destruct M as [-> M].
  pose proof (mapMS_prio _ ob_prio _ (fun c x k y _ Hy => ob_populate_prio w x c k y Hy) _ _ _ E1) as P1.
  pose proof (mapMS_prio _ ob_prio _ (fun c x k y _ Hy => ob_populate_prio w x c k y Hy) _ _ _ E2) as P2.
  assert (KP : keeps_order f (map ob_prio us)) by (rewrite P1; assumption).
  assert (FR : Forall2 (Rf ob_prio f renumbered_obj) us us') by (apply Forall2_in_both; [exact M|congruence]).
  pose proof (sort_alike ob_prio f renumbered_obj _ KP _ _ (in_prios ob_prio us) FR) as SA.
  pose proof (sort_in ob_prio _ _ (in_prios ob_prio us)) as SI.
  rewrite (checks_alike ob_prio ob_atoms ob_species (ob_inside w) f renumbered_obj _ KP (renumbered_obj_alike w) _ _ SI SA).
  apply Rf_left in SA. split; [reflexivity|]. unfold all_atoms, all_species. cbn [sc_objects sc_checks].
  assert (RA : Forall2 (fun o o' => read_atoms o' = read_atoms o) (sort_by ob_prio us) (sort_by ob_prio us')).
  { clear - SA w. induction SA as [|x y l l' H SA IH]; [constructor|]. constructor; [apply (renumbered_obj_same w _ _ H)|exact IH]. }
  assert (RS : Forall2 (fun o o' => read_species o' = read_species o) (sort_by ob_prio us) (sort_by ob_prio us')).
  { clear - SA w. induction SA as [|x y l l' H SA IH]; [constructor|]. constructor; [apply (renumbered_obj_same w _ _ H)|exact IH]. }
  rewrite (select_alike _ _ _ _ RA), (select_alike _ _ _ _ RS). auto.
Qed.
Example C153_nonvacuous : exists w s s' objs objs' t, sc_objects s = Some objs /\ sc_objects s' = Some objs' /\ renumbered_objs objs objs' /\
  objs <> objs' /\ populate w 0 s = Ok (0%nat, t) /\ all_atoms t = Ok [mkV 5 0 0].
Proof.
  pose (inner p := VLeaf (mkLeaf PNone None None [ASphere (mkSphere 1 v0 (/ 100000))] (Some GNull) p default_vtol None)).
  exists demo_world, (new_scene None [SMol demo_mol; SVol (VMulti 0 [inner 0%Z; inner 4%Z] None)]),
    (new_scene None [SMol (mol_with_prio demo_mol 7); SVol (VMulti (-3) [inner 2%Z; inner 3%Z] None)]).
  do 2 eexists. eexists. split; [reflexivity|]. split; [reflexivity|]. split; [|split].
  - split.
    + repeat constructor. apply (ReMulti 0 (-3) [inner 0%Z; inner 4%Z] [inner 2%Z; inner 3%Z] None (fun z => if (z <? 2)%Z then 2 else 3)%Z); [|intros a b [<-|[<-|[]]] [<-|[<-|[]]]; cbn; lia|reflexivity].
      constructor; [apply (ReLeaf (mkLeaf PNone None None [ASphere (mkSphere 1 v0 (/ 100000))] (Some GNull) 0 default_vtol None) 2)|].
      constructor; [apply (ReLeaf (mkLeaf PNone None None [ASphere (mkSphere 1 v0 (/ 100000))] (Some GNull) 4 default_vtol None) 3)|constructor].
    + exists (fun z => 10 * z - 3)%Z. split; [|reflexivity]. intros a b _ _. lia.
  - intros E. injection E. discriminate.
  - split; [reflexivity|]. unfold all_atoms. demo_eval. reflexivity.
Qed.
