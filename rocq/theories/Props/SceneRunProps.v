(** Populating a scene again and again, with failures: C143. *)
From Coq Require Import String Reals List ZArith Bool Permutation Lia Lra.
From Verif.Model Require Import Base Vec Algebraic Transform Voxel Strain Post Generator Volume Molecule Priority Scene SceneRun.
From Verif.Spec Require Import PrioritySpec SceneSpec.
From Verif.Proofs Require Import VecFacts PriorityFacts VolumeFacts SceneFacts.
From Verif.Props Require Import SceneProps.
Import ListNotations.
Open Scope R_scope.

(* ---------------- the two renderings of populate agree ---------------- *)
Lemma leaf_agree w c l : leaf_populate w c l = let '(c', l', r) := leaf_populate_st w c l in rmap (fun _ => (c', l')) r.
Proof.
  unfold leaf_populate, leaf_populate_st. destruct (l_gen l) as [g|]; [|reflexivity].
  destruct (supply_atoms _ _ _ _ _) as [[[c' g'] [co sp]]|e]; cbn [bind].
  - destruct (index_mask co _) as [a|]; cbn [bind]; [|reflexivity]. destruct (index_mask sp _); reflexivity.
  - destruct (supply_left _ _ _ _). reflexivity.
Qed.
Lemma each_agree {A} (f : nat -> A -> nat * A * res unit) (g : nat -> A -> res (nat * A)) l :
  Forall (fun x => forall c, g c x = let '(c', x', r) := f c x in rmap (fun _ => (c', x')) r) l ->
  forall c, mapMS g c l = let '(c', l', r) := each_st f c l in rmap (fun _ => (c', l')) r.
Proof.
  induction 1 as [|x t H _ IH]; intros c; cbn [mapMS each_st]; [reflexivity|]. rewrite H. destruct (f c x) as [[c1 x'] [[]|e]]; cbn [rmap bind]; [|reflexivity].
  cbn [fst snd]. rewrite IH. destruct (each_st f c1 t) as [[c2 t'] [[]|e]]; reflexivity.
Qed.
Lemma vol_agree w v : forall c, vol_populate w c v = let '(c', v', r) := vol_populate_st w c v in rmap (fun _ => (c', v')) r.
Proof.
  induction v as [l|p vs ca IH] using volume_ind'; intros c; cbn [vol_populate vol_populate_st].
  - rewrite leaf_agree. destruct (leaf_populate_st w c l) as [[c' l'] [[]|e]]; reflexivity.
  - rewrite (each_agree (vol_populate_st w) _ _ IH). destruct (each_st _ c vs) as [[c' vs'] [[]|e]]; cbn [rmap bind fst snd]; [|reflexivity].
    destruct (sort_by vol_prio vs'); reflexivity.
Qed.
Lemma ob_agree w o c : ob_populate w c o = let '(c', o', r) := ob_populate_st w c o in rmap (fun _ => (c', o')) r.
Proof. destruct o as [v|m]; cbn; [|reflexivity]. rewrite vol_agree. destruct (vol_populate_st w c v) as [[c' v'] [[]|e]]; reflexivity. Qed.
Lemma populate_agree w c s : populate w c s = let '(c', s', r) := populate_st w c s in rmap (fun _ => (c', s')) r.
Proof.
  unfold populate, populate_st. destruct (sc_objects s) as [objs|]; [|reflexivity].
  rewrite (each_agree (ob_populate_st w)) by (apply Forall_forall; intros; apply ob_agree). destruct (each_st _ c objs) as [[c' o'] [[]|e]]; reflexivity.
Qed.

(* ---------------- what is left behind ---------------- *)
Lemma each_fails {A} (f : nat -> A -> nat * A * res unit) l : forall c c' l' e, each_st f c l = (c', l', Err e) ->
  exists pre x post pre' x' c1 c2, l = pre ++ x :: post /\ l' = pre' ++ x' :: post /\
    Forall2 (fun a b => exists d d', f d a = (d', b, Ok tt)) pre pre' /\ f c1 x = (c2, x', Err e).
Proof.
  induction l as [|x t IH]; intros c c' l' e H; cbn [each_st] in H; [discriminate|]. destruct (f c x) as [[c1 x'] [[]|e1]] eqn:F.
  - destruct (each_st f c1 t) as [[c2 t'] r] eqn:E. injection H as <- <- ->. destruct (IH _ _ _ _ E) as (pre & y & post & pre' & y' & d1 & d2 & -> & -> & P & Q).
    exists (x :: pre), y, post, (x' :: pre'), y', d1, d2. repeat split; auto. constructor; eauto.
  - injection H as <- <- ->. exists [], x, t, [], x', c, c1. repeat split; auto.
Qed.
(** two states of an object that differ in neither priority, interior nor atoms *)
Definition same_object (w : world) (o o' : sobj) : Prop :=
  ob_prio o' = ob_prio o /\ ob_result o' = ob_result o /\ forall p, ob_inside w o' p = ob_inside w o p.
Lemma leaf_left w c l c' l' r : leaf_populate_st w c l = (c', l', r) ->
  l_prio l' = l_prio l /\ (forall p, leaf_inside w l' p = leaf_inside w l p) /\ (forall e, r = Err e -> l_atoms l' = l_atoms l).
Proof.
  unfold leaf_populate_st. destruct (l_gen l) as [g|]; [|intros H; injection H as <- <- <-; auto].
  destruct (supply_atoms _ _ _ _ _) as [[[c1 g1] [co sp]]|e1].
  - destruct (bind _ _); intros H; injection H as <- <- <-; repeat split; auto. discriminate.
  - destruct (supply_left _ _ _ _) as [c1 g1]. intros H; injection H as <- <- <-; repeat split; auto.
Qed.
Lemma each_rel {A} (f : nat -> A -> nat * A * res unit) (R : A -> A -> Prop) l :
  Forall (fun x => R x x /\ forall c c' x' r, f c x = (c', x', r) -> R x x') l ->
  forall c c' l' r, each_st f c l = (c', l', r) -> Forall2 R l l'.
Proof.
  intros F. induction F as [|x t [RX HX] F IH]; intros c c' l' r H; cbn [each_st] in H; [injection H as <- <- <-; constructor|].
  destruct (f c x) as [[c1 x'] [[]|e1]] eqn:E.
  - destruct (each_st f c1 t) as [[c2 t'] r'] eqn:E2. injection H as <- <- <-. constructor; eauto.
  - injection H as <- <- <-. constructor; [eauto|]. clear -F. induction F as [|y s [Y _] _ IH]; constructor; auto.
Qed.
Lemma vol_left w v : forall c c' v' r, vol_populate_st w c v = (c', v', r) ->
  vol_prio v' = vol_prio v /\ (forall p, vol_inside w v' p = vol_inside w v p) /\ (forall e, r = Err e -> vol_result v' = vol_result v).
Proof.
  induction v as [l|p vs ca IH] using volume_ind'; intros c c' v' r H; cbn [vol_populate_st] in H.
  - destruct (leaf_populate_st w c l) as [[c1 l1] r1] eqn:E. injection H as <- <- <-. apply leaf_left in E. exact E.
  - destruct (each_st (vol_populate_st w) c vs) as [[c1 vs1] r1] eqn:E.
    assert (S : Forall2 (fun a b => forall q, vol_inside w b q = vol_inside w a q) vs vs1).
    { eapply each_rel; [|exact E]. eapply Forall_impl; [|exact IH]. intros x HX. split; [auto|]. intros d d' x' r' Q. apply (HX _ _ _ _ Q). }
    assert (EX : forall q, existsb (fun v' => vol_inside w v' q) vs1 = existsb (fun v' => vol_inside w v' q) vs).
    { intros q. clear -S. induction S as [|a b l l' Q _ IH]; [reflexivity|]. cbn. rewrite Q, IH. reflexivity. }
    destruct r1 as [[]|e1]; [|injection H as <- <- <-; cbn; auto].
    assert (PE : Permutation (sort_by vol_prio vs1) vs1) by apply sort_perm.
    destruct (sort_by vol_prio vs1) as [|a t] eqn:SB.
    + apply Permutation_nil in PE. subst vs1. injection H as <- <- <-. cbn. split; [auto|]. split; [exact EX|auto].
    + injection H as <- <- <-. cbn [vol_prio vol_inside vol_result]. split; [auto|]. split; [|discriminate]. intros q. rewrite <- EX. apply existsb_perm. exact PE.
Qed.
Lemma ob_left w o c c' o' e : ob_populate_st w c o = (c', o', Err e) -> same_object w o o'.
Proof.
  destruct o as [v|m]; cbn [ob_populate_st]; [|discriminate]. destruct (vol_populate_st w c v) as [[c1 v1] r1] eqn:E. intros H. injection H as <- <- ->.
  destruct (vol_left _ _ _ _ _ _ E) as (A & B & C). split; [exact A|]. split; [exact (C e eq_refl)|exact B].
Qed.
(** A populate that raises stops at some object.  The objects before it have their new
    atoms, it and those behind it have their old ones; order, bounds and masks are as before. *)
Theorem C143_left_behind_partial : forall w c s c' s' e,
  populate_st w c s = (c', s', Err e) ->
  (sc_objects s = None /\ s' = s) \/
  exists pre o post pre' o', sc_objects s = Some (pre ++ o :: post) /\ sc_objects s' = Some (pre' ++ o' :: post) /\
    populated w pre pre' /\ (exists d, ob_populate w d o = Err e) /\ same_object w o o' /\
    sc_checks s' = sc_checks s /\ sc_lo s' = sc_lo s /\ sc_hi s' = sc_hi s.
Proof.
  intros w c s c' s' e H. unfold populate_st in H. destruct (sc_objects s) as [objs|] eqn:E; [|left; injection H as <- <- <-; auto]. right.
  destruct (each_st (ob_populate_st w) c objs) as [[c1 o1] [[]|e1]] eqn:F; [discriminate|]. injection H as <- <- <-.
  destruct (each_fails _ _ _ _ _ _ F) as (pre & o & post & pre' & o' & d1 & d2 & -> & -> & P & Q).
  exists pre, o, post, pre', o'. split; [reflexivity|]. split; [reflexivity|]. split.
  { unfold populated. clear -P. induction P as [|a b l l' (d & d' & R) _ IH]; constructor; auto. exists d, d'. rewrite ob_agree, R. reflexivity. }
  split; [exists d1; rewrite ob_agree, Q; reflexivity|]. split; [eapply ob_left; eauto|]. auto.
Qed.
(** The same inside a MultiVolume that raises, at any depth: the members before the one that
    raised have their new atoms, the others and the MultiVolume itself their old ones. *)
Theorem C143_group_left_behind_partial : forall w c p vols cache c' v' e,
  vol_populate_st w c (VMulti p vols cache) = (c', v', Err e) ->
  (vols = [] /\ v' = VMulti p [] cache) \/
  exists pre v post pre' v1, vols = pre ++ v :: post /\ v' = VMulti p (pre' ++ v1 :: post) cache /\
    Forall2 (fun x y => exists d d', vol_populate w d x = Ok (d', y)) pre pre' /\
    (exists d d', vol_populate w d v = Err e /\ vol_populate_st w d v = (d', v1, Err e)) /\ same_object w (SVol v) (SVol v1).
Proof.
  intros w c p vols cache c' v' e H. cbn [vol_populate_st] in H.
  destruct (each_st (vol_populate_st w) c vols) as [[c1 vs1] [[]|e1]] eqn:F.
  - left. destruct (sort_by vol_prio vs1) as [|a t] eqn:SB; [|discriminate]. injection H as <- <- <-.
    pose proof (sort_perm vol_prio vs1) as PE. rewrite SB in PE. apply Permutation_nil in PE. subst vs1.
    destruct vols as [|x t]; [auto|]. exfalso. cbn [each_st] in F. destruct (vol_populate_st w c x) as [[d x'] [[]|e1]]; [|discriminate].
    destruct (each_st _ d t) as [[d2 t'] r]. discriminate.
  - right. injection H as <- <- <-. destruct (each_fails _ _ _ _ _ _ F) as (pre & v & post & pre' & v1 & d1 & d2 & -> & -> & P & Q).
    exists pre, v, post, pre', v1. split; [reflexivity|]. split; [reflexivity|]. split.
    { clear -P. induction P as [|a b l l' (d & d' & R) _ IH]; constructor; auto. exists d, d'. rewrite vol_agree, R. reflexivity. }
    split; [exists d1, d2; rewrite vol_agree, Q; auto|]. apply (ob_left w (SVol v) d1 d2 (SVol v1) e1). cbn. rewrite Q. reflexivity.
Qed.

(** no populate of the history returned *)
Definition never_populated (w : world) (cs : nat * scene) (h : list s_ev) : Prop :=
  forall h1 h2, h = h1 ++ EvPopulate :: h2 -> exists e, snd (ev_step w (ev_run w cs h1) EvPopulate) = Err e.
(** The masks are those of the last populate that returned, whatever was added, edited or
    tried since; in a new scene that was never populated nothing can be read. *)
Theorem C143_masks_partial : forall w c s h, never_populated w (c, s) h ->
  sc_checks (snd (ev_run w (c, s) h)) = sc_checks s.
Proof.
  intros w c s h. induction h as [|ev h IH] using rev_ind; intros N; [reflexivity|].
  assert (N' : never_populated w (c, s) h). { intros h1 h2 ->. apply (N h1 (h2 ++ [ev])). rewrite <- app_assoc. reflexivity. }
  specialize (IH N'). unfold ev_run in *. rewrite fold_left_app. cbn [fold_left]. fold (ev_run w (c, s) h) in *.
  destruct (ev_run w (c, s) h) as [c1 s1] eqn:E. cbn [snd] in IH. destruct ev as [o|lo hi|i o|]; cbn [ev_step fst snd]; try exact IH.
  destruct (N h [] eq_refl) as [e Q]. rewrite E in Q. cbn [ev_step] in Q. destruct (populate_st w c1 s1) as [[c2 s2] r] eqn:F. cbn [snd] in Q. subst r. cbn [fst snd].
  destruct (C143_left_behind_partial _ _ _ _ _ _ F) as [[_ ->]|(pre & o & post & pre' & o' & _ & _ & _ & _ & _ & -> & _)]; exact IH.
Qed.
Theorem C143_nothing_to_read_partial : forall w c b objs h, never_populated w (c, new_scene b objs) h ->
  (exists e, all_atoms (snd (ev_run w (c, new_scene b objs) h)) = Err e) /\ (exists e, all_species (snd (ev_run w (c, new_scene b objs) h)) = Err e).
Proof.
  intros w c b objs h N. pose proof (C143_masks_partial _ _ _ _ N) as M.
  assert (Z : sc_checks (new_scene b objs) = None).
  { assert (G : forall l x, sc_checks x = None -> sc_checks (fold_left add_object l x) = None).
    { induction l as [|o l IH]; intros x Q; cbn [fold_left]; [exact Q|]. apply IH. exact Q. }
    unfold new_scene. apply G. reflexivity. }
  rewrite Z in M. unfold all_atoms, all_species. set (s := snd (ev_run w (c, new_scene b objs) h)) in *. rewrite M. destruct (sc_objects s) as [l|]; [|split; eauto].
  split; (destruct l as [|o l]; cbn [select bind]; [cbn; eauto|]).
  - destruct (read_atoms o); cbn [bind]; eauto.
  - destruct (read_species o); cbn [bind]; eauto.
Qed.

(** Whatever happened before - failures, edits, additions - a populate that returns gives
    exactly the atoms of the objects as they are, and what it gives does not depend on masks
    and bounds. *)
Theorem C143_populate_recovers_partial : forall w c0 s0 h c s c' s' objs,
  ev_run w (c0, s0) h = (c, s) -> populate_st w c s = (c', s', Ok tt) ->
  sc_objects s = Some objs -> objs <> [] -> Forall obj_aligned objs ->
  (exists pobjs ats sps, populated w objs pobjs /\ all_atoms s' = Ok ats /\ all_species s' = Ok sps /\ length ats = length sps /\
     Permutation (combine ats sps) (contents ob_prio ob_atoms ob_species (ob_inside w) pobjs)) /\
  (forall lo hi k, exists s2, populate_st w c (mkScene lo hi (Some objs) k) = (c', s2, Ok tt) /\ all_atoms s2 = all_atoms s' /\ all_species s2 = all_species s').
Proof.
  intros w c0 s0 h c s c' s' objs _ P E NE AL. split.
  - apply (C01_scene_precedence_exact w c s c' s' objs); auto. rewrite populate_agree, P. reflexivity.
  - intros lo hi k. unfold populate_st in *. rewrite E in P. cbn [sc_objects]. destruct (each_st (ob_populate_st w) c objs) as [[c1 o1] [[]|e1]]; [|discriminate].
    injection P as <- <-. eexists. split; [reflexivity|]. split; reflexivity.
Qed.

(* ---------------- refuted ---------------- *)
(** A ball of radius 10 around 0, priority 1, filled from a stored amorphous block of one atom
    p; a small ball of priority 0 at (5,0,0) that keeps its inside free; an empty ball of
    priority 2 far away. *)
Definition block_gen (p : vec) : generator := GAmorphous (mkAm None 6 (1 / 10) 1 (Some ([p], [6%Z])) true).
Definition ball (r x : R) : alg := ASphere (mkSphere r (mkV x 0 0) (/ 100000)).
Definition host (r x : R) (g : generator) (prio : Z) (ats : option (list vec * list Z)) : sobj :=
  SVol (VLeaf (mkLeaf PNone None None [ball r x] (Some g) prio default_vtol ats)).
(** a crystal whose three lattice vectors lie in a plane, which Voxel accepts (C39) *)
Definition flat_gen : generator := GCrystal (mkCrystal (mkStruct mI [v0] [14%Z]) (mkVoxel (mkM (mkV 1 0 1) (mkV 0 1 1) (mkV 0 0 0)) (SAll 1) v0) None None).
Definition at_first : list s_ev :=
  [EvAdd (host 10 0 (block_gen v0) 1 None); EvAdd (host 1 5 GNull 0 None); EvAdd (host 1 50 GNull 2 None); EvPopulate].
(** add_generator on the first and the last, then populate *)
Definition and_then : list s_ev :=
  [EvEdit 1 (host 10 0 (block_gen (mkV 5 0 0)) 1 (Some ([v0], [6%Z]))); EvEdit 2 (host 1 50 flat_gen 2 (Some ([], []))); EvPopulate].
Lemma in_ball r x p : (vx p - x) * (vx p - x) + vy p * vy p + vz p * vz p < r * r -> 0 < r -> alg_interior (ball r x) p = true.
Proof. intros H R. cbn [ball alg_interior]. unfold sphere_interior. cbn. apply Rltb_iff. rewrite !Rminus_0_r. nra. Qed.
Lemma out_ball r x p : (r + 1) * (r + 1) < (vx p - x) * (vx p - x) + vy p * vy p + vz p * vz p -> 0 < r -> alg_interior (ball r x) p = false.
Proof. intros H R. cbn [ball alg_interior]. unfold sphere_interior. cbn. apply Rltb_false. rewrite !Rminus_0_r. nra. Qed.
Lemma b1 : alg_interior (ball 10 0) v0 = true. Proof. apply in_ball; unfold v0; cbn; lra. Qed.
Lemma b2 : alg_interior (ball 10 0) (mkV 5 0 0) = true. Proof. apply in_ball; cbn; lra. Qed.
Lemma b3 : alg_interior (ball 1 5) v0 = false. Proof. apply out_ball; unfold v0; cbn; lra. Qed.
Lemma b4 : alg_interior (ball 1 5) (mkV 5 0 0) = true. Proof. apply in_ball; cbn; lra. Qed.
Lemma flat_det : Reqb (det (sbases (mkVoxel (mkM (mkV 1 0 1) (mkV 0 1 1) (mkV 0 0 0)) (SAll 1) v0))) 0 = true.
Proof. apply Reqb_iff. unfold sbases. cbn. vunfold. ring. Qed.
Lemma fill_null r x prio old c : ob_populate_st demo_world c (host r x GNull prio old) = (c, host r x GNull prio (Some ([], [])), Ok tt).
Proof. reflexivity. Qed.
Lemma fill_block p c old : alg_interior (ball 10 0) p = true ->
  ob_populate_st demo_world c (host 10 0 (block_gen p) 1 old) = (c, host 10 0 (block_gen p) 1 (Some ([p], [6%Z])), Ok tt).
Proof.
  intros H. unfold host, ob_populate_st, vol_populate_st, leaf_populate_st. cbn [l_gen].
  match goal with |- context [get_bounding_box ?w ?l] => generalize (get_bounding_box w l) end. intros b.
  unfold block_gen. assert (E : supply_atoms (w_mk demo_world) (w_draws demo_world) c (GAmorphous (mkAm None 6 (1 / 10) 1 (Some ([p], [6%Z])) true)) b =
    Ok (c, GAmorphous (mkAm None 6 (1 / 10) 1 (Some ([p], [6%Z])) true), ([p], [6%Z]))) by (destruct b; reflexivity).
  rewrite E. unfold leaf_check. cbn [l_tri l_alg fold_left map length ones]. rewrite H. reflexivity.
Qed.
Lemma fill_flat c old : ob_populate_st demo_world c (host 1 50 flat_gen 2 old) = (c, host 1 50 flat_gen 2 old, Err LinAlgError).
Proof.
  unfold host, ob_populate_st, vol_populate_st, leaf_populate_st. cbn [l_gen].
  assert (B : exists q qs, get_bounding_box demo_world (mkLeaf PNone None None [ball 1 50] (Some flat_gen) 2 default_vtol old) = BArr (q :: qs)).
  { do 2 eexists. cbn. reflexivity. }
  destruct B as (q & qs & ->). unfold flat_gen, supply_atoms, crystal_supply, supply_left, get_extents. cbn [g_voxel mapM].
  unfold solve. rewrite flat_det. reflexivity.
Qed.
(** Refuted: a populate that raises does not leave what was there.  The scene showed the atom
    at 0; the big ball was given another block and the far one a flat crystal; after
    populate raised LinAlgError the scene shows, without complaint, the atom of the new block
    although it lies inside the small ball of smaller priority number. *)
Theorem C143_failed_populate_refuted : let s0 := new_scene None [] in
  let s1 := snd (ev_run demo_world (0%nat, s0) at_first) in
  let s2 := snd (ev_run demo_world (0%nat, s0) (at_first ++ and_then)) in
  (forall g g', exists l, add_generator (mkLeaf PNone None None [ball 10 0] (Some g) 1 default_vtol None) g' None = Ok l /\ l_gen l = Some g') /\
  all_atoms s1 = Ok [v0] /\
  never_populated demo_world (0%nat, s1) and_then /\
  all_atoms s2 = Ok [mkV 5 0 0] /\ all_species s2 = Ok [6%Z] /\
  (exists o objs, sc_objects s2 = Some (o :: objs) /\ ob_prio o = 0%Z /\ ob_inside demo_world o (mkV 5 0 0) = true).
Proof.
  intros s0 s1 s2.
  set (A := host 10 0 (block_gen v0) 1). set (A' := host 10 0 (block_gen (mkV 5 0 0)) 1). set (S' := host 1 5 GNull 0). set (F := host 1 50 GNull 2). set (F' := host 1 50 flat_gen 2).
  assert (R1 : ev_run demo_world (0%nat, s0) at_first = (0%nat, mkScene (sc_lo s0) (sc_hi s0)
    (Some [S' (Some ([], [])); A (Some ([v0], [6%Z])); F (Some ([], []))]) (Some [[]; [true]; []]))).
  { unfold ev_run, at_first. cbn [fold_left ev_step fst]. fold (A None) (S' None) (F None).
    unfold populate_st. cbn [add_object sc_objects s0 new_scene fold_left app]. cbn [each_st]. unfold A at 1. rewrite fill_block by apply b1. fold A.
    unfold S' at 1. rewrite fill_null. fold S'. unfold F at 1. rewrite fill_null. fold F. cbn [fst].
    unfold A, S', F, host. cbn -[ball alg_interior]. rewrite b3. reflexivity. }
  assert (R2 : ev_run demo_world (0%nat, s1) and_then = (0%nat, mkScene (sc_lo s0) (sc_hi s0)
    (Some [S' (Some ([], [])); A' (Some ([mkV 5 0 0], [6%Z])); F' (Some ([], []))]) (Some [[]; [true]; []])) /\
    snd (ev_step demo_world (ev_run demo_world (0%nat, s1) (firstn 2 and_then)) EvPopulate) = Err LinAlgError).
  { assert (P : populate_st demo_world 0 (mkScene (sc_lo s0) (sc_hi s0) (Some [S' (Some ([], [])); A' (Some ([v0], [6%Z])); F' (Some ([], []))]) (Some [[]; [true]; []])) =
      (0%nat, mkScene (sc_lo s0) (sc_hi s0) (Some [S' (Some ([], [])); A' (Some ([mkV 5 0 0], [6%Z])); F' (Some ([], []))]) (Some [[]; [true]; []]), Err LinAlgError)).
    { unfold populate_st. cbn [sc_objects each_st]. unfold S' at 1. rewrite fill_null. fold S'. unfold A' at 1. rewrite fill_block by apply b2. fold A'.
      unfold F' at 1. rewrite fill_flat. fold F'. reflexivity. }
    unfold s1, ev_run at 1 3. rewrite R1. unfold and_then. cbn [firstn fold_left ev_step fst snd sc_objects sc_lo sc_hi sc_checks option_map put_obj].
    fold (A' (Some ([v0], [6%Z]))) (F' (Some ([], []))). rewrite P. split; reflexivity. }
  destruct R2 as [R2 R3].
  assert (R4 : ev_run demo_world (0%nat, s0) (at_first ++ and_then) = ev_run demo_world (0%nat, s1) and_then).
  { unfold s1. rewrite R1. unfold ev_run in *. rewrite fold_left_app, R1. reflexivity. }
  unfold s2. rewrite R4, R2. unfold s1 at 1. rewrite R1. cbn [snd].
  split; [intros g g'; eexists; split; [destruct g'; reflexivity|reflexivity]|].
  split; [reflexivity|]. split.
  { intros h1 h2 E. unfold and_then in E. destruct h1 as [|e1 [|e2 [|e3 h1]]]; try discriminate E.
    - injection E as <- <- _. exists LinAlgError. exact R3.
    - injection E as _ _ _ E. destruct h1; discriminate. }
  split; [reflexivity|]. split; [reflexivity|]. do 2 eexists. split; [reflexivity|]. split; [reflexivity|].
  cbn -[ball alg_interior]. rewrite b4. reflexivity.
Qed.
Example C143_nonvacuous : exists s', populate_st demo_world 0 demo_scene = (0%nat, s', Ok tt) /\
  (forall objs, sc_objects demo_scene = Some objs -> Forall obj_aligned objs /\ objs <> []).
Proof.
  destruct demo_populates as (s' & H & _). rewrite populate_agree in H. destruct (populate_st demo_world 0 demo_scene) as [[c1 s1] [[]|e]] eqn:E; [|discriminate].
  injection H as -> ->. exists s'. split; [reflexivity|]. apply demo_ok.
Qed.
