(** Scenes whose objects are listed twice (C150) or grouped into MultiVolumes (C151). *)
From Coq Require Import Reals List ZArith Bool Permutation Lia Lra.
From Verif.Model Require Import Base Vec Algebraic Transform Voxel Post Generator Volume Molecule Scene Priority.
From Verif.Spec Require Import PrioritySpec SceneSpec.
From Verif.Proofs Require Import PriorityFacts VolumeFacts SceneFacts VecFacts.
From Verif.Props Require Import SceneProps VolumeProps WholeProps.
Import ListNotations.
Open Scope R_scope.

(* ------------------------------------------------------------------ *)
(** * Contents of concatenated lists *)
Section Abstract.
Context {Ob Pt Sp : Type} (prio : Ob -> Z) (atoms : Ob -> list Pt) (species : Ob -> list Sp) (inside : Ob -> Pt -> bool).
Lemma each_concat (l ms : list Ob) : each_with_others (l ++ ms) =
  map (fun oo => (fst oo, snd oo ++ ms)) (each_with_others l) ++ map (fun oo => (fst oo, l ++ snd oo)) (each_with_others ms).
Proof.
  induction l as [|x l IH]; cbn [app each_with_others map fst snd].
  - rewrite <- (map_id (each_with_others ms)) at 1. apply map_ext. intros [? ?]; reflexivity.
  - rewrite IH, map_app, !map_map. reflexivity.
Qed.
Lemma contents_concat (l ms : list Ob) : contents prio atoms species inside (l ++ ms) =
  flat_map (fun oo => contribution prio atoms species inside (fst oo, snd oo ++ ms)) (each_with_others l) ++
  flat_map (fun oo => contribution prio atoms species inside (fst oo, l ++ snd oo)) (each_with_others ms).
Proof.
  unfold contents. rewrite each_concat, flat_map_app, !flat_map_concat_map, !map_map. reflexivity.
Qed.
Lemma loses_app o l ms p : loses prio inside o (l ++ ms) p = loses prio inside o l p || loses prio inside o ms p.
Proof. apply existsb_app. Qed.
Lemma filter_flat {A B} (f : B -> bool) (g : A -> list B) l : filter f (flat_map g l) = flat_map (fun x => filter f (g x)) l.
Proof. induction l as [|x l IH]; cbn; [reflexivity|]. rewrite filter_app, IH. reflexivity. Qed.
Lemma flat_map_ext_in' {A B} (f g : A -> list B) l : (forall x, In x l -> f x = g x) -> flat_map f l = flat_map g l.
Proof. intros H. rewrite !flat_map_concat_map. f_equal. apply map_ext_in. exact H. Qed.
Lemma each_in (l : list Ob) o r : In (o, r) (each_with_others l) -> In o l.
Proof.
  revert o r. induction l as [|y l IH]; cbn; [easy|]. intros o r [E|E]; [injection E as <- _; auto|].
  apply in_map_iff in E as ([o2 r2] & E & H). injection E as <- _. right. eapply IH; eauto.
Qed.

Lemma contents_group l ms g :
  (forall p, inside g p = existsb (fun m => inside m p) ms) ->
  Permutation (combine (atoms g) (species g)) (contents prio atoms species inside ms) ->
  (forall x m, In x l -> In m ms -> (prio x <=? prio m)%Z = (prio x <=? prio g)%Z /\ (prio m <=? prio x)%Z = (prio g <=? prio x)%Z) ->
  Permutation (contents prio atoms species inside (l ++ ms)) (contents prio atoms species inside (l ++ [g])).
Proof.
  intros HI HC HP. rewrite !contents_concat. apply Permutation_app.
  - apply Permutation_refl'. apply flat_map_ext_in'. intros [o r] Ho. cbn [fst snd]. apply each_in in Ho. unfold contribution. cbn [fst snd]. apply filter_ext. intros q.
    rewrite !loses_app. do 2 f_equal. unfold loses. cbn [existsb]. rewrite HI, orb_false_r.
    assert (Q : forall m, In m ms -> (prio m <=? prio o)%Z = (prio g <=? prio o)%Z) by (intros m Hm; apply (HP o m Ho Hm)).
    clear HP HI HC. induction ms as [|m ms IH]; cbn [existsb]; [now rewrite andb_false_r|]. rewrite IH by (intros; apply Q; right; auto). rewrite (Q m) by (left; auto).
    destruct (prio g <=? prio o)%Z; reflexivity.
  - cbn [each_with_others map flat_map fst snd]. rewrite !app_nil_r.
    assert (E : flat_map (fun oo => contribution prio atoms species inside (fst oo, l ++ snd oo)) (each_with_others ms)
      = filter (fun q => negb (loses prio inside g l (fst q))) (contents prio atoms species inside ms)).
    { unfold contents. rewrite filter_flat. apply flat_map_ext_in'. intros [m r] Hm. cbn [fst snd]. apply each_in in Hm. unfold contribution. cbn [fst snd].
      rewrite filter_filter. apply filter_ext. intros q. rewrite loses_app, negb_orb, andb_comm. do 2 f_equal. unfold loses.
      clear HI HC. assert (Q : forall x, In x l -> (prio x <=? prio m)%Z = (prio x <=? prio g)%Z) by (intros x Hx; apply (HP x m Hx Hm)). clear HP.
      induction l as [|x l0 IH]; cbn [existsb]; [reflexivity|]. rewrite IH by (intros; apply Q; right; auto). rewrite (Q x) by (left; auto). reflexivity. }
    rewrite E. unfold contribution. cbn [fst snd].
    assert (PF : forall (f : Pt * Sp -> bool) a b, Permutation a b -> Permutation (filter f a) (filter f b)).
    { intros f a b P. induction P; cbn; auto; [destruct (f x); auto|destruct (f x), (f y); auto; apply perm_swap|etransitivity; eauto]. }
    apply PF. symmetry. exact HC.
Qed.
Lemma contribution_none o r o' : In o' r -> (prio o' <= prio o)%Z -> (forall p, In p (atoms o) -> inside o' p = true) ->
  contribution prio atoms species inside (o, r) = [].
Proof.
  intros HI HP HA. unfold contribution. cbn [fst snd].
  assert (X : forall q, In q (combine (atoms o) (species o)) -> loses prio inside o r (fst q) = true).
  { intros [p z] Hq. apply in_combine_l in Hq. apply existsb_exists. exists o'. split; [exact HI|]. cbn [fst]. rewrite (HA p Hq). lia. }
  induction (combine (atoms o) (species o)) as [|q qs IH]; cbn; [reflexivity|]. rewrite X by (left; auto). cbn. apply IH. intros; apply X; right; auto.
Qed.
(** a second copy of larger priority number changes nothing *)
Lemma contents_twice l v u : (prio v < prio u)%Z -> (forall p, inside u p = inside v p) -> (forall p, In p (atoms u) -> inside u p = true) ->
  contents prio atoms species inside (l ++ [v; u]) = contents prio atoms species inside (l ++ [v]).
Proof.
  intros HP HI HA. rewrite !contents_concat. f_equal.
  - apply flat_map_ext_in'. intros [o r] _. cbn [fst snd]. unfold contribution. cbn [fst snd]. apply filter_ext. intros q. rewrite !loses_app. do 2 f_equal.
    unfold loses. cbn [existsb]. rewrite HI. destruct (inside v (fst q)); rewrite ?andb_true_r, ?andb_false_r, ?orb_false_r; [|reflexivity].
    destruct (prio v <=? prio o)%Z eqn:E1, (prio u <=? prio o)%Z eqn:E2; try reflexivity. lia.
  - cbn [each_with_others map flat_map fst snd]. rewrite !app_nil_r.
    rewrite (contribution_none u (l ++ [v]) v); [|apply in_or_app; right; left; auto|lia|intros p Hp; rewrite <- HI; auto].
    rewrite app_nil_r. unfold contribution. cbn [fst snd]. apply filter_ext. intros q. rewrite loses_app. cbn [loses existsb].
    assert (F : (prio u <=? prio v)%Z = false) by lia. unfold loses at 2. cbn [existsb]. rewrite F. cbn. rewrite orb_false_r. reflexivity.
Qed.
(** a second copy of the same priority number leaves only what the others have to say *)
Lemma contents_both l v u : prio u = prio v -> (forall p, inside u p = inside v p) ->
  (forall p, In p (atoms v) -> inside v p = true) -> (forall p, In p (atoms u) -> inside u p = true) ->
  contents prio atoms species inside (l ++ [v; u]) =
  flat_map (fun oo => contribution prio atoms species inside (fst oo, snd oo ++ [v])) (each_with_others l).
Proof.
  intros HP HI HA HB. rewrite contents_concat. cbn [each_with_others map flat_map fst snd].
  rewrite (contribution_none v (l ++ [u]) u); [|apply in_or_app; right; left; auto|lia|intros p Hp; rewrite HI; auto].
  rewrite (contribution_none u (l ++ [v]) v); [|apply in_or_app; right; left; auto|lia|intros p Hp; rewrite <- HI; auto].
  cbn. rewrite app_nil_r. apply flat_map_ext_in'. intros [o r] _. cbn [fst snd]. unfold contribution. cbn [fst snd]. apply filter_ext. intros q. rewrite !loses_app. do 2 f_equal.
  unfold loses. cbn [existsb]. rewrite HI, HP, !orb_false_r. apply orb_diag.
Qed.
End Abstract.

(* ------------------------------------------------------------------ *)
(** * Objects without random numbers *)
Definition pop (w : world) (o o' : sobj) : Prop := forall k, ob_populate w k o = Ok (k, o').
Definition vpop (w : world) (v v' : volume) : Prop := forall k, vol_populate w k v = Ok (k, v').
Lemma pop_vol w v o : pop w (SVol v) o -> exists v', o = SVol v' /\ vpop w v v'.
Proof.
  intros H. pose proof (H 0%nat) as H0. cbn in H0. inv_bind H0. destruct a as [k v']. cbn in H0. injection H0 as -> <-. exists v'. split; [reflexivity|].
  intros k. specialize (H k). cbn in H. inv_bind H. destruct a as [k2 v2]. cbn in H. injection H as -> ->. exact Ha0.
Qed.
Lemma vpop_pop w v v' : vpop w v v' -> pop w (SVol v) (SVol v').
Proof. intros H k. cbn. rewrite H. reflexivity. Qed.
Lemma mapMS_pop {A} (f : nat -> A -> res (nat * A)) l ps : Forall2 (fun o o' => forall k, f k o = Ok (k, o')) l ps -> forall c, mapMS f c l = Ok (c, ps).
Proof. induction 1 as [|x y l ps H F IH]; intros c; cbn; [reflexivity|]. rewrite H. cbn. rewrite IH. reflexivity. Qed.
Lemma mapMS_rf w l c c' ps : Forall obj_rng_free l -> mapMS (ob_populate w) c l = Ok (c', ps) -> c' = c /\ Forall2 (pop w) l ps.
Proof.
  intros HF. revert c c' ps. induction HF as [|x l Hx HF IH]; intros c c' ps H; cbn in H.
  - injection H as <- <-. auto.
  - inv_bind H. destruct a as [c1 b]. cbn [fst snd] in H. inv_bind H. destruct a as [c2 bs]. cbn [fst snd] in H. injection H as <- <-.
    destruct (ob_populate_rng_free _ _ _ _ _ Hx Ha) as (-> & _ & E). destruct (IH _ _ _ Ha0) as [-> F]. split; [reflexivity|]. constructor; [intros k; apply E|exact F].
Qed.
(** what populating a scene without random numbers yields *)
Lemma scene_pop w c s objs c1 s' : sc_objects s = Some objs -> objs <> [] -> Forall obj_aligned objs -> Forall obj_rng_free objs ->
  populate w c s = Ok (c1, s') -> exists pobjs a z, Forall2 (pop w) objs pobjs /\ all_atoms s' = Ok a /\ all_species s' = Ok z /\ length a = length z /\
    Permutation (combine a z) (contents ob_prio ob_atoms ob_species (ob_inside w) pobjs).
Proof.
  intros E NE AL RF H. destruct (read_populated _ _ _ _ _ H) as (o1 & po & E1 & HM & _ & _ & HL & RA & RS).
  { intros o Ho. rewrite E in Ho. injection Ho as <-. auto. }
  rewrite E in E1. injection E1 as <-. destruct (mapMS_rf _ _ _ _ _ RF HM) as [_ F].
  destruct (resolve_correct ob_prio ob_atoms ob_species (ob_inside w) po) as [P1 P2]; [intros o Ho; apply HL; auto|].
  exists po. do 2 eexists. repeat (split; [eassumption|]). exact P1.
Qed.
Lemma scene_pops w c s objs pobjs : sc_objects s = Some objs -> Forall2 (pop w) objs pobjs -> exists s', populate w c s = Ok (c, s').
Proof. intros E F. unfold populate. rewrite E, (mapMS_pop _ _ _ F). cbn. eauto. Qed.
Lemma vpop_static w v v' : vpop w v v' -> vol_prio v' = vol_prio v /\ forall p, vol_inside w v' p = vol_inside w v p.
Proof. intros H. exact (vol_populate_static _ _ _ _ _ (H 0%nat)). Qed.
Lemma pop_static w o o' : pop w o o' -> ob_prio o' = ob_prio o /\ forall p, ob_inside w o' p = ob_inside w o p.
Proof.
  destruct o as [v|m]; intros H; [apply pop_vol in H as (v' & -> & H); exact (vpop_static _ _ _ H)|].
  specialize (H 0%nat). cbn in H. injection H as <-. auto.
Qed.
Lemma vpop_inside w v v' p : vpop w v v' -> In p (vol_atoms v') -> vol_inside w v' p = true.
Proof. intros H. eapply settled_inside. eapply populate_settled. apply (H 0%nat). Qed.
Lemma Forall2_map_inv {A B C} (R : B -> C -> Prop) (f : A -> B) l ps : Forall2 R (map f l) ps -> Forall2 (fun x p => R (f x) p) l ps.
Proof. revert ps. induction l as [|x l IH]; intros ps H; inversion H; subst; constructor; auto. Qed.
Lemma contents_map {A Ob Pt Sp} (f : A -> Ob) (prio : Ob -> Z) (atoms : Ob -> list Pt) (species : Ob -> list Sp) inside l :
  contents prio atoms species inside (map f l) = contents (fun x => prio (f x)) (fun x => atoms (f x)) (fun x => species (f x)) (fun x => inside (f x)) l.
Proof.
  assert (E : each_with_others (map f l) = map (fun oo => (f (fst oo), map f (snd oo))) (each_with_others l)).
  { induction l as [|x l IH]; cbn; [reflexivity|]. rewrite IH, !map_map. reflexivity. }
  unfold contents. rewrite E, flat_map_concat_map, map_map, <- flat_map_concat_map. apply flat_map_ext. intros [o r]. unfold contribution. cbn [fst snd]. apply filter_ext. intros q. f_equal.
  unfold loses. induction r as [|y r IH]; cbn; [reflexivity|]. rewrite IH. reflexivity.
Qed.

(* ------------------------------------------------------------------ *)
(** * C151: grouping *)
(** Joining volumes of a scene into a MultiVolume changes nothing, if the MultiVolume's
    priority number compares with every other object as those of its members do. *)
Theorem C151_grouping_partial : forall w c s1 s2 l ms p cache c1 s1',
  sc_objects s1 = Some (l ++ map SVol ms) -> sc_objects s2 = Some (l ++ [SVol (VMulti p ms cache)]) -> ms <> [] ->
  Forall obj_aligned l -> Forall obj_rng_free l -> Forall vol_rng_free ms ->
  (forall x m, In x l -> In m ms -> ((ob_prio x <= vol_prio m)%Z <-> (ob_prio x <= p)%Z) /\ ((vol_prio m <= ob_prio x)%Z <-> (p <= ob_prio x)%Z)) ->
  populate w c s1 = Ok (c1, s1') ->
  exists s2' a1 z1 a2 z2, populate w c s2 = Ok (c1, s2') /\
    all_atoms s1' = Ok a1 /\ all_species s1' = Ok z1 /\ all_atoms s2' = Ok a2 /\ all_species s2' = Ok z2 /\
    length a1 = length z1 /\ length a2 = length z2 /\ Permutation (combine a1 z1) (combine a2 z2).
Proof.
  intros w c s1 s2 l ms p cache c1 s1' E1 E2 NE AL RF RM HP H.
  assert (RF1 : Forall obj_rng_free (l ++ map SVol ms)) by (apply Forall_app; split; auto; apply Forall_map; exact RM).
  assert (AL1 : Forall obj_aligned (l ++ map SVol ms)) by (apply Forall_app; split; auto; apply Forall_map; apply Forall_forall; intros; exact I).
  assert (NE1 : l ++ map SVol ms <> []) by (intros X; apply app_eq_nil in X as [_ X]; apply map_eq_nil in X; auto).
  destruct (scene_pop w c s1 _ c1 s1' E1 NE1 AL1 RF1 H) as (po & a1 & z1 & F & RA1 & RS1 & L1 & P1).
  assert (C1 : c1 = c). { unfold populate in H. rewrite E1 in H. inv_bind H. destruct a as [k ps]. destruct (mapMS_rf _ _ _ _ _ RF1 Ha) as [-> _]. injection H as -> _. reflexivity. }
  subst c1. apply Forall2_app_inv_l in F as (pl & pm & FL & FM & ->). apply Forall2_map_inv in FM.
  assert (V : exists pvs, pm = map SVol pvs /\ Forall2 (vpop w) ms pvs).
  { clear - FM. induction FM as [|m o ms pm H F IH]; [exists []; auto|]. destruct IH as (pvs & -> & IH). apply pop_vol in H as (v & -> & H). exists (v :: pvs). auto. }
  destruct V as (pvs & -> & FV).
  assert (G : exists g, vpop w (VMulti p ms cache) g).
  { assert (NP : sort_by vol_prio pvs <> []).
    { intros X. pose proof (sort_perm vol_prio pvs) as PP. rewrite X in PP. apply Permutation_nil in PP. subst pvs. inversion FV; subst. auto. }
    unfold vpop. cbn [vol_populate].
    destruct (sort_by vol_prio pvs) as [|x xs] eqn:ES; [congruence|]. eexists. intros k. rewrite (mapMS_pop _ _ _ FV k). cbn [bind fst snd]. rewrite ES. reflexivity. }
  destruct G as [g G].
  destruct (C05_multivolume_precedence w 0%nat p ms cache 0%nat g (G 0%nat)) as (pv2 & ga & gz & F2 & GR & GL & GP & _ & GPr & GI).
  assert (pv2 = pvs).
  { clear - FV F2. revert pv2 F2. induction FV as [|m v ms pvs H F IH]; intros pv2 F2; inversion F2; subst; [reflexivity|]. f_equal; [|apply IH; auto].
    destruct H2 as (k1 & k2 & K). rewrite H in K. congruence. }
  subst pv2.
  assert (F2' : Forall2 (pop w) (l ++ [SVol (VMulti p ms cache)]) (pl ++ [SVol g])) by (apply Forall2_app; [exact FL|constructor; [apply vpop_pop, G|constructor]]).
  destruct (scene_pops w c s2 _ _ E2 F2') as [s2' H2].
  assert (RF2 : Forall obj_rng_free (l ++ [SVol (VMulti p ms cache)])) by (apply Forall_app; split; auto; repeat constructor; cbn; apply fold_right_Forall; exact RM).
  assert (AL2 : Forall obj_aligned (l ++ [SVol (VMulti p ms cache)])) by (apply Forall_app; split; auto; repeat constructor).
  assert (NE2 : l ++ [SVol (VMulti p ms cache)] <> []) by (intros X; apply app_eq_nil in X as [_ X]; discriminate).
  destruct (scene_pop w c s2 _ c s2' E2 NE2 AL2 RF2 H2) as (po2 & a2 & z2 & F2'' & RA2 & RS2 & L2 & P2).
  assert (po2 = pl ++ [SVol g]).
  { clear - F2' F2''. revert po2 F2''. induction F2' as [|x y xs ys H F IH]; intros po2 F2''; inversion F2''; subst; [reflexivity|]. f_equal; [|apply IH; auto].
    specialize (H 0%nat). match goal with K : pop w x _ |- _ => specialize (K 0%nat); rewrite H in K; congruence end. }
  subst po2. exists s2', a1, z1, a2, z2. repeat (split; [assumption|]).
  rewrite P1, P2. apply contents_group.
  - intros q. cbn [ob_inside]. rewrite GI. cbn [vol_inside]. clear - FV. induction FV as [|m v ms pvs H F IH]; cbn; [reflexivity|]. rewrite IH. rewrite (proj2 (vpop_static _ _ _ H)). reflexivity.
  - rewrite contents_map. unfold ob_atoms at 1, ob_species at 1. cbn [ob_result]. rewrite GR. exact GP.
  - intros x m Hx Hm. apply in_map_iff in Hm as (v & <- & Hv). cbn [ob_prio]. rewrite GPr.
    assert (X : exists x0, In x0 l /\ ob_prio x = ob_prio x0). { clear - FL Hx. induction FL as [|a b l pl K F IH]; [destruct Hx|]. destruct Hx as [<-|Hx]; [exists a; split; [left; auto|apply (pop_static _ _ _ K)]|]. destruct (IH Hx) as (x0 & I0 & E0). exists x0. split; [right; auto|auto]. }
    assert (M : exists m0, In m0 ms /\ vol_prio v = vol_prio m0). { clear - FV Hv. induction FV as [|a b l pl K F IH]; [destruct Hv|]. destruct Hv as [<-|Hv]; [exists a; split; [left; auto|apply (vpop_static _ _ _ K)]|]. destruct (IH Hv) as (x0 & I0 & E0). exists x0. split; [right; auto|auto]. }
    destruct X as (x0 & X1 & ->), M as (m0 & M1 & ->). destruct (HP x0 m0 X1 M1) as [Q1 Q2].
    split; apply eq_true_iff_eq; rewrite !Z.leb_le; assumption.
Qed.
(** in particular a MultiVolume alone in a scene *)
Theorem C151_alone : forall w c s1 s2 ms p cache c1 s1',
  sc_objects s1 = Some (map SVol ms) -> sc_objects s2 = Some [SVol (VMulti p ms cache)] -> ms <> [] -> Forall vol_rng_free ms ->
  populate w c s1 = Ok (c1, s1') ->
  exists s2' a1 z1 a2 z2, populate w c s2 = Ok (c1, s2') /\
    all_atoms s1' = Ok a1 /\ all_species s1' = Ok z1 /\ all_atoms s2' = Ok a2 /\ all_species s2' = Ok z2 /\
    length a1 = length z1 /\ length a2 = length z2 /\ Permutation (combine a1 z1) (combine a2 z2).
Proof.
  intros w c s1 s2 ms p cache c1 s1' E1 E2 NE RM H.
  exact (C151_grouping_partial w c s1 s2 [] ms p cache c1 s1' E1 E2 NE (Forall_nil _) (Forall_nil _) RM (fun x m (F : In x []) => match F with end) H).
Qed.

Definition ball (r : R) (g : generator) (p : Z) : volume := VLeaf (mkLeaf PNone None None [ASphere (mkSphere r v0 1)] (Some g) p 1 None).
Definition two_atoms : generator := GAmorphous amorph.
Ltac ball_eval := cbn -[sphere_interior leaf_check]; rewrite ?leaf_check_map; unfold leaf_inside; cbn -[sphere_interior];
  rewrite ?big_in0, ?big_in5, ?small_in0, ?small_in5; cbn -[sphere_interior].
(** False in general: a member that a void between it and the MultiVolume did not touch loses
    its atoms to the void. *)
Theorem C151_grouping_refuted : exists w x m p s1 s2 s1' s2' a1 a2,
  sc_objects s1 = Some [x; SVol m] /\ sc_objects s2 = Some [x; SVol (VMulti p [m] None)] /\
  populate w 0 s1 = Ok (0%nat, s1') /\ populate w 0 s2 = Ok (0%nat, s2') /\
  all_atoms s1' = Ok a1 /\ all_atoms s2' = Ok a2 /\ In v0 a1 /\ ~ In v0 a2.
Proof.
  exists any_world, (SVol (ball 1 GNull 1)), (ball 10 two_atoms 0), 2%Z,
    (new_scene None [SVol (ball 1 GNull 1); SVol (ball 10 two_atoms 0)]),
    (new_scene None [SVol (ball 1 GNull 1); SVol (VMulti 2 [ball 10 two_atoms 0] None)]).
  eexists. eexists. exists [mkV 0 0 0; mkV 5 0 0], [mkV 5 0 0].
  split; [reflexivity|]. split; [reflexivity|].
  split; [unfold populate; ball_eval; reflexivity|]. split; [unfold populate; ball_eval; reflexivity|].
  unfold all_atoms. do 2 ball_eval.
  split; [reflexivity|]. split; [reflexivity|]. split; [left; reflexivity|]. intros [E|[]]. injection E as E. lra.
Qed.
Example C151_nonvacuous : exists w s1 s1' l ms, sc_objects s1 = Some (l ++ map SVol ms) /\ l <> [] /\ (2 <= length ms)%nat /\
  Forall obj_aligned l /\ Forall obj_rng_free l /\ Forall vol_rng_free ms /\
  (forall x m, In x l -> In m ms -> ((ob_prio x <= vol_prio m)%Z <-> (ob_prio x <= 7)%Z) /\ ((vol_prio m <= ob_prio x)%Z <-> (7 <= ob_prio x)%Z)) /\
  populate w 0 s1 = Ok (0%nat, s1') /\ all_atoms s1' = Ok [mkV 5 0 0].
Proof.
  exists any_world, (new_scene None [SVol (ball 1 GNull 1); SVol (ball 10 two_atoms 4); SVol (ball 1 two_atoms 5)]). eexists.
  exists [SVol (ball 1 GNull 1)], [ball 10 two_atoms 4; ball 1 two_atoms 5].
  split; [reflexivity|]. split; [discriminate|]. split; [cbn; lia|]. split; [repeat constructor|]. split; [repeat constructor|]. split; [repeat constructor|]. split.
  { intros x m [<-|[]] [<-|[<-|[]]]; cbn; lia. }
  split; [unfold populate; ball_eval; reflexivity|]. unfold all_atoms. do 2 ball_eval. reflexivity.
Qed.

(* ------------------------------------------------------------------ *)
(** * C150: an object listed twice *)
(** the same volume with another priority number *)
Definition ranked (q : Z) (v : volume) : volume := match v with VLeaf l => VLeaf (with_prio l q) | VMulti _ vs a => VMulti q vs a end.
Lemma ranked_pop w q v v' : vpop w v v' -> vpop w (ranked q v) (ranked q v').
Proof.
  intros H k. specialize (H k). destruct v as [l|p vs a]; cbn [vol_populate ranked] in *.
  - unfold leaf_populate in *. change (get_bounding_box w (with_prio l q)) with (get_bounding_box w l). cbn [l_gen with_prio] in *.
    destruct (l_gen l) as [g|]; [|discriminate]. destruct (supply_atoms _ _ _ g _) as [[[c' g'] [co sp]]|]; [|discriminate]. cbn [bind] in *.
    change (leaf_check w (with_prio l q) co) with (leaf_check w l co).
    destruct (index_mask co _); [|discriminate]. cbn [bind] in *. destruct (index_mask sp _); [|discriminate]. cbn in *. injection H as <- <-. reflexivity.
  - inv_bind H. rewrite Ha. cbn [bind]. destruct (sort_by vol_prio (snd a0)); [discriminate|]. injection H as <- <-. reflexivity.
Qed.
Lemma ranked_same w q v : vol_prio (ranked q v) = q /\ (forall p, vol_inside w (ranked q v) p = vol_inside w v p) /\ vol_atoms (ranked q v) = vol_atoms v /\ (vol_rng_free v -> vol_rng_free (ranked q v)).
Proof. destruct v; repeat split; auto. Qed.

(** A second copy of a volume with a larger priority number changes nothing. *)
Theorem C150_second_copy_partial : forall w c s1 s2 l v q c1 s1',
  sc_objects s1 = Some (l ++ [SVol v]) -> sc_objects s2 = Some (l ++ [SVol v; SVol (ranked q v)]) -> (vol_prio v < q)%Z ->
  Forall obj_aligned l -> Forall obj_rng_free l -> vol_rng_free v -> populate w c s1 = Ok (c1, s1') ->
  exists s2' a1 z1 a2 z2, populate w c s2 = Ok (c, s2') /\
    all_atoms s1' = Ok a1 /\ all_species s1' = Ok z1 /\ all_atoms s2' = Ok a2 /\ all_species s2' = Ok z2 /\
    length a1 = length z1 /\ length a2 = length z2 /\ Permutation (combine a1 z1) (combine a2 z2).
Proof.
  intros w c s1 s2 l v q c1 s1' E1 E2 HQ AL RF RV H. destruct (ranked_same w q v) as (K1 & K2 & K3 & K4).
  destruct (scene_pop w c s1 (l ++ [SVol v]) c1 s1' E1) as (po & a1 & z1 & F & RA1 & RS1 & L1 & P1); auto.
  { intros X; apply app_eq_nil in X as [_ X]; discriminate. } { apply Forall_app; split; auto; repeat constructor. } { apply Forall_app; split; [auto|]. repeat (apply Forall_cons || apply Forall_nil); try exact RV; apply K4, RV. }
  apply Forall2_app_inv_l in F as (pl & pm & FL & FM & ->). inversion FM as [|x y ? ? HV FN]; subst. inversion FN; subst. apply pop_vol in HV as (v' & -> & HV).
  pose proof (ranked_pop w q _ _ HV) as HU.
  assert (F2 : Forall2 (pop w) (l ++ [SVol v; SVol (ranked q v)]) (pl ++ [SVol v'; SVol (ranked q v')])).
  { apply Forall2_app; auto. constructor; [apply vpop_pop, HV|constructor; [apply vpop_pop, HU|constructor]]. }
  destruct (scene_pops w c s2 _ _ E2 F2) as [s2' H2].
  destruct (scene_pop w c s2 _ c s2' E2) as (po2 & a2 & z2 & F2'' & RA2 & RS2 & L2 & P2); auto.
  { intros X; apply app_eq_nil in X as [_ X]; discriminate. } { apply Forall_app; split; auto; repeat constructor. } { apply Forall_app; split; [auto|]. repeat (apply Forall_cons || apply Forall_nil); try exact RV; apply K4, RV. }
  assert (po2 = pl ++ [SVol v'; SVol (ranked q v')]).
  { clear - F2 F2''. revert po2 F2''. induction F2 as [|x y xs ys H F IH]; intros po2 F2''; inversion F2''; subst; [reflexivity|]. f_equal; [|apply IH; auto].
    specialize (H 0%nat). match goal with K : pop w x _ |- _ => specialize (K 0%nat); rewrite H in K; congruence end. }
  subst po2. exists s2', a1, z1, a2, z2. repeat (split; [assumption|]). rewrite P1, P2.
  rewrite contents_twice; [reflexivity|..]; cbn [ob_prio ob_inside].
  - rewrite (proj1 (vpop_static _ _ _ HU)), (proj1 (vpop_static _ _ _ HV)), K1. exact HQ.
  - intros p. apply (ranked_same w q v').
  - intros p Hp. apply (vpop_inside w (ranked q v) (ranked q v') p HU). exact Hp.
Qed.
(** Listed twice with the same priority number, the two copies remove each other: whatever is
    left inside the volume comes from an object of strictly smaller number. *)
Theorem C150_twice_refuted : forall w c s l v c' s', sc_objects s = Some (l ++ [SVol v; SVol v]) ->
  Forall obj_aligned l -> Forall obj_rng_free l -> vol_rng_free v -> populate w c s = Ok (c', s') ->
  exists a z, all_atoms s' = Ok a /\ all_species s' = Ok z /\ length a = length z /\ (l = [] -> a = []) /\
  forall p y, In (p, y) (combine a z) -> exists o o', In o l /\ pop w o o' /\ In (p, y) (combine (ob_atoms o') (ob_species o')) /\
    ((ob_prio o < vol_prio v)%Z \/ vol_inside w v p = false).
Proof.
  intros w c s l v c' s' E AL RF RV H.
  destruct (scene_pop w c s _ c' s' E) as (po & a & z & F & RA & RS & L & P); auto.
  { intros X; apply app_eq_nil in X as [_ X]; discriminate. } { apply Forall_app; split; auto; repeat constructor. } { apply Forall_app; split; [auto|]. repeat (apply Forall_cons || apply Forall_nil); exact RV. }
  apply Forall2_app_inv_l in F as (pl & pm & FL & FM & ->). inversion FM as [|x y ? ? HV FN]; subst. inversion FN as [|x' y' ? ? HV2 FN2]; subst. inversion FN2; subst.
  apply pop_vol in HV as (v1 & -> & HV). apply pop_vol in HV2 as (v2 & -> & HV2).
  assert (v2 = v1) by (specialize (HV 0%nat); specialize (HV2 0%nat); congruence). subst v2.
  rewrite contents_both in P; [|reflexivity|reflexivity|intros p Hp; apply (vpop_inside w v v1 p HV); exact Hp|intros p Hp; apply (vpop_inside w v v1 p HV); exact Hp].
  exists a, z. repeat (split; [assumption|]). split.
  - intros ->. inversion FL; subst. cbn in P. apply Permutation_sym, Permutation_nil in P. destruct a, z; cbn in *; try discriminate; reflexivity.
  - intros p y Hq. apply (Permutation_in _ P) in Hq. apply in_flat_map in Hq as ([o' r] & Ho & Hq). cbn [fst snd] in Hq. unfold contribution in Hq. cbn [fst snd] in Hq. apply filter_In in Hq as [Hq HN].
    apply each_in in Ho. assert (X : exists o, In o l /\ pop w o o').
    { clear - FL Ho. induction FL as [|a0 b l pl K F IH]; [destruct Ho|]. destruct Ho as [<-|Ho]; [exists a0; split; [left; auto|auto]|]. destruct (IH Ho) as (x0 & I0 & E0). exists x0. split; [right; auto|auto]. }
    destruct X as (o & HO & HPo). exists o, o'. repeat (split; [assumption|]). rewrite loses_app, negb_orb in HN. apply andb_prop in HN as [_ HN]. unfold loses in HN. cbn [existsb fst ob_prio ob_inside] in HN.
    rewrite orb_false_r in HN. rewrite (proj1 (vpop_static _ _ _ HV)), (proj2 (vpop_static _ _ _ HV)), (proj1 (pop_static _ _ _ HPo)) in HN.
    destruct (vol_inside w v p); [left|right; reflexivity]. destruct (Z.leb_spec (vol_prio v) (ob_prio o)); [discriminate|assumption].
Qed.
(** and a molecule listed twice is there twice *)
Theorem C150_molecule_refuted : forall w c s m, sc_objects s = Some [SMol m; SMol m] -> length (m_atoms m) = length (m_species m) ->
  exists s' a z, populate w c s = Ok (c, s') /\ all_atoms s' = Ok a /\ all_species s' = Ok z /\ length a = length z /\
    Permutation (combine a z) (combine (m_atoms m) (m_species m) ++ combine (m_atoms m) (m_species m)).
Proof.
  intros w c s m E L. destruct (scene_pops w c s [SMol m; SMol m] [SMol m; SMol m] E) as [s' H]; [repeat constructor|].
  assert (AM : Forall obj_aligned [SMol m; SMol m]) by (constructor; [exact L|constructor; [exact L|constructor]]).
  assert (RM : Forall obj_rng_free [SMol m; SMol m]) by (constructor; [exact I|constructor; [exact I|constructor]]).
  destruct (scene_pop w c s _ c s' E ltac:(discriminate) AM RM H) as (po & a & z & F & RA & RS & LL & P).
  exists s', a, z. repeat (split; [assumption|]). rewrite P. inversion F as [|x1 y1 ? ? F1 F2]; subst. inversion F2 as [|x2 y2 ? ? F3 F4]; subst. inversion F4; subst.
  specialize (F1 0%nat). specialize (F3 0%nat). cbn in F1, F3. injection F1 as <-. injection F3 as <-.
  assert (T : forall (l : list (vec * Z)), filter (fun _ => true) l = l) by (induction l as [|q l IH]; cbn; congruence).
  unfold contents. cbn [each_with_others map flat_map fst snd]. unfold contribution, loses. cbn [existsb fst snd ob_prio ob_inside]. unfold mol_inside. rewrite Z.leb_refl. cbn [andb orb negb]. rewrite T, app_nil_r. reflexivity.
Qed.
Example C150_nonvacuous : exists w s s' l v, sc_objects s = Some (l ++ [SVol v; SVol v]) /\ l <> [] /\ Forall obj_aligned l /\ Forall obj_rng_free l /\ vol_rng_free v /\
  populate w 0 s = Ok (0%nat, s') /\ all_atoms s' = Ok [] /\ exists s1', populate w 0 (new_scene None (l ++ [SVol v])) = Ok (0%nat, s1') /\ all_atoms s1' = Ok [mkV 5 0 0].
Proof.
  exists any_world, (new_scene None [SVol (ball 1 GNull 1); SVol (ball 10 two_atoms 4); SVol (ball 10 two_atoms 4)]). eexists.
  exists [SVol (ball 1 GNull 1)], (ball 10 two_atoms 4).
  split; [reflexivity|]. split; [discriminate|]. split; [repeat constructor|]. split; [repeat constructor|]. split; [exact I|].
  split; [unfold populate; ball_eval; reflexivity|]. split; [unfold all_atoms; do 2 ball_eval; reflexivity|].
  eexists. split; [unfold populate; ball_eval; reflexivity|]. unfold all_atoms; do 2 ball_eval; reflexivity.
Qed.
