(** Object identity: C73, C74. *)
From Coq Require Import String.
From Coq Require Import Reals List ZArith Bool Lra Lia PeanoNat.
From Verif.Model Require Import Base Vec Algebraic Transform Voxel Strain Generator Volume Heap.
From Verif.Spec Require Import HeapSpec.
From Verif.Proofs Require Import VecFacts AlgFacts VolumeFacts VolTransFacts HeapFacts HeapRun.
Import ListNotations.
Open Scope nat_scope.

Lemma owned_kind h v x : wf h -> owns h v x -> kind h x = Some KAlg \/ kind h x = Some KGen \/ kind h x = Some KStrain.
Proof. intros W [O|[O|(g & _ & O)]]; [left; eapply wf_alg|right; left; eapply wf_gen|right; right; eapply wf_str]; eauto. Qed.

(** C73, volumes.  Whatever call is made, and whether or not it raises, a Volume keeps its
    value (points, hull, surfaces, generator with strain field, priority, atoms) unless the
    call is directed at it, at an object the caller took out of it, or at a MultiVolume
    that contains it. *)
Theorem C73_volumes_isolated : forall w fuel h o h' r u l, reach w h -> client_ok h o -> run w fuel h o = (h', r) ->
  view_leaf h u = Some l -> ~ touches h o u -> view_leaf h' u = Some l.
Proof.
  intros w fuel h o h' r u l R OK H V NT. destruct (reach_wf _ _ R) as [W C].
  destruct (run_good _ _ _ _ _ _ W C OK H) as [(W' & [_ K] & G) _]. destruct (view_leaf_get _ _ _ V) as (l0 & algs & gen & GU).
  pose proof (kind_get _ _ _ GU) as KU. cbn in KU. pose proof (get_lt _ _ _ GU) as LU. rewrite <- V.
  apply view_leaf_local.
  - apply K; [exact LU|]. intros Q. destruct o; cbn [writes touches] in *; try contradiction; try (destruct Q as [-> Q]; try destruct Q as [Q|Q]; congruence).
    + destruct Q as (z & B & KZ & [->|O]); [contradiction|]. destruct (owned_kind _ _ _ W O) as [Q|[Q|Q]]; congruence.
    + destruct Q as (KZ & [->|O]); [contradiction|]. destruct (owned_kind _ _ _ W O) as [Q|[Q|Q]]; congruence.
  - intros x O. pose proof (owned_kind _ _ _ W O) as KX. apply K; [apply owns_lt in O; [lia|exact W]|].
    intros Q. destruct o; cbn [writes touches client_ok] in *; try contradiction;
      try (destruct Q as [-> Q]; first [contradiction | destruct KX as [KX|[KX|KX]]; try destruct Q as [Q|Q]; congruence]).
    + destruct OK as [FG _]. destruct Q as [-> _]. eapply FG; eauto.
    + destruct Q as (z & B & KZ & [->|O']); [destruct KX as [KX|[KX|KX]]; congruence|]. rewrite (owns_unique _ _ _ _ W O O') in NT. contradiction.
    + destruct Q as (KZ & [->|O']); [destruct KX as [KX|[KX|KX]]; congruence|]. apply NT. exact (owns_unique _ _ _ _ W O O').
Qed.

(** C73, the caller's objects.  An algebraic object, strain field or generator that belongs
    to the caller stays theirs and keeps its value, unless the caller changes it
    themselves: no operation on a volume, multi-volume or copy reaches it. *)
Theorem C73_clients_isolated : forall w fuel h o h' r x, reach w h -> client_ok h o -> run w fuel h o = (h', r) ->
  free h x -> x < length h -> ~ alters h o x ->
  free h' x /\ (forall a, view_alg h x = Some a -> view_alg h' x = Some a) /\
  (forall s, view_strain h x = Some s -> view_strain h' x = Some s) /\
  (forall g, view_gen h x = Some g -> view_gen h' x = Some g).
Proof.
  intros w fuel h o h' r x R OK H F L NA. destruct (reach_wf _ _ R) as [W C].
  destruct (run_good _ _ _ _ _ _ W C OK H) as [(W' & [_ K] & G) _]. split; [eapply free_grows; eauto|].
  assert (SAME : forall y, y < length h -> free h y -> (kind h y = Some KAlg \/ kind h y = Some KGen \/ kind h y = Some KStrain) ->
    (kind h y = Some KAlg -> forall a, o <> MutAlg y a) -> (kind h y = Some KGen -> forall a s, o <> MutGen y a /\ o <> SetStrain y s) ->
    (kind h y = Some KStrain -> forall a, o <> MutStrain y a) -> get h' y = get h y).
  { intros y Ly Fy KX N1 N2 N3. apply K; [exact Ly|]. intros Q. destruct o; cbn [writes] in Q; try contradiction;
      try (destruct Q as [-> Q]; try (eapply N1; eauto; fail); try (eapply (N2 Q); reflexivity); try (eapply N3; eauto; fail); destruct KX as [KX|[KX|KX]]; try destruct Q as [Q|Q]; congruence).
    - destruct Q as [-> Q]. destruct (N2 Q (GNull) s) as [_ N]. congruence.
    - destruct Q as [-> Q]. destruct (N2 Q g 0) as [N _]. congruence.
    - destruct Q as (z & B & KZ & [->|O]); [destruct KX as [KX|[KX|KX]]; congruence|]. eapply Fy; eauto.
    - destruct Q as (KZ & [->|O]); [destruct KX as [KX|[KX|KX]]; congruence|]. eapply Fy; eauto. }
  assert (GX : kind h x = Some KAlg \/ kind h x = Some KGen \/ kind h x = Some KStrain -> get h' x = get h x).
  { intros KX; apply SAME; auto; intros _ a; [| |]; try split; intros; try intros ->; apply NA; cbn; auto. }
  split; [|split].
  - intros a V. rewrite <- V. unfold view_alg in *. rewrite GX; [reflexivity|]. left. unfold kind. destruct (get h x) as [[| | | |]|]; try discriminate. reflexivity.
  - intros s V. rewrite <- V. unfold view_strain in *. rewrite GX; [reflexivity|]. right. right. unfold kind. destruct (get h x) as [[| | | |]|]; try discriminate. reflexivity.
  - intros g V. assert (KX : kind h x = Some KGen) by (unfold view_gen in V; unfold kind; destruct (get h x) as [[| |? [?|]| |]|]; try discriminate; reflexivity).
    rewrite <- V. apply view_gen_local; [apply GX; auto|]. intros s Hs. pose proof (wf_str _ W _ _ Hs) as KS.
    apply SAME; auto; try congruence.
    + eapply kind_lt; eauto.
    + intros v [O|[O|(g' & O & O')]].
      * pose proof (wf_alg _ W _ _ O). congruence.
      * pose proof (wf_gen _ W _ _ O). congruence.
      * rewrite <- (wf_P _ W _ _ _ _ O O' Hs) in O. apply (F v). right. left. exact O.
    + intros _ a ->. apply NA. cbn. auto.
Qed.

(** The same over whole histories. *)
Theorem C73_volumes_isolated_ever : forall w h h' u l, reach w h -> later w (fun h o => ~ touches h o u) h h' ->
  view_leaf h u = Some l -> view_leaf h' u = Some l.
Proof.
  intros w h h' u l R H. revert R. induction H as [|h fuel o h' OK NT H IH]; intros R V; [exact V|].
  apply IH; [constructor; assumption|]. destruct (run w fuel h o) as [h1 r] eqn:E. cbn [fst]. eapply C73_volumes_isolated; eauto.
Qed.
Theorem C73_clients_isolated_ever : forall w h h' x, reach w h -> later w (fun h o => ~ alters h o x) h h' ->
  free h x -> x < length h ->
  free h' x /\ (forall a, view_alg h x = Some a -> view_alg h' x = Some a) /\
  (forall s, view_strain h x = Some s -> view_strain h' x = Some s) /\
  (forall g, view_gen h x = Some g -> view_gen h' x = Some g).
Proof.
  intros w h h' x R H. revert R. induction H as [|h fuel o h' OK NT H IH]; intros R F L; [auto|].
  destruct (run w fuel h o) as [h1 r] eqn:E. cbn [fst] in *. destruct (C73_clients_isolated _ _ _ _ _ _ x R OK E F L NT) as (F1 & A1 & S1 & G1).
  assert (R1 : reach w h1) by (replace h1 with (fst (run w fuel h o)) by (rewrite E; reflexivity); constructor; assumption).
  assert (L1 : x < length h1).
  { destruct (reach_wf _ _ R) as [W C]. destruct (run_good _ _ _ _ _ _ W C OK E) as [(_ & [Q _] & _) _]. lia. }
  destruct (IH R1 F1 L1) as (F2 & A2 & S2 & G2).
  split; [exact F2|]. split; [intros a V; apply A2, A1, V|]. split; [intros s V; apply S2, S1, V|intros g V; apply G2, G1, V].
Qed.

(** Objects the caller makes are theirs, and stay so after they have been added to volumes:
    a volume gets a copy with the same value. *)
Theorem C73_new_objects_free : forall w fuel h o h' x, reach w h -> client_ok h o -> run w fuel h o = (h', Ok x) ->
  match o with NewAlg _ | NewStrain _ | NewGen _ | FromAlg _ _ | FromGen _ _ => True | _ => False end -> free h' x /\ length h <= x < length h'.
Proof.
  intros w fuel h o h' x R OK H M. destruct (reach_wf _ _ R) as [W C]. destruct (run_good _ _ _ _ _ _ W C OK H) as [(W' & _ & G) _].
  assert (Q : forall ob, bare ob -> h' = h ++ [ob] -> x = length h -> free h' x /\ length h <= x < length h').
  { intros ob B -> ->. split; [|rewrite app_length; cbn; lia]. intros v O. apply owns_alloc in O; [|exact B]. apply owns_lt in O; [lia|exact W]. }
  destruct o; cbn [run] in H; try contradiction.
  - injection H as <- <-. apply (Q (OAlg a)); auto; exact I.
  - injection H as <- <-. apply (Q (OStrain s)); auto; exact I.
  - injection H as <- <-. apply (Q (OGen (gen_with g None) None)); auto; exact I.
  - destruct (view_alg h x0) as [a|]; [|discriminate]. destruct (from_alg_object a ts) as [a'|]; [|discriminate]. injection H as <- <-. apply (Q (OAlg a')); auto; exact I.
  - destruct (deepcopy_gen h x0) as [h1 [y|e]] eqn:D; [|discriminate]. destruct (deepcopy_gen_spec _ _ _ _ W D) as (G1 & Y). destruct (Y y eq_refl) as (LY & OW & _).
    destruct (h_each (fun h t => h_gen_transform h y t) h1 ts) as [h2 [[]|e]] eqn:HE; [|discriminate]. injection H as <- <-.
    destruct (h_each_gen_transform y (length h) ts h1 h2 _ (proj1 G1) ltac:(lia) HE) as ((_ & [L2 _] & G2) & _). split; [|lia].
    intros v O. apply G2 in O. destruct O as [O|O]; [|lia]. apply OW in O. apply owns_lt in O; [lia|exact W].
Qed.
Theorem C73_added_surface : forall w fuel h v x h' r l, reach w h -> run w fuel h (AddAlg v x) = (h', Ok r) -> view_leaf h v = Some l ->
  exists a, view_alg h x = Some a /\ view_leaf h' v = Some (with_alg l (l_alg l ++ [a])).
Proof.
  intros w fuel h v x h' r l R H V. destruct (reach_wf _ _ R) as [W C]. cbn [run] in H. destruct (h_add_alg h v x) as [h1 [[]|e]] eqn:E; [|discriminate]. injection H as <- <-.
  destruct (h_add_alg_spec _ _ _ _ _ W E) as [_ Q]. apply Q; auto.
Qed.
Theorem C73_added_generator : forall w fuel h v x o h' r l, reach w h -> run w fuel h (AddGen v x o) = (h', Ok r) -> view_leaf h v = Some l ->
  exists g l', view_gen h x = Some g /\ add_generator l g o = Ok l' /\ view_leaf h' v = Some l'.
Proof.
  intros w fuel h v x o h' r l R H V. destruct (reach_wf _ _ R) as [W C]. cbn [run] in H. destruct (h_add_gen h v x o) as [h1 [[]|e]] eqn:E; [|discriminate]. injection H as <- <-.
  destruct (h_add_gen_spec _ _ _ _ _ _ W E) as [_ Q]. apply Q; auto.
Qed.
(** Copies: from_volume makes new volumes with the values of the old ones (transformed, and
    with the generator given, if any); from_generator a new generator. *)
Theorem C73_volume_copies : forall w fuel h x g ts h' y, reach w h -> run w fuel h (Copy x g ts) = (h', Ok y) ->
  exists ls ls', leaves fuel h x = Some ls /\ leaves fuel h' y = Some ls' /\ NoDup ls' /\ length h <= y /\ (forall u, In u ls' -> length h <= u) /\
  Forall2 (fun u u' => exists l l', view_leaf h u = Some l /\ view_leaf h' u' = Some l' /\
    leaf_from_volume w l (match g with Some z => view_gen h z | None => None end) ts = Ok l') ls ls'.
Proof.
  intros w fuel h x g ts h' y R H. destruct (reach_wf _ _ R) as [W C]. cbn [run] in H.
  assert (Q : (forall z, g = Some z -> z < length h) /\ h_copy w fuel h x g ts = (h', Ok y)).
  { destruct g as [z|]; [|split; [discriminate|exact H]]. destruct (get h z) as [[| | | |]|] eqn:E; try discriminate. split; [|exact H].
    intros z' Hz. injection Hz as <-. eapply get_lt; eauto. }
  destruct Q as [LG HC]. destruct (h_copy_spec _ _ _ _ _ _ _ _ W C LG HC) as (G & C' & Y). destruct (Y y eq_refl) as (LY & ls & ls' & L1 & L2 & ND & B & F).
  exists ls, ls'. split; [exact L1|]. split; [apply L2, keeps_refl|]. split; [exact ND|]. split; [lia|]. split; [intros u I; apply B in I; lia|].
  clear -F. induction F as [|u u' la la' (l & l' & V & E & V') F IH]; constructor; auto. exists l, l'. auto.
Qed.
Theorem C73_generator_copies : forall w fuel h x ts h' y, reach w h -> run w fuel h (FromGen x ts) = (h', Ok y) ->
  exists g g', view_gen h x = Some g /\ from_generator g ts = Ok g' /\ view_gen h' y = Some g'.
Proof.
  intros w fuel h x ts h' y R H. destruct (reach_wf _ _ R) as [W C]. cbn [run] in H.
  destruct (deepcopy_gen h x) as [h1 [z|e]] eqn:D; [|discriminate]. destruct (deepcopy_gen_spec _ _ _ _ W D) as (G1 & Y). destruct (Y z eq_refl) as (LZ & _ & _ & _ & _ & VZ & (g & VX)).
  destruct (h_each (fun h t => h_gen_transform h z t) h1 ts) as [h2 [[]|e]] eqn:HE; [|discriminate]. injection H as <- <-.
  destruct (h_each_gen_transform z (length h) ts h1 h2 _ (proj1 G1) ltac:(lia) HE) as (_ & _ & V). destruct (V eq_refl g) as (g' & F & V'); [congruence|]. eauto.
Qed.

(** C74.  A volume occurring k times below a MultiVolume is transformed k times. *)
Theorem C74_counts : forall w fuel h x t h' r, reach w h -> run w fuel h (Transform x t) = (h', Ok r) ->
  exists ls, leaves fuel h x = Some ls /\
  forall v l, view_leaf h v = Some l -> exists l', view_leaf h' v = Some l' /\ moved w t (count_occ Nat.eq_dec ls v) l l'.
Proof.
  intros w fuel h x t h' r R H. destruct (reach_wf _ _ R) as [W C]. cbn [run] in H. destruct (h_transform w fuel h x t) as [h1 [[]|e]] eqn:E; [|discriminate]. injection H as <- <-.
  destruct (h_transform_ok_leaves _ _ _ _ _ _ W E) as [ls L]. exists ls. split; [exact L|]. rewrite (h_transform_leaves _ _ _ _ _ _ W L) in E.
  destruct (moved_each _ _ _ _ _ W E) as [_ M]. intros v l V. destruct (M v l V) as (l' & A & B). eauto.
Qed.
(** Exactly once when no volume occurs twice. *)
Theorem C74_once_partial : forall w fuel h x t h' r ls, reach w h -> run w fuel h (Transform x t) = (h', Ok r) ->
  leaves fuel h x = Some ls -> NoDup ls ->
  (forall v l, In v ls -> view_leaf h v = Some l -> exists l', leaf_transform w l t = (l', Ok tt) /\ view_leaf h' v = Some l') /\
  (forall v l, ~ In v ls -> view_leaf h v = Some l -> view_leaf h' v = Some l).
Proof.
  intros w fuel h x t h' r ls R H L ND. destruct (C74_counts _ _ _ _ _ _ _ R H) as (ls' & L' & M). assert (ls' = ls) by congruence. subst ls'. split; intros v l I V.
  - destruct (M v l V) as (l' & V' & Q). rewrite (proj1 (NoDup_count_occ' Nat.eq_dec ls) ND v I) in Q. inversion Q as [|? ? l1 ? T Q']; subst. inversion Q'; subst. eauto.
  - destruct (M v l V) as (l' & V' & Q). rewrite (proj1 (count_occ_not_In Nat.eq_dec ls v) I) in Q. inversion Q; subst. exact V'.
Qed.
(** Copies made by from_volume are such, whatever sharing there was in the original. *)
Theorem C74_copies_once : forall w fuel h x g ts h1 y t h2 r, reach w h -> run w fuel h (Copy x g ts) = (h1, Ok y) ->
  run w fuel h1 (Transform y t) = (h2, Ok r) -> exists ls, leaves fuel h1 y = Some ls /\
  forall v l, In v ls -> view_leaf h1 v = Some l -> exists l', leaf_transform w l t = (l', Ok tt) /\ view_leaf h2 v = Some l'.
Proof.
  intros w fuel h x g ts h1 y t h2 r R H1 H2. destruct (C73_volume_copies _ _ _ _ _ _ _ _ R H1) as (ls & ls' & _ & L & ND & _).
  assert (R1 : reach w h1) by (replace h1 with (fst (run w fuel h (Copy x g ts))) by (rewrite H1; reflexivity); constructor; [exact R|exact I]).
  exists ls'. split; [exact L|]. intros v l I V. destruct (C74_once_partial _ _ _ _ _ _ _ _ R1 H2 L ND) as [Q _]. eapply Q; eauto.
Qed.

(** A concrete history: a unit ball, a volume bounded by it, and a MultiVolume to which the
    volume is added twice; then a translation. *)
Definition demo_world : world := mkWorld (fun _ _ _ => false) (fun _ => false) (fun _ => LPfail 0) (fun _ _ => None) (fun _ _ _ => 0%R) [].
Fixpoint runs (w : world) (fuel : nat) (h : heap) (os : list op) : heap :=
  match os with [] => h | o :: t => runs w fuel (fst (run w fuel h o)) t end.
Lemma runs_reach w fuel : forall os h, reach w h -> Forall (fun o => match o with SetStrain _ _ => False | _ => True end) os -> reach w (runs w fuel h os).
Proof.
  induction os as [|o os IH]; intros h R F; [exact R|]. inversion F; subst. apply IH; [|assumption]. constructor; [exact R|]. destruct o; try exact I. contradiction.
Qed.
Definition demo_ball (x : R) : alg := ASphere (mkSphere 1 (mkV x 0 0) default_tol).
Definition demo_shift : transform := TTranslation (mkV 1 0 0) false false.
Definition demo : heap := runs demo_world 2 [] [NewAlg (demo_ball 0); NewVol None 0; AddAlg 1 0; NewMulti 0; AddVolume 3 1; AddVolume 3 1].

Theorem C74_refuted : exists w fuel h m v t h' r l l', reach w h /\ In v (mvols h m) /\ run w fuel h (Transform m t) = (h', Ok r) /\
  view_leaf h v = Some l /\ view_leaf h' v = Some l' /\ fst (leaf_transform w l t) <> l'.
Proof.
  exists demo_world, 2%nat, demo, 3%nat, 1%nat, demo_shift. do 4 eexists. split; [apply runs_reach; [constructor|repeat constructor]|].
  split; [left; reflexivity|]. split; [reflexivity|]. split; [reflexivity|]. split; [reflexivity|].
  cbn. intros E. apply (f_equal (fun l => match l_alg l with [ASphere s] => vx (s_center s) | _ => 0%R end)) in E. cbn in E. revert E. vunfold. lra.
Qed.

(** The hypotheses of the theorems above are met by the same history: transforming through the
    MultiVolume moves the volume, not the caller's ball; adding the ball elsewhere, too. *)
Example C73_nonvacuous : exists h' r, reach demo_world demo /\ run demo_world 2 demo (Transform 3 demo_shift) = (h', Ok r) /\
  free demo 0 /\ view_alg h' 0 = Some (demo_ball 0) /\ view_leaf h' 1 <> view_leaf demo 1 /\ owns demo 1 2.
Proof.
  do 2 eexists. assert (R : reach demo_world demo) by (apply runs_reach; [constructor|repeat constructor]).
  split; [exact R|]. split; [reflexivity|]. split.
  - intros v O. destruct (reach_wf _ _ R) as [W C]. pose proof (owns_lt _ _ _ W O) as [_ L]. cbn in L.
    destruct v as [|[|[|[|v]]]]; try (cbn in L; lia); destruct O as [O|[O|(g & O & _)]]; cbn in O; try contradiction; try discriminate. destruct O as [O|[]]. discriminate.
  - split; [reflexivity|]. split; [|left; left; reflexivity].
    cbn. intros E. apply (f_equal (fun l => match l with Some l => match l_alg l with [ASphere s] => vx (s_center s) | _ => 0%R end | None => 0%R end)) in E. cbn in E. revert E. vunfold. lra.
Qed.
Example C74_nonvacuous : exists h' r, run demo_world 2 demo (Transform 1 demo_shift) = (h', Ok r) /\ leaves 2 demo 1 = Some [1%nat] /\ NoDup [1%nat].
Proof. do 2 eexists. split; [reflexivity|]. split; [reflexivity|]. constructor; [intros []|constructor]. Qed.

(** populate_atoms of a volume changes its value as the value-level model says (atoms, and
    the state of the volume's own generator and strain field). *)
Theorem C73_populate_own : forall w fuel h v c h' r l, reach w h -> run w fuel h (Populate v c) = (h', Ok r) -> view_leaf h v = Some l ->
  exists c' l', leaf_populate w c l = Ok (c', l') /\ view_leaf h' v = Some l'.
Proof.
  intros w fuel h v c h' r l R H V. destruct (reach_wf _ _ R) as [W C]. cbn [run] in H. destruct (h_populate w c h v) as [h1 r1] eqn:E.
  destruct (h_populate_spec _ _ _ _ _ _ W E) as (_ & _ & _ & Q). specialize (Q l V). destruct (leaf_populate w c l) as [[c' l']|e].
  - destruct Q as [-> Q]. injection H as <- _. eauto.
  - destruct Q as [-> _]. discriminate.
Qed.

(** C97.  What a generator supplies does not depend on who used its strain field before:
    using it with other voxels, any number of times, changes nothing. *)
(** A history of a strain field: other generators supplied atoms with it, or its
    parameters were scraped from their voxels directly. *)
Inductive used (mk : nat -> nat -> nat -> R) : hstrain -> hstrain -> Prop :=
| used_not hs : used mk hs hs
| used_supply hs hs' c k bbox c' k' atoms : used mk hs hs' -> g_strain k = Some hs' ->
    crystal_supply mk c k bbox = Ok (c', k', atoms) -> forall hs'', g_strain k' = Some hs'' -> used mk hs hs''
| used_scrape hs hs' v : used mk hs hs' -> used mk hs (scrape_params hs' v).
Theorem C97_strain_reusable : forall mk c k hs hs' bbox, used mk hs hs' ->
  let with_strain s := mkCrystal (g_structure k) (g_voxel k) (Some s) (g_post k) in
  crystal_supply mk c (with_strain hs') bbox = crystal_supply mk c (with_strain hs) bbox.
Proof.
  intros mk c k hs hs' bbox U with_strain.
  assert (SS : forall h v v', scrape_params (scrape_params h v') v = scrape_params h v).
  { intros h v v'. unfold scrape_params. cbn [hs_matrix hs_origin hs_generator_origin hs_mode hs_bases]. destruct (hs_generator_origin h), (String.eqb (hs_mode h) "crystal"%string); reflexivity. }
  assert (Q : forall v, scrape_params hs' v = scrape_params hs v).
  { induction U as [hs|hs hs' cc kk bb cc' kk' at_ U IH G H hs'' G'|hs hs' v' U IH]; intros v; [reflexivity| |rewrite SS; apply IH].
    assert (E : hs'' = scrape_params hs' (g_voxel kk)).
    { unfold crystal_supply in H. rewrite G in H. inv_bind H. destruct (block_atoms kk a) as [o sp]. destruct (match g_post kk with Some p => _ | None => _ end) as [c1 [o1 sp1]].
      inv_bind H. injection H as _ <- _. cbn in G'. congruence. }
    rewrite E, SS. apply IH. }
  unfold crystal_supply, with_strain. cbn [g_voxel g_structure g_post g_strain]. rewrite Q. reflexivity.
Qed.
(** ... while the field itself is changed by being used: a strain field about the
    generator's origin remembers the last generator's origin. *)
Lemma strain_supply : let k := mkCrystal (mkStruct mI [v0] [79%Z]) (mkVoxel mI (SAll 1) (mkV 1 0 0)) (Some (mkH mI v0 true "standard"%string None)) None in
  exists k' atoms, crystal_supply (fun _ _ _ => 0%R) 0 k [v0] = Ok (0, k', atoms) /\ g_strain k' = Some (mkH mI (mkV 1 0 0) true "standard"%string None).
Proof.
  intros k. unfold crystal_supply.
  assert (E : exists e, get_extents (g_voxel k) [v0] = Ok e).
  { unfold get_extents. assert (S : sbases (g_voxel k) = mI) by (cbn; apply mat_eq; apply vec_eq; vunfold; ring). rewrite S. unfold solve, inv.
    replace (Reqb (det mI) 0) with false by (symmetry; apply Reqb_false; rewrite det_mI; lra). cbn. eexists. reflexivity. }
  destruct E as [e ->]. cbn [bind]. destruct (block_atoms _ _) as [o sp]. cbn. eexists _, _. split; reflexivity.
Qed.
Theorem C97_strain_changed : exists mk c k hs bbox c' k' atoms,
  g_strain k = Some hs /\ crystal_supply mk c k bbox = Ok (c', k', atoms) /\ g_strain k' <> Some hs.
Proof.
  destruct strain_supply as (k' & atoms & E & G). eexists _, _, _, _, _, _, _, _. split; [|split; [exact E|]]; [reflexivity|]. rewrite G. intros X. injection X. lra.
Qed.
Example C97_nonvacuous : exists mk hs hs', used mk hs hs' /\ hs <> hs'.
Proof.
  destruct strain_supply as (k' & atoms & E & G). eexists _, _, _. split; [eapply used_supply; [apply used_not| |exact E|exact G]; reflexivity|]. intros X. injection X. lra.
Qed.
