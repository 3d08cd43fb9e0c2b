(** Scene properties C01-C04, C06-C08.
    Vocabulary: Spec/PrioritySpec.v (contents, loses) and Spec/SceneSpec.v. *)
From Coq Require Import String Reals List ZArith Bool Permutation Lia Lra Sorting.Sorted.
From Verif.Model Require Import Base Vec Algebraic Transform Voxel Post Generator Volume Molecule Scene Priority.
From Verif.Spec Require Import PrioritySpec SceneSpec.
From Verif.Proofs Require Import PriorityFacts VolumeFacts SceneFacts VecFacts.
Import ListNotations.
Open Scope R_scope.

(* ------------------------------------------------------------------ *)
(** * A concrete scene used as the satisfiability witness below: a molecule of
    priority 1 with two atoms and an empty sphere of priority 0 around the first. *)
Definition demo_world : world :=
  mkWorld (fun _ _ _ => true) (fun _ => true) (fun _ => LPfail 2) (fun _ _ => None)
          (fun _ _ _ => 0) [].
Definition demo_mol : molecule :=
  mkMol [6%Z; 8%Z] [mkV 0 0 0; mkV 5 0 0] false (Some v0) None mI 1.
Definition demo_void : volume :=
  VLeaf (mkLeaf PNone None None [ASphere (mkSphere 1 v0 (/ 100000))] (Some GNull) 0 default_vtol None).
Definition demo_scene : scene := new_scene None [SMol demo_mol; SVol demo_void].
Definition demo_void' : volume :=
  VLeaf (mkLeaf PNone None None [ASphere (mkSphere 1 v0 (/ 100000))] (Some GNull) 0 default_vtol (Some ([], []))).

Definition demo_sphere : sphere := mkSphere 1 v0 (/ 100000).
Lemma demo_in : sphere_interior demo_sphere (mkV 0 0 0) = true.
Proof. unfold sphere_interior, demo_sphere, v0; cbn. apply Rltb_iff. lra. Qed.
Lemma demo_out : sphere_interior demo_sphere (mkV 5 0 0) = false.
Proof. unfold sphere_interior, demo_sphere, v0; cbn. apply Rltb_false. lra. Qed.
Ltac demo_eval := cbn -[sphere_interior]; change {| s_radius := 1; s_center := v0; s_tol := / 100000 |} with demo_sphere;
  rewrite ?demo_in, ?demo_out; cbn -[sphere_interior].
Lemma demo_populates :
  exists s', populate demo_world 0 demo_scene = Ok (0%nat, s')
             /\ sc_objects s' = Some [SVol demo_void'; SMol demo_mol]
             /\ all_atoms s' = Ok [mkV 5 0 0] /\ all_species s' = Ok [8%Z].
Proof.
  eexists. split; [reflexivity|]. split; [reflexivity|].
  unfold all_atoms, all_species; demo_eval. split; reflexivity.
Qed.
Lemma demo_ok : forall objs, sc_objects demo_scene = Some objs -> Forall obj_aligned objs /\ objs <> [].
Proof. intros objs H. inversion H; subst. split; [repeat constructor|discriminate]. Qed.

(* ------------------------------------------------------------------ *)
(** * C01 *)
(** After populate(), reading all_atoms/all_species succeeds and yields, as a
    multiset of (position, species) pairs, exactly the atoms each object supplied
    that no other object of smaller or equal priority number contains.  [pobjs] are
    the objects after each populated its own atoms. *)
Theorem C01_scene_precedence_exact : forall w c s c' s' objs,
  sc_objects s = Some objs -> objs <> [] -> Forall obj_aligned objs ->
  populate w c s = Ok (c', s') ->
  exists pobjs ats sps,
    populated w objs pobjs /\
    all_atoms s' = Ok ats /\ all_species s' = Ok sps /\ length ats = length sps /\
    Permutation (combine ats sps) (contents ob_prio ob_atoms ob_species (ob_inside w) pobjs).
Proof.
  intros w c s c' s' objs E NE HA H.
  destruct (read_populated _ _ _ _ _ H) as (objs' & pobjs & E' & HM & HO & HC & HL & RA & RS).
  { intros o Ho. rewrite E in Ho. inversion Ho; subst. auto. }
  rewrite E in E'. inversion E'; subst objs'.
  destruct (resolve_correct ob_prio ob_atoms ob_species (ob_inside w) pobjs) as [P1 P2].
  { intros o Ho. apply HL; auto. }
  exists pobjs. do 2 eexists. split.
  { exact (mapMS_Forall2 _ _ _ _ _ HM). }
  split; [exact RA|]. split; [exact RS|]. split; [exact P2|exact P1].
Qed.
Example C01_nonvacuous : exists s', populate demo_world 0 demo_scene = Ok (0%nat, s')
   /\ (forall objs, sc_objects demo_scene = Some objs -> Forall obj_aligned objs /\ objs <> [])
   /\ all_atoms s' = Ok [mkV 5 0 0].
Proof. destruct demo_populates as (s' & H & _ & H1 & _). exists s'. auto using demo_ok. Qed.

(* ------------------------------------------------------------------ *)
(** * C02 *)
(** Contribution of the object at index i of the populated scene: exactly its own
    atoms outside every other object of smaller-or-equal priority number. *)
Theorem C02_contribution_exact : forall w c s c' s' objs,
  sc_objects s = Some objs -> objs <> [] -> Forall obj_aligned objs ->
  populate w c s = Ok (c', s') ->
  exists sobjs, sc_objects s' = Some sobjs /\ length sobjs = length objs /\
    forall i o, nth_error sobjs i = Some o ->
      exists l, species_from_object s' i = Ok l /\
        forall p, In p l <-> (In p (ob_atoms o) /\
           forall j o', j <> i -> nth_error sobjs j = Some o' ->
             (ob_prio o' <= ob_prio o)%Z -> ob_inside w o' p = false).
Proof.
  intros w c s c' s' objs E NE HA H.
  destruct (read_populated _ _ _ _ _ H) as (objs' & pobjs & E' & HM & HO & HC & HL & RA & RS).
  { intros o Ho. rewrite E in Ho. inversion Ho; subst. auto. }
  rewrite E in E'. inversion E'; subst objs'.
  exists (sort_by ob_prio pobjs). split; [exact HO|]. split.
  { rewrite (Permutation_length (sort_perm ob_prio pobjs)). apply mapMS_Forall2, Forall2_len in HM. auto. }
  intros i o Hi.
  pose proof (check_sorted ob_prio ob_atoms (ob_inside w) _ i o (sort_sorted ob_prio pobjs) Hi) as HCk.
  destruct (HL o) as [_ HR].
  { eapply Permutation_in; [apply sort_perm|]. eapply nth_error_In; eauto. }
  destruct (ob_result o) as [r|] eqn:ER; [|congruence].
  unfold species_from_object. rewrite HO, Hi, HC, (read_atoms_some o r ER). cbn [bind]. rewrite HCk. cbn [bind].
  assert (EA : fst r = ob_atoms o) by (unfold ob_atoms; rewrite ER; reflexivity).
  unfold index_mask. rewrite EA, map_length, Nat.eqb_refl.
  eexists. split; [reflexivity|]. intros p. rewrite compress_map, filter_In, negb_true_iff.
  apply and_iff_compat_l. unfold loses. rewrite existsb_others.
  split.
  - intros HX j o' Hj Ho' Hp. rewrite <- not_true_iff_false. intros HI.
    rewrite <- not_true_iff_false in HX. apply HX. apply existsb_exists. exists (j, o').
    split; [apply enum_spec; auto|]. cbn [fst snd].
    rewrite HI, (proj2 (Z.leb_le _ _) Hp). cbn. rewrite andb_true_r.
    destruct (Nat.eqb_spec i j); [congruence|reflexivity].
  - intros HX. rewrite <- not_true_iff_false. intros HE. apply existsb_exists in HE as ((j & o') & Hj & HE).
    apply enum_spec in Hj. cbn [fst snd] in HE. apply andb_true_iff in HE as [H1 H2].
    apply andb_true_iff in H2 as [H2 H3].
    rewrite (HX j o') in H3; try discriminate; auto.
    + intros ->. rewrite Nat.eqb_refl in H1. discriminate.
    + apply Z.leb_le; auto.
Qed.

(** An atom position inside two different objects is contributed by at most one of
    them, and only by the one with the strictly smaller priority number. *)
Theorem C02_no_double_occupancy : forall w c s c' s' objs,
  sc_objects s = Some objs -> objs <> [] -> Forall obj_aligned objs ->
  populate w c s = Ok (c', s') ->
  exists sobjs, sc_objects s' = Some sobjs /\
    forall i j oi oj li lj p, i <> j ->
      nth_error sobjs i = Some oi -> nth_error sobjs j = Some oj ->
      species_from_object s' i = Ok li -> species_from_object s' j = Ok lj ->
      ob_inside w oi p = true -> ob_inside w oj p = true ->
      (In p li -> (ob_prio oi < ob_prio oj)%Z /\ ~ In p lj).
Proof.
  intros w c s c' s' objs E NE HA H.
  destruct (C02_contribution_exact _ _ _ _ _ _ E NE HA H) as (sobjs & HO & _ & HX).
  exists sobjs. split; [exact HO|]. intros i j oi oj li lj p Hij Hi Hj Li Lj Ii Ij Hp.
  destruct (HX i oi Hi) as (l1 & L1 & Q1). destruct (HX j oj Hj) as (l2 & L2 & Q2).
  rewrite L1 in Li. rewrite L2 in Lj. inversion Li; inversion Lj; subst.
  apply Q1 in Hp as [_ Hp].
  assert (LT : (ob_prio oi < ob_prio oj)%Z).
  { destruct (Z_lt_le_dec (ob_prio oi) (ob_prio oj)); auto. exfalso.
    rewrite (Hp j oj) in Ij; auto; discriminate. }
  split; [exact LT|]. intros Hq. apply Q2 in Hq as [_ Hq].
  rewrite (Hq i oi) in Ii; auto; try discriminate. lia.
Qed.
Example C02_nonvacuous : exists s' l, populate demo_world 0 demo_scene = Ok (0%nat, s')
   /\ species_from_object s' 1 = Ok l /\ l = [mkV 5 0 0] /\ ob_atoms (SMol demo_mol) = [mkV 0 0 0; mkV 5 0 0].
Proof.
  do 2 eexists. split; [reflexivity|]. split; [|split; [|reflexivity]].
  - unfold species_from_object; demo_eval. reflexivity.
  - reflexivity.
Qed.

(* ------------------------------------------------------------------ *)
(** * C03 *)
Lemma mapMS_perm_rng_free w : forall l l', Permutation l l' -> Forall obj_rng_free l ->
  forall c c' ps, mapMS (ob_populate w) c l = Ok (c', ps) ->
  exists ps', mapMS (ob_populate w) c l' = Ok (c, ps') /\ Permutation ps ps'.
Proof.
  assert (CC : forall l c c' ps, Forall obj_rng_free l -> mapMS (ob_populate w) c l = Ok (c', ps) ->
     c' = c /\ forall c2, mapMS (ob_populate w) c2 l = Ok (c2, ps)).
  { intros l c c' ps HF H. eapply mapMS_det; [exact H|]. eapply Forall_impl; [|exact HF].
    intros o Ho s s1 b Hb. destruct (ob_populate_rng_free _ _ _ _ _ Ho Hb) as (E & _ & E2). split; auto. intros; apply E2. }
  induction 1 as [|x l l' HPm IHP|x y l|l l' l'' HP1 IHP1 HP2 IHP2]; intros HF c c' ps HQ.
  - simpl in *. inversion HQ; subst. eexists. split; [reflexivity|constructor].
  - simpl in HQ. inv_bind HQ. destruct a as [c1 b]. cbn [fst snd] in HQ. inv_bind HQ. destruct a as [c2 bs].
    cbn [fst snd] in HQ. inversion HQ; subst. inversion HF as [|? ? F1 F2]; subst.
    destruct (ob_populate_rng_free _ _ _ _ _ F1 Ha) as (-> & _ & E2).
    destruct (IHP F2 _ _ _ Ha0) as (ps' & E & P).
    exists (b :: ps'). simpl. rewrite (proj1 (E2 c)). cbn [bind fst snd]. rewrite E. split; [reflexivity|]. constructor; auto.
  - simpl in HQ. inv_bind HQ. destruct a as [c1 b]. cbn [fst snd] in HQ. inv_bind HQ. destruct a as [c2 bs].
    cbn [fst snd] in HQ. inv_bind Ha0. destruct a as [c3 b3]. cbn [fst snd] in Ha0. inv_bind Ha0. destruct a as [c4 b4].
    cbn [fst snd] in Ha0. inversion Ha0; subst. inversion HQ; subst. inversion HF as [|? ? F1 F2]; subst.
    inversion F2 as [|? ? F3 F4]; subst.
    destruct (ob_populate_rng_free _ _ _ _ _ F1 Ha) as (-> & _ & E2).
    destruct (ob_populate_rng_free _ _ _ _ _ F3 Ha1) as (-> & _ & E3).
    destruct (CC _ _ _ _ F4 Ha2) as [-> _].
    exists (b3 :: b :: b4). simpl. rewrite (proj1 (E3 c)). cbn [bind fst snd]. rewrite (proj1 (E2 c)). cbn [bind fst snd].
    rewrite Ha2. split; [reflexivity|]. constructor.
  - destruct (IHP1 HF _ _ _ HQ) as (p1 & E1 & P1).
    assert (HF' : Forall obj_rng_free l') by (eapply Permutation_Forall; eauto).
    destruct (IHP2 HF' _ _ _ E1) as (p2 & E2 & P2). exists p2. split; auto. etransitivity; eauto.
Qed.

(** Any insertion order gives the same multiset of (position, species) pairs. *)
Theorem C03_insertion_order_irrelevant : forall w c s1 s2 objs1 objs2 c1 s1',
  sc_objects s1 = Some objs1 -> sc_objects s2 = Some objs2 -> Permutation objs1 objs2 ->
  objs1 <> [] -> Forall obj_aligned objs1 -> Forall obj_rng_free objs1 ->
  populate w c s1 = Ok (c1, s1') ->
  exists c2 s2' a1 p1 a2 p2,
    populate w c s2 = Ok (c2, s2') /\
    all_atoms s1' = Ok a1 /\ all_species s1' = Ok p1 /\
    all_atoms s2' = Ok a2 /\ all_species s2' = Ok p2 /\
    Permutation (combine a1 p1) (combine a2 p2).
Proof.
  intros w c s1 s2 objs1 objs2 c1 s1' E1 E2 HP NE HA HF H.
  destruct (read_populated _ _ _ _ _ H) as (o1 & po1 & X1 & HM & _ & _ & HL & RA & RS).
  { intros o Ho. rewrite E1 in Ho. inversion Ho; subst. auto. }
  rewrite E1 in X1. inversion X1; subst o1.
  destruct (mapMS_perm_rng_free w _ _ HP HF _ _ _ HM) as (po2 & HM2 & PP).
  assert (HS2 : exists s2', populate w c s2 = Ok (c, s2')).
  { unfold populate. rewrite E2, HM2. cbn [bind fst snd]. eexists; reflexivity. }
  destruct HS2 as (s2' & HS2).
  destruct (read_populated _ _ _ _ _ HS2) as (o2 & po2' & X2 & HM2' & _ & _ & HL2 & RA2 & RS2).
  { intros o Ho. rewrite E2 in Ho. inversion Ho; subst. split.
    - eapply Permutation_Forall; eauto.
    - intros ->. apply Permutation_sym, Permutation_nil in HP. congruence. }
  rewrite E2 in X2. inversion X2; subst o2. rewrite HM2 in HM2'. inversion HM2'; subst po2'.
  do 6 eexists. split; [exact HS2|]. split; [exact RA|]. split; [exact RS|]. split; [exact RA2|]. split; [exact RS2|].
  etransitivity; [apply resolve_correct; intros; apply HL; auto|].
  etransitivity; [apply contents_perm, PP|]. symmetry. apply resolve_correct. intros; apply HL2; auto.
Qed.

(** The listing order: ascending priority, ties in insertion order. *)
Theorem C03_listing_order : forall w c s c' s' objs,
  sc_objects s = Some objs -> populate w c s = Ok (c', s') ->
  exists pobjs sobjs, populated w objs pobjs /\ sc_objects s' = Some sobjs /\
    StronglySorted Z.le (map ob_prio sobjs) /\
    forall v, filter (fun o => (ob_prio o =? v)%Z) sobjs = filter (fun o => (ob_prio o =? v)%Z) pobjs.
Proof.
  intros w c s c' s' objs E H. apply populate_inv in H as (o & pobjs & E' & HM & ->).
  rewrite E in E'. inversion E'; subst o. exists pobjs. eexists. split.
  { exact (mapMS_Forall2 _ _ _ _ _ HM). }
  split; [reflexivity|]. split; [apply sort_sorted|]. intros v. apply sort_stable.
Qed.
Example C03_nonvacuous : exists s' , populate demo_world 0 (new_scene None [SVol demo_void; SMol demo_mol]) = Ok (0%nat, s')
  /\ all_atoms s' = Ok [mkV 5 0 0]
  /\ Permutation [SMol demo_mol; SVol demo_void] [SVol demo_void; SMol demo_mol]
  /\ Forall obj_rng_free [SMol demo_mol; SVol demo_void].
Proof.
  eexists. split; [reflexivity|]. split.
  - unfold all_atoms; demo_eval. reflexivity.
  - split; [constructor|]. repeat constructor.
Qed.

(* ------------------------------------------------------------------ *)
(** * C04 *)
Theorem C04_populate_idempotent : forall w c s c1 s1 objs,
  sc_objects s = Some objs -> Forall obj_rng_free objs ->
  populate w c s = Ok (c1, s1) ->
  forall c2, populate w c2 s1 = Ok (c2, s1).
Proof.
  intros w c s c1 s1 objs E HF H c2. apply populate_inv in H as (o & pobjs & E' & HM & ->).
  rewrite E in E'. inversion E'; subst o. unfold populate. cbn [sc_objects sc_lo sc_hi].
  rewrite mapMS_fix.
  - cbn [bind fst snd]. rewrite sort_idem. reflexivity.
  - apply (Permutation_Forall (Permutation_sym (sort_perm ob_prio pobjs))).
    apply mapMS_Forall2 in HM. clear E E'. induction HM as [|a b la lb (x1 & x2 & Hab) _ IHl]; [constructor|].
    inversion HF; subst. constructor; auto. intros cc.
    destruct (ob_populate_rng_free _ _ _ _ _ H1 Hab) as (_ & _ & E2). apply E2.
Qed.
Theorem C04_positions_species_aligned : forall w c s c1 s1 objs,
  sc_objects s = Some objs -> objs <> [] -> Forall obj_aligned objs ->
  populate w c s = Ok (c1, s1) ->
  exists a p, all_atoms s1 = Ok a /\ all_species s1 = Ok p /\ length a = length p.
Proof.
  intros. destruct (C01_scene_precedence_exact _ _ _ _ _ _ H H0 H1 H2) as (po & a & p & _ & Ha & Hp & L & _).
  eauto.
Qed.
Example C04_nonvacuous : exists s', populate demo_world 0 demo_scene = Ok (0%nat, s')
   /\ (forall objs, sc_objects demo_scene = Some objs -> Forall obj_rng_free objs)
   /\ populate demo_world 7 s' = Ok (7%nat, s').
Proof.
  destruct demo_populates as (s' & H & _). exists s'. split; auto.
  assert (forall objs, sc_objects demo_scene = Some objs -> Forall obj_rng_free objs) as HR.
  { intros objs E. inversion E; subst. repeat constructor. }
  split; auto. eapply (C04_populate_idempotent demo_world 0 demo_scene); [reflexivity| |exact H]. apply HR; reflexivity.
Qed.

(* ------------------------------------------------------------------ *)
(** * C06 *)
(** Reading a scene after adding any object to it fails, whatever the scene and the object:
    the expected property does not hold.  (IndexError because the object has no mask, unless
    the object has never been populated and so lacks the attribute.) *)
Theorem C06_read_after_add_refuted : forall w c s c' s' objs o,
  sc_objects s = Some objs -> objs <> [] -> Forall obj_aligned objs ->
  populate w c s = Ok (c', s') ->
  (exists a, all_atoms s' = Ok a) /\ (exists z, all_species s' = Ok z) /\
  all_atoms (add_object s' o) = Err (match o with SVol (VMulti _ _ None) => AttributeError | _ => IndexError end) /\
  all_species (add_object s' o) = Err (match o with SVol v => if vol_result v then IndexError else AttributeError | SMol _ => IndexError end).
Proof.
  intros w c s c' s' objs o E NE HA H.
  destruct (read_populated _ _ _ _ _ H) as (o1 & po1 & X1 & HM & HO & HC & HL & RA & RS).
  { intros x Ho. rewrite E in Ho. inversion Ho; subst. auto. }
  split; [eauto|]. split; [eauto|]. unfold all_atoms, all_species in *. unfold add_object. cbn [sc_objects sc_checks].
  rewrite HO, HC in *.
  set (srt := sort_by ob_prio po1) in *. set (cks := checks ob_prio ob_atoms (ob_inside w) srt) in *.
  assert (L : length cks = length srt) by apply checks_length.
  clearbody srt cks. clear - RA RS L.
  assert (G : forall A (read : sobj -> res (option (list A))) e l k bl, (forall v, read o = Ok v -> e = IndexError) -> (forall e', read o = Err e' -> e = e') ->
              length k = length l -> select read (Some k) l = Ok bl -> select read (Some k) (l ++ [o]) = Err e).
  { intros A read e. induction l as [|x l IH]; intros [|m ms] bl E1 E2 Lk Hs; simpl in Lk; try discriminate.
    - cbn [app select]. destruct (read o) as [v|e'] eqn:R; cbn [bind]; [rewrite (E1 v); auto|rewrite (E2 e'); auto].
    - cbn [app select bind] in *. inv_bind Hs. rewrite Ha. cbn [bind]. inv_bind Hs. rewrite Ha0. cbn [bind]. inv_bind Hs. erewrite IH; eauto. }
  split.
  - inv_bind RA. rewrite (G _ read_atoms (match o with SVol (VMulti _ _ None) => AttributeError | _ => IndexError end) srt cks a); auto.
    + intros v. unfold read_atoms. destruct o as [[l|p vs [r|]]|m]; cbn; congruence.
    + intros e. unfold read_atoms. destruct o as [[l|p vs [r|]]|m]; cbn; try congruence. destruct (l_atoms l); congruence.
  - inv_bind RS. rewrite (G _ read_species (match o with SVol v => if vol_result v then IndexError else AttributeError | SMol _ => IndexError end) srt cks a); auto.
    + intros v. unfold read_species. destruct o as [u|m]; cbn; [destruct (vol_result u)|]; congruence.
    + intros e. unfold read_species. destruct o as [u|m]; cbn; [destruct (vol_result u)|]; congruence.
Qed.
(** The part that holds: populate() again and the scene is readable. *)
Theorem C06_read_after_repopulate_partial : forall w c s c' s' c2 s2 objs o,
  sc_objects s = Some objs -> Forall obj_aligned (objs ++ [o]) ->
  populate w c s = Ok (c', s') -> populate w c' (add_object s' o) = Ok (c2, s2) ->
  exists a, all_atoms s2 = Ok a.
Proof.
  intros w c s c' s' c2 s2 objs o E HA H H2.
  apply populate_inv in H as (o1 & pobjs & E1 & HM & ->). rewrite E in E1. inversion E1; subst o1.
  destruct (read_populated _ _ _ _ _ H2) as (x & y & _ & _ & _ & _ & _ & RA & _); [|eauto].
  cbn [add_object sc_objects]. intros l Hl. inversion Hl; subst l. split.
  - apply Forall_app in HA as [HA1 HA2]. apply Forall_app. split; auto.
    apply (Permutation_Forall (Permutation_sym (sort_perm ob_prio pobjs))).
    apply mapMS_Forall2 in HM. clear - HM HA1. induction HM as [|a b la lb (x1 & x2 & Hab) _ IHl]; [constructor|].
    inversion HA1; subst. constructor; auto. destruct a as [v|m]; cbn [ob_populate] in Hab.
    + inv_bind Hab. inversion Hab; subst. exact I.
    + inversion Hab; subst. assumption.
  - intros X. apply app_eq_nil in X as [_ X]. discriminate.
Qed.
Example C06_nonvacuous : exists s', populate demo_world 0 demo_scene = Ok (0%nat, s')
  /\ all_atoms s' = Ok [mkV 5 0 0] /\ all_atoms (add_object s' (SMol demo_mol)) = Err IndexError.
Proof.
  destruct demo_populates as (s' & H & _ & H2 & _). exists s'. split; [auto|]. split; [auto|].
  eapply (C06_read_after_add_refuted demo_world 0 demo_scene); [reflexivity| | |exact H]; try discriminate. repeat constructor.
Qed.

(* ------------------------------------------------------------------ *)
(** * C07 *)
(** What is handed to ASE: the atoms and species of the scene and the extent of the
    bounds as cell. *)
Theorem C07_image : forall s im, ase_atoms s = Ok im ->
  all_atoms s = Ok (ase_positions im) /\ all_species s = Ok (ase_symbols im) /\ vadd (sc_lo s) (ase_cell im) = sc_hi s.
Proof.
  intros s im H. unfold ase_atoms in H. inv_bind H. inv_bind H. injection H as <-. cbn. repeat split; auto. vring.
Qed.
(** the mean square displacement 0.1^2 as a Debye-Waller factor *)
Definition usual_factor : R := 8 * PI ^ 2 * (1 / 10) ^ 2.
Lemma dw_value : dw_default = usual_factor.
Proof. unfold dw_default, usual_factor. field. Qed.
(** Complete description of to_file on a readable scene. *)
Theorem C07_to_file_characterised : forall s im sp,
  ase_atoms s = Ok im -> all_species s = Ok sp ->
  (forall dw, to_file s None dw = Ok [mkWrite im None dw]) /\
  (to_file s (Some "prismatic"%string) None
     = Ok [mkWrite im (Some "prismatic"%string) (Some (map (fun z => (z, usual_factor)) (nodup Z.eq_dec sp)))]) /\
  (forall dw, to_file s (Some "prismatic"%string) (Some dw) = Err TypeError) /\
  (forall f dw, f <> "prismatic"%string -> to_file s (Some f) dw = Ok []).
Proof.
  intros s im sp HI HS. unfold to_file. rewrite <- dw_value. repeat split; intros.
  - rewrite HI. reflexivity.
  - rewrite String.eqb_refl, HS. cbn [bind]. rewrite HI. reflexivity.
  - rewrite String.eqb_refl, HS. cbn [bind]. rewrite HI. reflexivity.
  - destruct (String.eqb_spec f "prismatic"); [congruence|reflexivity].
Qed.
(** "Exactly one write for every keyword set" is false: for a populated scene every
    format other than prismatic writes nothing, and a user-supplied dictionary fails. *)
Theorem C07_to_file_writes_once_refuted : forall s im sp,
  ase_atoms s = Ok im -> all_species s = Ok sp ->
  to_file s (Some "xyz"%string) None = Ok [] /\
  (exists dw, to_file s (Some "prismatic"%string) (Some dw) = Err TypeError).
Proof.
  intros s im sp HI HS. destruct (C07_to_file_characterised s im sp HI HS) as (_ & _ & H3 & H4).
  split; [apply H4; discriminate|]. exists []. apply H3.
Qed.
(** The true part: default call writes the scene once; prismatic without a dictionary
    writes it once with a factor for every species present and no other. *)
Theorem C07_to_file_partial : forall s im sp,
  ase_atoms s = Ok im -> all_species s = Ok sp ->
  to_file s None None = Ok [mkWrite im None None] /\
  exists dwf, to_file s (Some "prismatic"%string) None = Ok [mkWrite im (Some "prismatic"%string) (Some dwf)] /\
    NoDup (map fst dwf) /\
    (forall z, In z sp <-> In (z, usual_factor) dwf) /\ (forall z x, In (z, x) dwf -> In z sp /\ x = usual_factor).
Proof.
  intros s im sp HI HS. destruct (C07_to_file_characterised s im sp HI HS) as (H1 & H2 & _ & _).
  split; [apply H1|]. eexists. split; [exact H2|]. split.
  - rewrite map_map. simpl. rewrite map_id. apply NoDup_nodup.
  - split.
    + intros z. rewrite in_map_iff. split.
      * intros Hz. exists z. split; auto. apply nodup_In; auto.
      * intros (y & Hy & Hi). inversion Hy; subst. apply nodup_In in Hi; auto.
    + intros z x. rewrite in_map_iff. intros (y & Hy & Hi). inversion Hy; subst. apply nodup_In in Hi; auto.
Qed.
Example C07_nonvacuous : exists s' im, populate demo_world 0 demo_scene = Ok (0%nat, s')
  /\ ase_atoms s' = Ok im /\ ase_positions im = [mkV 5 0 0] /\ all_species s' = Ok [8%Z].
Proof.
  destruct demo_populates as (s' & H & _ & H1 & H2). exists s'. eexists. split; [exact H|].
  unfold ase_atoms. rewrite H1, H2. cbn [bind]. repeat split; reflexivity.
Qed.

(* ------------------------------------------------------------------ *)
(** * C08 *)
(** contribution of the others when a member is inserted *)
Lemma contents_insert {Ob Pt Sp} (prio : Ob -> Z) (atoms : Ob -> list Pt) (species : Ob -> list Sp)
      (inside : Ob -> Pt -> bool) v objs :
  atoms v = [] ->
  Permutation (contents prio atoms species inside (v :: objs))
    (map snd (filter (fun oa => negb ((prio v <=? prio (fst oa))%Z && inside v (fst (snd oa))))
       (sourced_contents prio atoms species inside objs))).
Proof.
  intros E. unfold contents, sourced_contents. cbn [each_with_others flat_map].
  unfold contribution at 1. cbn [fst snd]. rewrite E. cbn [combine filter app].
  match goal with |- Permutation ?a ?b => assert (a = b) as ->; [|reflexivity] end.
  generalize (each_with_others objs). intros l.
  induction l as [|[o r] l IH]; [reflexivity|]. cbn [map flat_map]. rewrite filter_app, map_app, IH. f_equal.
  unfold contribution. cbn [fst snd]. induction (combine (atoms o) (species o)) as [|[p s] t IHt]; [reflexivity|].
  cbn [filter fst snd].
  assert (EL : loses prio inside o (v :: r) p = ((prio v <=? prio o)%Z && inside v p) || loses prio inside o r p)
    by reflexivity.
  rewrite EL, negb_orb. destruct (loses prio inside o r p).
  - rewrite andb_false_r. exact IHt.
  - rewrite andb_true_r. cbn [map filter fst snd negb].
    destruct (negb ((prio v <=? prio o)%Z && inside v p)); cbn [map]; rewrite IHt; reflexivity.
Qed.

(** Adding an object with a NullGenerator anywhere in the scene: the new contents are
    the old contents without exactly those atoms that lie inside the void and come
    from an object of equal or larger priority number. *)
Theorem C08_void_carves_exactly : forall w c l l1 l2 s sv cs s' cv sv',
  l_gen l = Some GNull ->
  sc_objects s = Some (l1 ++ l2) -> sc_objects sv = Some (l1 ++ SVol (VLeaf l) :: l2) ->
  l1 ++ l2 <> [] -> Forall obj_aligned (l1 ++ l2) -> Forall obj_rng_free (l1 ++ l2) ->
  populate w c s = Ok (cs, s') -> populate w c sv = Ok (cv, sv') ->
  exists pobjs a p av pv,
    populated w (l1 ++ l2) pobjs /\
    all_atoms s' = Ok a /\ all_species s' = Ok p /\
    all_atoms sv' = Ok av /\ all_species sv' = Ok pv /\
    let src := sourced_contents ob_prio ob_atoms ob_species (ob_inside w) pobjs in
    Permutation (combine a p) (map snd src) /\
    Permutation (combine av pv)
      (map snd (filter (fun oa => negb ((l_prio l <=? ob_prio (fst oa))%Z
                                        && leaf_inside w l (fst (snd oa)))) src)).
Proof.
  intros w c l l1 l2 s sv cs s' cv sv' HN E Ev NE HA HF H Hv.
  set (vd := SVol (VLeaf l)) in *.
  assert (HAv : Forall obj_aligned (l1 ++ vd :: l2)).
  { apply Forall_app in HA as [? ?]. apply Forall_app; split; auto. constructor; [exact I|auto]. }
  assert (HFv : Forall obj_rng_free (l1 ++ vd :: l2)).
  { apply Forall_app in HF as [? ?]. apply Forall_app; split; auto. constructor; [|auto]. cbn. rewrite HN. exact I. }
  destruct (read_populated _ _ _ _ _ H) as (o1 & po1 & X1 & HM & _ & _ & HL & RA & RS).
  { intros o Ho. rewrite E in Ho. inversion Ho; subst. auto. }
  rewrite E in X1. inversion X1; subst o1.
  destruct (read_populated _ _ _ _ _ Hv) as (o2 & po2 & X2 & HMv & _ & _ & HLv & RAv & RSv).
  { intros o Ho. rewrite Ev in Ho. inversion Ho; subst. split; auto. destruct l1; discriminate. }
  rewrite Ev in X2. inversion X2; subst o2.
  set (vd' := SVol (VLeaf (with_atoms (with_gen l (Some GNull)) ([], [])))).
  assert (PV : Permutation po2 (vd' :: po1)).
  { destruct (mapMS_perm_rng_free w (l1 ++ vd :: l2) (vd :: l1 ++ l2)
      (Permutation_sym (Permutation_middle l1 l2 vd)) HFv _ _ _ HMv) as (ps' & E1 & P1).
    etransitivity; [exact P1|]. simpl in E1. inv_bind E1. destruct a as [c1 b]. cbn [fst snd] in E1.
    inv_bind E1. destruct a as [c2 bs]. cbn [fst snd] in E1. inversion E1; subst.
    unfold vd in Ha. cbn [ob_populate vol_populate] in Ha. unfold leaf_populate in Ha. rewrite HN in Ha.
    cbn [supply_atoms bind] in Ha. rewrite leaf_check_map in Ha. cbn in Ha.
    inversion Ha; subst. rewrite HM in Ha0. inversion Ha0; subst. reflexivity. }
  exists po1. do 4 eexists. split.
  { exact (mapMS_Forall2 _ _ _ _ _ HM). }
  split; [exact RA|]. split; [exact RS|]. split; [exact RAv|]. split; [exact RSv|]. split.
  - rewrite sourced_map. apply resolve_correct. intros; apply HL; auto.
  - etransitivity; [apply resolve_correct; intros; apply HLv; auto|].
    etransitivity; [apply contents_perm, PV|].
    etransitivity; [apply contents_insert; reflexivity|]. reflexivity.
Qed.
Example C08_nonvacuous :
  exists s' sv', populate demo_world 0 (new_scene None [SMol demo_mol]) = Ok (0%nat, s') /\
    all_atoms s' = Ok [mkV 0 0 0; mkV 5 0 0] /\
    populate demo_world 0 demo_scene = Ok (0%nat, sv') /\ all_atoms sv' = Ok [mkV 5 0 0].
Proof.
  destruct demo_populates as (sv' & H & _ & H1 & _).
  eexists. exists sv'. split; [reflexivity|]. split; [reflexivity|]. auto.
Qed.

