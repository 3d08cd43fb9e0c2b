(** Moving all objects of a scene rigidly moves its atoms: C121. *)
From Coq Require Import Reals List ZArith Bool Permutation Lia Lra.
From Verif.Model Require Import Base Vec Algebraic Transform Voxel Post Generator Volume Molecule Scene Priority.
From Verif.Spec Require Import Geometry PrioritySpec SceneSpec CrystalSpec AlgSpec.
From Verif.Proofs Require Import PriorityFacts VolumeFacts SceneFacts VecFacts AlgFacts GenFacts VolTransFacts.
From Verif.Props Require Import SceneProps TransformProps VolumeProps BoxProps GeneratorProps RestProps PartsProps.
Import ListNotations.
Open Scope R_scope.

(** Volumes of any nesting whose leaves are bounded by surfaces (a sphere among them) and
    hold a plain crystal with a single scale. *)
Inductive movable : volume -> Prop :=
| mov_leaf l g : plain g -> uniform_scale (g_voxel g) -> l_gen l = Some (GCrystal g) -> ball_bounded l -> l_tri l = None -> movable (VLeaf l)
| mov_multi p vs cache : vs <> [] -> Forall movable vs -> movable (VMulti p vs cache).
(** p is not in the margin that the tolerance adds to the sphere of one of the leaves *)
Definition off_margin (w : world) (v : volume) (p : vec) : Prop :=
  forall l, In l (leaves v) -> leaf_inside w l p = true -> in_balls l p.

Lemma in_contents {Ob Pt Sp} (prio : Ob -> Z) (atoms : Ob -> list Pt) (species : Ob -> list Sp) inside l q :
  In q (contents prio atoms species inside l) <->
  exists i o, nth_error l i = Some o /\ In q (combine (atoms o) (species o)) /\
    forall j o', j <> i -> nth_error l j = Some o' -> (prio o' <= prio o)%Z -> inside o' (fst q) = false.
Proof.
  unfold contents. rewrite in_flat_map. split.
  - intros ([o r] & Ho & H). unfold contribution in H. cbn [fst snd] in H. apply filter_In in H as [H K]. rewrite negb_true_iff in K.
    destruct (nth_each _ _ _ Ho) as (i & Hi & O). exists i, o. split; [exact Hi|]. split; [exact H|]. intros j o' N Hj L. unfold loses in K.
    apply not_true_iff_false in K. rewrite existsb_exists in K. destruct (inside o' (fst q)) eqn:E; auto. exfalso. apply K. exists o'. split; [apply (O j); auto|].
    rewrite E. assert ((prio o' <=? prio o)%Z = true) as -> by lia. reflexivity.
  - intros (i & o & Hi & H & O). destruct (each_nth l i o Hi) as (r & R1 & R2). exists (o, r). split; [exact R1|]. unfold contribution. cbn [fst snd]. apply filter_In. split; [exact H|].
    rewrite negb_true_iff. unfold loses. apply not_true_iff_false. rewrite existsb_exists. intros (y & Hy & Q). apply R2 in Hy as (j & N & Hj). apply andb_prop in Q as [Q1 Q2]. rewrite (O j y N Hj) in Q2; [discriminate|lia].
Qed.
Lemma contents_moved {Ob} (prio : Ob -> Z) (atoms : Ob -> list vec) (species : Ob -> list Z) inside (t : vec -> vec) l l' p :
  Forall2 (fun o o' => prio o' = prio o /\ inside o' (t p) = inside o p /\ forall z, In (p, z) (combine (atoms o) (species o)) <-> In (t p, z) (combine (atoms o') (species o'))) l l' ->
  forall z, In (p, z) (contents prio atoms species inside l) <-> In (t p, z) (contents prio atoms species inside l').
Proof.
  intros F z. rewrite !in_contents. cbn [fst].
  assert (N1 : forall i o, nth_error l i = Some o -> exists o', nth_error l' i = Some o' /\ prio o' = prio o /\ inside o' (t p) = inside o p /\ forall z, In (p, z) (combine (atoms o) (species o)) <-> In (t p, z) (combine (atoms o') (species o'))).
  { clear z. induction F as [|a b la lb H _ IH]; intros [|i] o E; cbn in E; try discriminate; [injection E as <-; exists b; auto|apply IH; auto]. }
  assert (N2 : forall i o', nth_error l' i = Some o' -> exists o, nth_error l i = Some o /\ prio o' = prio o /\ inside o' (t p) = inside o p /\ forall z, In (p, z) (combine (atoms o) (species o)) <-> In (t p, z) (combine (atoms o') (species o'))).
  { clear z N1. induction F as [|a b la lb H _ IH]; intros [|i] o E; cbn in E; try discriminate; [injection E as <-; exists a; auto|apply IH; auto]. }
  split.
  - intros (i & o & Hi & H & O). destruct (N1 _ _ Hi) as (o' & Hi' & P & _ & Q). exists i, o'. split; [exact Hi'|]. split; [apply Q, H|].
    intros j y' N Hj L. destruct (N2 _ _ Hj) as (y & Hy & P' & I' & _). rewrite I'. apply (O j); auto. lia.
  - intros (i & o' & Hi & H & O). destruct (N2 _ _ Hi) as (o & Hi' & P & _ & Q). exists i, o. split; [exact Hi'|]. split; [apply Q, H|].
    intros j y N Hj L. destruct (N1 _ _ Hj) as (y' & Hy & P' & I' & _). rewrite <- I'. apply (O j); auto. lia.
Qed.

Lemma movable_bounded v : movable v -> alg_bounded v.
Proof.
  induction v as [l|pr vs ca IH] using volume_ind'; intros H; inversion H; subst; intros x Hx; cbn [leaves] in Hx.
  - destruct Hx as [<-|[]]. match goal with K : ball_bounded _ |- _ => destruct K as (A & B & _) end. auto.
  - apply in_flat_map in Hx as (v & Hv & Hx). match goal with K : Forall movable _ |- _ => rename K into FM end. rewrite Forall_forall in IH, FM. exact (IH v Hv (FM v Hv) x Hx).
Qed.
Lemma movable_rng_free v : movable v -> vol_rng_free v.
Proof.
  induction v as [l|pr vs ca IH] using volume_ind'; intros H; inversion H; subst; cbn [vol_rng_free].
  - match goal with K : l_gen _ = _ |- _ => rewrite K end. cbn. match goal with K : plain _ |- _ => destruct K as (_ & _ & -> & _) end. exact I.
  - apply fold_right_Forall. rewrite Forall_forall in *. auto.
Qed.
Lemma transform_cons w t v v' p vs vs' c : vol_transform w v t = (v', Ok tt) -> vol_transform w (VMulti p vs c) t = (VMulti p vs' c, Ok tt) ->
  vol_transform w (VMulti p (v :: vs) c) t = (VMulti p (v' :: vs') c, Ok tt).
Proof.
  intros TV TS. cbn [vol_transform] in *. rewrite TV. match type of TS with (let '(_, _) := ?G in _) = _ => destruct G as [q r] end. injection TS as -> ->. reflexivity.
Qed.
Lemma volume_moved w t : rigid t -> locked t = true -> basis_only t = false -> forall v, movable v ->
  exists v' v0 v1, vol_transform w v t = (v', Ok tt) /\ (forall c, vol_populate w c v = Ok (c, v0)) /\ (forall c, vol_populate w c v' = Ok (c, v1)) /\
    forall p z, off_margin w v p -> (In (p, z) (combine (vol_atoms v0) (vol_species v0)) <-> In (apply_pt t p, z) (combine (vol_atoms v1) (vol_species v1))).
Proof.
  intros HR LK BO. induction v as [l|pr vs ca IH] using volume_ind'; intros M; inversion M; subst.
  - match goal with K : plain _ |- _ => rename K into PL end. match goal with K : uniform_scale _ |- _ => rename K into US end.
    match goal with K : l_gen _ = _ |- _ => rename K into HG end. match goal with K : ball_bounded _ |- _ => rename K into BB end. match goal with K : l_tri _ = _ |- _ => rename K into HT end. destruct PL as (WF & HS & HP & HF). destruct BB as (NP & VA & SP).
    destruct (C100_atoms_move w 0%nat l g t HG WF US HS HP HF NP HT VA SP HR LK BO) as (l0 & a0 & s0 & lt & l1 & a1 & s1 & E0 & A0 & ET & E1 & A1 & MV).
    destruct (leaf_transform_rigid w l t NP HT VA HR) as (NP' & HT' & VA' & PR' & IN'). rewrite ET in *. cbn [fst] in *.
    assert (G' : exists g', l_gen lt = Some (GCrystal g') /\ g_post g' = None).
    { destruct (moved_leaf w l t g NP HT VA HR HG (sbases_det _ US (proj2 WF))) as (lt2 & g' & ET2 & HG' & CT & _). rewrite ET in ET2. injection ET2 as <-. rewrite LK in CT.
      exists g'. split; [exact HG'|]. destruct (C37_transform_moves_crystal_partial g t g' CT US) as (_ & _ & Q & _). congruence. }
    destruct G' as (g' & HG' & HP').
    assert (X0 : vol_populate w 0 (VLeaf l) = Ok (0%nat, VLeaf l0)) by (cbn [vol_populate]; rewrite E0; reflexivity).
    assert (X1 : vol_populate w 0 (VLeaf lt) = Ok (0%nat, VLeaf l1)) by (cbn [vol_populate]; rewrite E1; reflexivity).
    exists (VLeaf lt), (VLeaf l0), (VLeaf l1). split; [cbn [vol_transform]; rewrite ET; reflexivity|]. split; [|split].
    + intros c. apply (vol_populate_rng_free w (VLeaf l) 0 0 (VLeaf l0)); auto. apply movable_rng_free; auto.
    + intros c. apply (vol_populate_rng_free w (VLeaf lt) 0 0 (VLeaf l1)); auto. cbn [vol_rng_free]. rewrite HG'. cbn. rewrite HP'. exact I.
    + intros p z OM. unfold vol_atoms, vol_species. cbn [vol_result]. rewrite A0, A1. cbn [fst snd].
      destruct (leaf_inside w l p) eqn:EI; [apply MV; apply OM; cbn; auto|].
      pose proof (populate_settled _ _ _ _ _ X0) as S0. pose proof (populate_settled _ _ _ _ _ X1) as S1.
      destruct (vol_populate_static _ _ _ _ _ X0) as [_ I0]. destruct (vol_populate_static _ _ _ _ _ X1) as [_ I1].
      split; intros H; exfalso; apply in_combine_l in H.
      * assert (Q : vol_inside w (VLeaf l0) p = true) by (apply settled_inside; auto; unfold vol_atoms; cbn [vol_result]; rewrite A0; exact H). rewrite I0 in Q. cbn [vol_inside] in Q. congruence.
      * assert (Q : vol_inside w (VLeaf l1) (apply_pt t p) = true) by (apply settled_inside; auto; unfold vol_atoms; cbn [vol_result]; rewrite A1; exact H). rewrite I1 in Q. cbn [vol_inside] in Q. rewrite IN' in Q. congruence.
  - match goal with K : vs <> [] |- _ => rename K into NE end. match goal with K : Forall movable _ |- _ => rename K into FM end.
    assert (ALL : exists vs' vs0 vs1,
      (forall ca', vol_transform w (VMulti pr vs ca') t = (VMulti pr vs' ca', Ok tt)) /\ (forall c, mapMS (vol_populate w) c vs = Ok (c, vs0)) /\ (forall c, mapMS (vol_populate w) c vs' = Ok (c, vs1)) /\
      length vs' = length vs /\ length vs0 = length vs /\
      forall p, off_margin w (VMulti pr vs ca) p ->
        Forall2 (fun o o' => vol_prio o' = vol_prio o /\ vol_inside w o' (apply_pt t p) = vol_inside w o p /\ forall z, In (p, z) (combine (vol_atoms o) (vol_species o)) <-> In (apply_pt t p, z) (combine (vol_atoms o') (vol_species o'))) vs0 vs1).
    { clear NE M. induction FM as [|v vs MV FM' IHv].
      - exists [], [], []. repeat split; try reflexivity. intros; constructor.
      - inversion IH as [|? ? IH1 IH2]; subst. destruct (IH1 MV) as (v' & v0 & v1 & TV & P0 & P1 & EQ). destruct (IHv IH2) as (vs' & vs0 & vs1 & TS & PS0 & PS1 & LE & LE0 & EQS).
        exists (v' :: vs'), (v0 :: vs0), (v1 :: vs1). split; [|split; [|split; [|split; [|split]]]].
        + intros ca'. apply transform_cons; auto.
        + intros c. cbn [mapMS]. rewrite P0. cbn [bind fst snd]. rewrite PS0. reflexivity.
        + intros c. cbn [mapMS]. rewrite P1. cbn [bind fst snd]. rewrite PS1. reflexivity.
        + cbn. congruence.
        + cbn. congruence.
        + intros p OM. constructor.
          * destruct (vol_populate_static _ _ _ _ _ (P0 0%nat)) as [Q0 J0]. destruct (vol_populate_static _ _ _ _ _ (P1 0%nat)) as [Q1 J1].
            destruct (C18_rigid_motion_of_multivolume w v v' t (movable_bounded v MV) HR TV) as [Q2 J2].
            split; [congruence|]. split; [rewrite J1, J2, J0; reflexivity|]. intros z. apply EQ. intros l Hl. apply OM. cbn [leaves flat_map]. apply in_or_app. auto.
          * apply EQS. intros l Hl. apply OM. cbn [leaves flat_map] in *. apply in_or_app. auto. }
    destruct ALL as (vs' & vs0 & vs1 & TS & PS0 & PS1 & LE & LE0 & EQS).
    assert (PO : forall us us0 ca', us <> [] -> length us0 = length us -> (forall c, mapMS (vol_populate w) c us = Ok (c, us0)) ->
      exists u, (forall c, vol_populate w c (VMulti pr us ca') = Ok (c, u)) /\ Permutation (combine (vol_atoms u) (vol_species u)) (contents vol_prio vol_atoms vol_species (vol_inside w) us0)).
    { intros us us0 ca' NEu LEu PSu. pose proof (sort_perm vol_prio us0) as SP.
      pose proof (PSu 0%nat) as PS'. apply mapMS_Forall2 in PS'.
      destruct (resolve_correct vol_prio vol_atoms vol_species (vol_inside w) us0) as [RC _].
      { intros o Ho. clear - PS' Ho. induction PS' as [|a b la lb (c1 & c2 & Hab) _ IH]; [destruct Ho|]. destruct Ho as [<-|Ho]; auto. eapply settled_aligned, populate_settled; eauto. }
      destruct (sort_by vol_prio us0) as [|x xs] eqn:E; [apply Permutation_nil in SP; subst; destruct us; [congruence|discriminate]|].
      eexists. split; [intros c; cbn [vol_populate]; rewrite PSu; cbn [bind fst snd]; rewrite E; reflexivity|].
      unfold vol_atoms at 1. unfold vol_species at 1. cbn [vol_result fst snd]. exact RC. }
    assert (NE' : vs' <> []) by (intros ->; destruct vs; [congruence|discriminate]).
    assert (LE1 : length vs1 = length vs').
    { pose proof (PS1 0%nat) as Q. apply mapMS_Forall2 in Q. clear - Q. induction Q; cbn; congruence. }
    destruct (PO vs vs0 ca NE LE0 PS0) as (u0 & U0 & C0). destruct (PO vs' vs1 ca NE' LE1 PS1) as (u1 & U1 & C1).
    exists (VMulti pr vs' ca), u0, u1. split; [apply TS|]. split; [exact U0|]. split; [exact U1|].
    intros p z OM. pose proof (contents_moved vol_prio vol_atoms vol_species (vol_inside w) (apply_pt t) vs0 vs1 p (EQS p OM) z) as K.
    split; intros H.
    + apply (Permutation_in _ (Permutation_sym C1)). apply K. apply (Permutation_in _ C0). exact H.
    + apply (Permutation_in _ (Permutation_sym C0)). apply K. apply (Permutation_in _ C1). exact H.
Qed.

(** the same rigid motion done to a volume or a molecule *)
Definition moved (w : world) (t : transform) (o o' : sobj) : Prop :=
  match o, o' with
  | SVol v, SVol v' => vol_transform w v t = (v', Ok tt)
  | SMol m, SMol m' => exists b, mol_transform m t b = Ok m'
  | _, _ => False
  end.
Definition movable_obj (o : sobj) : Prop := match o with SVol v => movable v | SMol _ => obj_aligned o end.
Definition off_margins (w : world) (objs : list sobj) (p : vec) : Prop := forall v, In (SVol v) objs -> off_margin w v p.

(** Populating the moved objects gives the moved atoms, whoever supplies them and whatever
    the priorities. *)
Theorem C121_scene_moves : forall w c t s s' objs objs',
  rigid t -> locked t = true -> basis_only t = false ->
  sc_objects s = Some objs -> sc_objects s' = Some objs' -> objs <> [] -> Forall movable_obj objs -> Forall2 (moved w t) objs objs' ->
  exists s1 s1' a1 z1 a2 z2,
    populate w c s = Ok (c, s1) /\ populate w c s' = Ok (c, s1') /\
    all_atoms s1 = Ok a1 /\ all_species s1 = Ok z1 /\ all_atoms s1' = Ok a2 /\ all_species s1' = Ok z2 /\
    forall p z, off_margins w objs p -> (In (p, z) (combine a1 z1) <-> In (apply_pt t p, z) (combine a2 z2)).
Proof.
  intros w c t s s' objs objs' HR LK BO ES ES' NE FM F2.
  assert (ALL : exists po po', (mapMS (ob_populate w) c objs = Ok (c, po)) /\ (mapMS (ob_populate w) c objs' = Ok (c, po')) /\ Forall obj_aligned objs /\ Forall obj_aligned objs' /\ length objs' = length objs /\
    forall p, off_margins w objs p ->
        Forall2 (fun o o' => ob_prio o' = ob_prio o /\ ob_inside w o' (apply_pt t p) = ob_inside w o p /\ forall z, In (p, z) (combine (ob_atoms o) (ob_species o)) <-> In (apply_pt t p, z) (combine (ob_atoms o') (ob_species o'))) po po').
  { clear NE ES ES'. induction F2 as [|o o' os os' MO F2 IH]; [exists [], []; repeat split; try constructor|].
    inversion FM as [|? ? M1 M2]; subst. destruct (IH M2) as (po & po' & E & E' & A & A' & LE & EQ).
    assert (ONE : exists q q', ob_populate w c o = Ok (c, q) /\ ob_populate w c o' = Ok (c, q') /\ obj_aligned o /\ obj_aligned o' /\
      forall p, (forall v, o = SVol v -> off_margin w v p) -> ob_prio q' = ob_prio q /\ ob_inside w q' (apply_pt t p) = ob_inside w q p /\ forall z, In (p, z) (combine (ob_atoms q) (ob_species q)) <-> In (apply_pt t p, z) (combine (ob_atoms q') (ob_species q'))).
    { destruct o as [v|m], o' as [v'|m']; cbn [moved] in MO; try contradiction.
      - destruct (volume_moved w t HR LK BO v M1) as (v2 & v0 & v1 & TV & P0 & P1 & EQV). rewrite MO in TV. injection TV as <-.
        exists (SVol v0), (SVol v1). cbn [ob_populate]. rewrite P0, P1. cbn [bind fst snd]. split; [reflexivity|]. split; [reflexivity|]. split; [exact I|]. split; [exact I|].
        intros p OM. destruct (vol_populate_static _ _ _ _ _ (P0 0%nat)) as [Q0 J0]. destruct (vol_populate_static _ _ _ _ _ (P1 0%nat)) as [Q1 J1].
        destruct (C18_rigid_motion_of_multivolume w v v' t (movable_bounded v M1) HR MO) as [Q2 J2]. cbn [ob_prio ob_inside].
        split; [congruence|]. split; [rewrite J1, J2, J0; reflexivity|]. intros z. exact (EQV p z (OM v eq_refl)).
      - destruct MO as [b MO]. cbn [movable_obj obj_aligned] in M1.
        assert (K : m_atoms m' = map (apply_pt t) (m_atoms m) /\ m_species m' = m_species m /\ m_prio m' = m_prio m).
        { unfold mol_transform, set_atoms in MO. destruct (_ =? _)%nat; [|discriminate]. cbn [bind] in MO.
          destruct b; [|injection MO as <-; auto]. cbn [m_tracking] in MO. destruct (m_tracking m); [cbn [m_oidx] in MO; destruct (m_oidx m); [|discriminate]; injection MO as <-; auto|]. inv_bind MO. injection MO as <-. auto. }
        destruct K as (K1 & K2 & K3). exists (SMol m), (SMol m'). cbn [ob_populate]. split; [reflexivity|]. split; [reflexivity|]. split; [exact M1|]. split; [cbn; rewrite K1, K2, map_length; exact M1|].
        intros p _. cbn [ob_prio ob_inside]. split; [exact K3|]. split; [reflexivity|]. intros z. unfold ob_atoms, ob_species. cbn [ob_result fst snd]. rewrite K1, K2. clear - HR.
        generalize (m_species m). induction (m_atoms m) as [|x l IH]; intros [|y k]; cbn [map combine In]; try reflexivity. rewrite IH.
        split; intros [E|E]; auto; left; injection E as E1 E2; [congruence|]. apply (rigid_injective t) in E1; auto. congruence. }
    destruct ONE as (q & q' & Q1 & Q2 & Q3 & Q4 & Q5). exists (q :: po), (q' :: po').
    split; [cbn [mapMS]; rewrite Q1; cbn [bind fst snd]; rewrite E; reflexivity|]. split; [cbn [mapMS]; rewrite Q2; cbn [bind fst snd]; rewrite E'; reflexivity|].
    split; [constructor; auto|]. split; [constructor; auto|]. split; [cbn; congruence|]. intros p OM. constructor; [apply Q5; intros v ->; apply OM; left; auto|apply EQ; intros v Hv; apply OM; right; auto]. }
  destruct ALL as (po & po' & E & E' & A & A' & LE & EQ).
  assert (P1 : exists s1, populate w c s = Ok (c, s1)) by (unfold populate; rewrite ES, E; cbn [bind fst snd]; eexists; reflexivity).
  assert (P2 : exists s1', populate w c s' = Ok (c, s1')) by (unfold populate; rewrite ES', E'; cbn [bind fst snd]; eexists; reflexivity).
  destruct P1 as [s1 P1], P2 as [s1' P2].
  destruct (read_populated _ _ _ _ _ P1) as (x & y & X1 & X2 & _ & _ & HL & RA & RS). { intros x Hx. rewrite ES in Hx. injection Hx as <-. auto. }
  rewrite ES in X1. injection X1 as <-. rewrite E in X2. injection X2 as <-.
  destruct (read_populated _ _ _ _ _ P2) as (x & y & X1 & X2 & _ & _ & HL' & RA' & RS'). { intros x Hx. rewrite ES' in Hx. injection Hx as <-. split; [auto|]. intros ->. destruct objs; [congruence|discriminate]. }
  rewrite ES' in X1. injection X1 as <-. rewrite E' in X2. injection X2 as <-.
  destruct (resolve_correct ob_prio ob_atoms ob_species (ob_inside w) po) as [R1 _]; [intros x Hx; apply HL; auto|].
  destruct (resolve_correct ob_prio ob_atoms ob_species (ob_inside w) po') as [R2 _]; [intros x Hx; apply HL'; auto|].
  do 6 eexists. split; [exact P1|]. split; [exact P2|]. split; [exact RA|]. split; [exact RS|]. split; [exact RA'|]. split; [exact RS'|].
  intros p z OM. pose proof (contents_moved ob_prio ob_atoms ob_species (ob_inside w) (apply_pt t) po po' p (EQ p OM) z) as K. split; intros H.
  - apply (Permutation_in _ (Permutation_sym R2)). apply K. apply (Permutation_in _ R1). exact H.
  - apply (Permutation_in _ (Permutation_sym R1)). apply K. apply (Permutation_in _ R2). exact H.
Qed.
(** A scene with a nest of two balls and a molecule, turned and shifted; the ball's atom at
    (1, 1, -1) is at no sphere's margin. *)
Definition quarter_turn : transform := TMulti [TTranslation (mkV 1 2 3) true false; TMatrix (mkM (mkV 0 (-1) 0) (mkV 1 0 0) (mkV 0 0 1)) (Some (mkV 5 0 0)) true false].
Example C121_nonvacuous : exists w m objs',
  let objs := [SVol (VMulti 1 [VLeaf ex_ball; VLeaf (with_prio ex_ball 2)] None); SMol m] in
  rigid quarter_turn /\ locked quarter_turn = true /\ basis_only quarter_turn = false /\ Forall movable_obj objs /\ Forall2 (moved w quarter_turn) objs objs' /\
  off_margins w objs (mkV 1 1 (-1)) /\ leaf_inside w ex_ball (mkV 1 1 (-1)) = true /\ apply_pt quarter_turn (mkV 1 1 (-1)) = mkV 2 (-3) 2.
Proof.
  destruct C100_nonvacuous as (w & A & B & C & _ & _ & _ & _ & IN & DI). destruct (C119_nonvacuous w) as (PL & HG & BB & _).
  fold quarter_turn in A, B, C.
  set (v := VMulti 1 [VLeaf ex_ball; VLeaf (with_prio ex_ball 2)] None).
  assert (MV : movable v).
  { constructor; [discriminate|]. apply Forall_cons; [|apply Forall_cons; [|apply Forall_nil]]; econstructor; try exact PL; try exact HG; try exact BB; try reflexivity; exact I. }
  destruct (volume_moved w quarter_turn A B C v MV) as (v' & _ & _ & TV & _).
  exists w, (mkMol [1; 8]%Z [mkV 0 0 9; mkV 0 1 9] true None (Some 0%Z) mI 0), [SVol v'; SMol (mkMol [1; 8]%Z (map (apply_pt quarter_turn) [mkV 0 0 9; mkV 0 1 9]) true None (Some 0%Z) mI 0)].
  cbv zeta. split; [exact A|]. split; [exact B|]. split; [exact C|]. split; [|split; [|split; [|split]]].
  - apply Forall_cons; [exact MV|]. apply Forall_cons; [reflexivity|apply Forall_nil].
  - apply Forall2_cons; [exact TV|]. apply Forall2_cons; [exists false; reflexivity|apply Forall2_nil].
  - intros u [E|[E|[]]]; [injection E as <-|discriminate]. intros l Hl _. cbn [leaves flat_map app v] in Hl.
    assert (Q : in_balls ex_ball (mkV 1 1 (-1))) by (intros s [E|[]]; injection E as <-; exact DI).
    destruct Hl as [<-|[<-|[]]]; exact Q.
  - exact IN.
  - apply vec_eq; cbn; unfold dot; cbn; lra.
Qed.
