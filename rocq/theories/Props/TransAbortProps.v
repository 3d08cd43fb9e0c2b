(** C144: transformations that raise. *)
From Coq Require Import Reals List ZArith Bool Lra Lia.
From Verif.Model Require Import Base Vec Algebraic Transform Generator Volume Heap.
From Verif.Spec Require Import Geometry AlgSpec AbortSpec.
From Verif.Proofs Require Import VecFacts VolumeFacts AlgFacts VolTransFacts HeapRun.
From Verif.Props Require Import VolumeProps.
Import ListNotations.
Open Scope R_scope.

(** The n-th state of a volume whose owner calls transform(t) again and again. *)
Definition tried (w : world) (t : transform) (n : nat) (v : volume) : volume :=
  Nat.iter n (fun x => fst (vol_transform w x t)) v.

(** A Volume without crystalline generator, and any rigid locked transformation: every call
    raises, and every call moves the Volume once more, though its generator never moves. *)
Theorem C144_retry_refuted : forall w l t g,
  l_points l = PNone -> l_tri l = None -> Forall valid_alg (l_alg l) -> rigid t -> locked t = true ->
  l_gen l = Some g -> (forall c, g <> GCrystal c) ->
  forall n, snd (vol_transform w (tried w t n (VLeaf l)) t) = Err AttributeError /\
    (exists l', tried w t n (VLeaf l) = VLeaf l' /\ l_gen l' = Some g) /\
    forall p, vol_inside w (tried w t n (VLeaf l)) (Nat.iter n (apply_pt t) p) = vol_inside w (VLeaf l) p.
Proof.
  intros w l t g HP HT HV HR HL HG HC n.
  assert (K : exists l', tried w t n (VLeaf l) = VLeaf l' /\ l_points l' = PNone /\ l_tri l' = None /\ Forall valid_alg (l_alg l') /\ l_gen l' = Some g /\
    forall p, leaf_inside w l' (Nat.iter n (apply_pt t) p) = leaf_inside w l p).
  { induction n as [|n (l1 & E1 & P1 & T1 & V1 & G1 & I1)]; [exists l; cbn; auto 7|].
    destruct (leaf_transform_rigid w l1 t P1 T1 V1 HR) as (Q1 & Q2 & Q3 & _ & Q4).
    destruct (C75_locked_transform_refuted w l1 t g P1 T1 V1 HR HL G1 HC) as (_ & R2 & _).
    exists (fst (leaf_transform w l1 t)). split.
    { change (tried w t (S n) (VLeaf l)) with (fst (vol_transform w (tried w t n (VLeaf l)) t)).
      rewrite E1. cbn [vol_transform]. destruct (leaf_transform w l1 t); reflexivity. }
    repeat split; auto. intros p. cbn [Nat.iter nat_rect]. etransitivity; [apply Q4|]. apply I1. }
  destruct K as (l' & E & P & T & V & G & I). rewrite E. split; [|split; [eauto|exact I]].
  cbn [vol_transform]. destruct (C75_locked_transform_refuted w l' t g P T V HR HL G HC) as (R1 & _).
  destruct (leaf_transform w l' t); exact R1.
Qed.

(** A MultiVolume with such a Volume among its members: the members up to it have moved, those
    after it have not, so the parts no longer stand as they stood. *)
Theorem C144_parts_drift_refuted : forall w t prio pre pre' l g post cache,
  Forall alg_bounded pre -> Forall2 (fun v v' => vol_transform w v t = (v', Ok tt)) pre pre' ->
  l_points l = PNone -> l_tri l = None -> Forall valid_alg (l_alg l) -> rigid t -> locked t = true ->
  l_gen l = Some g -> (forall c, g <> GCrystal c) ->
  exists v', vol_transform w (VMulti prio (pre ++ VLeaf l :: post) cache) t = (v', Err AttributeError) /\
    forall p, vol_inside w v' (apply_pt t p) =
      (existsb (fun m => vol_inside w m p) (pre ++ [VLeaf l]) || existsb (fun m => vol_inside w m (apply_pt t p)) post)%bool.
Proof.
  intros w t prio pre pre' l g post cache AB F HP HT HV HR HL HG HC.
  destruct (C75_locked_transform_refuted w l t g HP HT HV HR HL HG HC) as (R1 & R2 & R3).
  exists (VMulti prio (pre' ++ VLeaf (fst (leaf_transform w l t)) :: post) cache). split.
  - cbn [vol_transform].
    match goal with |- (let '(_, _) := ?go (pre ++ _) in _) = _ => assert (X : go (pre ++ VLeaf l :: post) = (pre' ++ VLeaf (fst (leaf_transform w l t)) :: post, Err AttributeError)) end.
    { clear AB. induction F as [|x x' pre pre' E F IH]; cbn [app vol_transform].
      - destruct (leaf_transform w l t) as [l' r]. cbn [fst snd] in *. subst r. reflexivity.
      - rewrite E, IH. reflexivity. }
    rewrite X. reflexivity.
  - intros p. cbn [vol_inside]. rewrite !existsb_app. cbn [existsb vol_inside]. rewrite R3, orb_false_r, <- orb_assoc. f_equal.
    clear -AB F HR. revert AB. induction F as [|x x' pre pre' E F IH]; intros AB; [reflexivity|]. inversion AB as [|? ? A1 A2]; subst.
    cbn [existsb]. rewrite IH by auto. f_equal. apply (C18_rigid_motion_of_multivolume w x x' t A1 HR E).
Qed.

(* ---------------- what is left, exactly ---------------- *)
Lemma at_point_matrix m q a e : matrix_alg m q a = Err e ->
  snd (matrix_alg_st m q a) = Err e /\ fst (matrix_alg_st m q a) = at_point a (matrix_pt m q (point_of a)).
Proof.
  destruct a as [s|p|c]; cbn [matrix_alg matrix_alg_st]; intros H; [discriminate| |].
  - destruct (plane_set_normal (plane_set_point p (matrix_pt m q (p_point p))) (mv m (p_normal p))); cbn in *; [discriminate|]. injection H as ->. split; [reflexivity|]. destruct p; reflexivity.
  - destruct (cyl_set_axis (cyl_set_point c (matrix_pt m q (c_point c))) (mv m (c_axis c))); cbn in *; [discriminate|]. injection H as ->. split; [reflexivity|]. destruct c; reflexivity.
Qed.
Fixpoint tsize (t : transform) : nat := match t with TMulti ts => S (fold_right (fun x n => (tsize x + n)%nat) O ts) | _ => 1%nat end.
Lemma multi_st ts a : apply_alg_st (TMulti ts) a =
  (fix go (l : list transform) (a : alg) : alg * res unit :=
        match l with
        | [] => (a, Ok tt)
        | t' :: rest => let '(a', r) := apply_alg_st t' a in
                        match r with Ok _ => go rest a' | Err e => (a', Err e) end
        end) ts a.
Proof. reflexivity. Qed.
Lemma abandoned_eq t : forall a a' e, apply_alg_st t a = (a', Err e) -> abandoned t a a' e.
Proof.
  remember (tsize t) as n eqn:En. revert t En. induction n as [n IH] using (well_founded_induction lt_wf). intros t -> a a' e H.
  pose proof (apply_alg_st_spec t a) as [S1 _]. rewrite H in S1. cbn [snd] in S1. 
  assert (AE : apply_alg t a = Err e). { destruct (apply_alg t a); cbn in S1; [discriminate|]. congruence. }
  destruct t as [s l o|m q l o|q l o|p l o|ts].
  - discriminate AE.
  - destruct (at_point_matrix _ _ _ _ AE) as [_ Q]. cbn [apply_alg_st] in H. rewrite H in Q. cbn [fst] in Q. subst a'. constructor. exact AE.
  - destruct (at_point_matrix _ _ _ _ AE) as [_ Q]. cbn [apply_alg_st] in H. rewrite H in Q. cbn [fst] in Q. subst a'. constructor. exact AE.
  - cbn in H. injection H as <- <-. constructor.
  - clear S1 AE. rewrite multi_st in H. cbn [tsize] in IH.
    assert (K : exists pre t' post b, ts = pre ++ t' :: post /\ foldM (fun x t'' => apply_alg t'' x) pre a = Ok b /\ abandoned t' b a' e).
    { revert a H. induction ts as [|t' ts IHt]; intros a H; [discriminate|].
      destruct (apply_alg_st t' a) as [b r] eqn:E. destruct r as [[]|e'].
      - destruct IHt with (a := b) as (pre & t2 & post & b2 & -> & F & Q); [|exact H|].
        + intros y Hy. apply IH. cbn [fold_right]. lia.
        + exists (t' :: pre), t2, post, b2. split; [reflexivity|]. split; [|exact Q]. cbn [foldM].
          pose proof (apply_alg_st_spec t' a) as [S1 S2]. rewrite E in S1, S2. cbn [fst snd] in *. destruct (apply_alg t' a) as [x|]; [|discriminate]. cbn [bind]. rewrite <- (S2 x eq_refl). exact F.
      - injection H as -> ->. exists [], t', ts, a. split; [reflexivity|]. split; [reflexivity|]. eapply IH; [|reflexivity|exact E]. cbn [fold_right]. lia. }
    destruct K as (pre & t' & post & b & -> & F & Q). econstructor; eauto.
Qed.

(** A Volume bounded by surfaces: the surfaces before the one that cannot be transformed are
    moved, that one is abandoned, the others and the generator are untouched; or every surface
    is moved and the generator could not follow.  Nothing else changes; in particular atoms
    already generated stay where they are. *)
Theorem C144_left_behind_partial : forall w l t l' e, l_points l = PNone ->
  leaf_transform w l t = (l', Err e) ->
  l' = with_alg l (l_alg l') /\
  ((exists pre a post pre' a', l_alg l = pre ++ a :: post /\ l_alg l' = pre' ++ a' :: post /\
     Forall2 (fun x y => apply_alg t x = Ok y) pre pre' /\ abandoned t a a' e) \/
   (Forall2 (fun x y => apply_alg t x = Ok y) (l_alg l) (l_alg l') /\ locked t = true /\
     exists g, l_gen l = Some g /\ generator_transform g t = Err e)).
Proof.
  intros w l t l' e HP H. rewrite leaf_transform_eq in H. unfold points_transform in H. rewrite HP in H.
  assert (K : forall al, match snd (algs_st t al) with
    | Ok _ => Forall2 (fun x y => apply_alg t x = Ok y) al (fst (algs_st t al))
    | Err e => exists pre a post pre' a', al = pre ++ a :: post /\ fst (algs_st t al) = pre' ++ a' :: post /\
     Forall2 (fun x y => apply_alg t x = Ok y) pre pre' /\ abandoned t a a' e end).
  { induction al as [|a al IH]; [constructor|]. cbn [algs_st]. pose proof (apply_alg_st_spec t a) as [S1 S2].
    destruct (apply_alg_st t a) as [b [[]|e1]] eqn:E; cbn [fst snd] in *.
    - destruct (apply_alg t a) as [x|] eqn:Ex; [|discriminate]. pose proof (S2 x eq_refl). subst x.
      destruct (algs_st t al) as [o [[]|e2]]; cbn [fst snd] in *; [constructor; auto|].
      destruct IH as (pre & a1 & post & pre' & a' & -> & -> & F & Q). exists (a :: pre), a1, post, (b :: pre'), a'. repeat split; auto.
    - exists [], a, al, [], b. repeat split; auto. apply abandoned_eq, E. }
  specialize (K (l_alg l)). destruct (algs_st t (l_alg l)) as [o [[]|e2]] eqn:E; cbn [fst snd] in K.
  - unfold gen_step in H. cbn [with_alg l_gen] in H. destruct (locked t) eqn:L; [|discriminate]. destruct (l_gen l) as [g|] eqn:G; [|discriminate].
    destruct (generator_transform g t) as [g'|e1] eqn:GT; [discriminate|]. injection H as <- <-. split; [destruct l; cbn in *; subst; reflexivity|].
    right. split; [exact K|]. eauto.
  - injection H as <- <-. split; [destruct l; reflexivity|]. left. exact K.
Qed.

(** A MultiVolume: the members before the failing one are transformed, those after it untouched. *)
Theorem C144_multivolume_partial : forall w prio vs cache t v' e,
  vol_transform w (VMulti prio vs cache) t = (v', Err e) ->
  exists pre x post pre' x', vs = pre ++ x :: post /\ v' = VMulti prio (pre' ++ x' :: post) cache /\
    Forall2 (fun a b => vol_transform w a t = (b, Ok tt)) pre pre' /\ vol_transform w x t = (x', Err e).
Proof.
  intros w prio vs cache t v' e H. cbn [vol_transform] in H.
  match type of H with (let '(_, _) := ?go vs in _) = _ => set (f := go) in H end.
  destruct (f vs) as [o r] eqn:E. injection H as <- ->.
  assert (K : exists pre x post pre' x', vs = pre ++ x :: post /\ o = pre' ++ x' :: post /\
    Forall2 (fun a b => vol_transform w a t = (b, Ok tt)) pre pre' /\ vol_transform w x t = (x', Err e)).
  { revert o E. induction vs as [|x vs IH]; intros o E; [discriminate|]. cbn in E. destruct (vol_transform w x t) as [x' [[]|e1]] eqn:Ex.
    - fold f in E. destruct (f vs) as [o1 r1] eqn:E1. injection E as <- ->. destruct (IH o1 eq_refl) as (pre & y & post & pre' & y' & -> & -> & F & Q).
      exists (x :: pre), y, post, (x' :: pre'), y'. repeat split; auto.
    - injection E as <- ->. exists [], x, vs, [], x'. repeat split; auto. }
  destruct K as (pre & x & post & pre' & x' & -> & -> & F & Q). exists pre, x, post, pre', x'. auto.
Qed.

(** One case where the Volume is left intact: a reflection, which raises at the first surface. *)
Theorem C144_reflection_partial : forall w l p lk o a rest, l_points l = PNone -> l_alg l = a :: rest ->
  leaf_transform w l (TReflection p lk o) = (l, Err TypeError).
Proof.
  intros w l p lk o a rest HP HA. rewrite leaf_transform_nopoints by auto. rewrite HA. cbn. f_equal. destruct l; cbn in *; subst; reflexivity.
Qed.

Example C144_nonvacuous : let t := TTranslation (mkV 1 0 0) true false in
  rigid t /\ locked t = true /\ Forall alg_bounded [VLeaf (mkLeaf PNone None None [ASphere (mkSphere 1 v0 1)] None 0 1 None)] /\
  (forall c, GNull <> GCrystal c) /\
  (exists v', vol_transform any_world (VLeaf (mkLeaf PNone None None [ASphere (mkSphere 1 v0 1)] None 0 1 None)) t = (v', Ok tt)) /\
  (exists l', leaf_transform any_world small_void t = (l', Err AttributeError)) /\
  l_points small_void = PNone /\ l_tri small_void = None /\ Forall valid_alg (l_alg small_void).
Proof.
  cbv zeta. split; [constructor|]. split; [reflexivity|]. split.
  { repeat constructor; cbn in H; destruct H as [<-|[]]; cbn; repeat constructor; cbn; lra. }
  split; [discriminate|]. split; [eexists; reflexivity|]. split; [eexists; reflexivity|]. repeat constructor; cbn; lra.
Qed.
