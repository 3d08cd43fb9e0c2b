(** Determinism, idempotence and precedence facts for scenes. *)
From Coq Require Import Reals List ZArith Bool Permutation Lia Sorting.Sorted.
From Verif.Model Require Import Base Vec Algebraic Transform Voxel Strain Post Amorphous Generator Volume Molecule Scene Priority.
From Verif.Spec Require Import PrioritySpec SceneSpec.
From Verif.Proofs Require Import PriorityFacts VolumeFacts.
Import ListNotations.

Section PostInd.
Variable P : post -> Prop.
Hypothesis HC : forall a b c, P (PChem a b c).
Hypothesis HA : forall f, P (PArb f).
Hypothesis HS : forall ts, Forall P ts -> P (PSeq ts).
Fixpoint post_ind' (p : post) : P p :=
  match p with
  | PChem a b c => HC a b c
  | PArb f => HA f
  | PSeq ts => HS ts ((fix go l := match l return Forall P l with
                              | [] => Forall_nil _
                              | x :: t => Forall_cons _ (post_ind' x) (go t)
                              end) ts)
  end.
End PostInd.

Lemma apply_post_rng_free mk mk' : forall p, post_rng_free p -> forall c c2 ps ss,
  fst (apply_post mk p c ps ss) = c /\
  apply_post mk' p c2 ps ss = (c2, snd (apply_post mk p c ps ss)).
Proof.
  induction p as [t0 s0 f0|f0|ts IH] using post_ind'; intros HF c c2 ps ss; [easy|split; reflexivity|].
  cbn [apply_post post_rng_free] in *.
  revert c c2 ps ss. induction IH as [|t ts Ht _ IHts]; intros c c2 ps ss; [split; reflexivity|].
  destruct HF as [HF1 HF2]. cbn [fold_left fst snd].
  destruct (Ht HF1 c c2 ps ss) as [E1 E2]. rewrite E2.
  destruct (apply_post mk t c ps ss) as [c1 [ps1 ss1]]. cbn [fst snd] in *. subst c1.
  apply IHts; auto.
Qed.

Lemma crystal_supply_rng_free mk c g b c' g' r :
  gen_rng_free (GCrystal g) -> crystal_supply mk c g b = Ok (c', g', r) ->
  c' = c /\ forall c2, crystal_supply mk c2 g b = Ok (c2, g', r) /\ crystal_supply mk c2 g' b = Ok (c2, g', r).
Proof.
  unfold crystal_supply. intros HF H. inv_bind H.
  destruct (block_atoms g a) as [out sp] eqn:EB.
  set (X := fun c => match g_post g with Some p => apply_post mk p c out sp | None => (c, (out, sp)) end).
  assert (HX : forall c c2, fst (X c) = c /\ X c2 = (c2, snd (X c))).
  { intros. unfold X. cbn in HF. destruct (g_post g); [apply apply_post_rng_free; auto|split; reflexivity]. }
  change (match g_post g with Some p => apply_post mk p c out sp | None => (c, (out, sp)) end) with (X c) in H.
  destruct (HX c c) as [E0 _]. destruct (X c) as [c1 [o1 s1]] eqn:EX. cbn [fst] in E0. subst c1.
  assert (HX' : forall c2, X c2 = (c2, (o1, s1))).
  { intros c2. destruct (HX c c2) as [_ E]. rewrite E, EX. reflexivity. }
  destruct (g_strain g) as [h|] eqn:ES.
  - inv_bind H. inversion H; subst. split; [reflexivity|]. intros c2. cbn [g_voxel g_post g_strain g_structure].
    rewrite Ha. cbn [bind].
    change (block_atoms (mkCrystal (g_structure g) (g_voxel g) (Some (scrape_params h (g_voxel g))) (g_post g)) a)
      with (block_atoms g a). rewrite EB.
    change (match g_post g with Some p => apply_post mk p c2 out sp | None => (c2, (out, sp)) end) with (X c2).
    rewrite HX'.
    assert (SI : scrape_params (scrape_params h (g_voxel g)) (g_voxel g) = scrape_params h (g_voxel g)).
    { unfold scrape_params. cbn. destruct h as [m o [] md b0]; cbn; destruct (String.eqb md _); reflexivity. }
    rewrite SI, Ha0. cbn [bind]. split; reflexivity.
  - inversion H; subst. split; [reflexivity|]. intros c2. rewrite Ha. cbn [bind]. rewrite EB.
    change (match g_post g' with Some p => apply_post mk p c2 out sp | None => (c2, (out, sp)) end) with (X c2).
    rewrite HX', ES. split; reflexivity.
Qed.

Lemma supply_rng_free mk dr c g b c' g' r :
  gen_rng_free g -> supply_atoms mk dr c g b = Ok (c', g', r) ->
  c' = c /\ gen_rng_free g' /\ forall c2, supply_atoms mk dr c2 g b = Ok (c2, g', r) /\ supply_atoms mk dr c2 g' b = Ok (c2, g', r).
Proof.
  intros HF H. destruct g as [k|a|].
  - destruct b as [l| | |]; cbn [supply_atoms] in H; try discriminate.
    + inv_bind H. destruct a as [[c1 k1] r1]. cbn [fst snd] in H. inversion H; subst.
      pose proof Ha as Ha'. apply crystal_supply_rng_free in Ha as [-> HH]; auto. split; [reflexivity|]. split.
      { cbn in *. unfold crystal_supply in Ha'. inv_bind Ha'. destruct (block_atoms k a).
        destruct (match g_post k with Some p => _ | None => _ end) as [? [? ?]].
        destruct (g_strain k); [inv_bind Ha'|]; inversion Ha'; subst; auto. }
      intros c2. destruct (HH c2) as [E1 E2]. cbn [supply_atoms]. rewrite E1, E2. split; reflexivity.
    + destruct (Reqb _ 0) eqn:ED; [discriminate|]. inversion H; subst. split; [reflexivity|].
      split; [auto|]. intros c2. cbn [supply_atoms]. rewrite ED. split; reflexivity.
  - cbn [gen_rng_free] in *. destruct b as [l| | |]; cbn [supply_atoms] in H.
    + inv_bind H. destruct a0 as [a1 r1]. cbn [fst snd] in H. inversion H; subst.
      split; [reflexivity|]. split; [exact I|]. intros c2. cbn [supply_atoms]. rewrite Ha. cbn [bind fst snd].
      split; [reflexivity|]. unfold amorphous_supply in *.
      destruct (if am_use_old a then am_old a else None) eqn:EO.
      * inversion Ha; subst. rewrite EO. reflexivity.
      * destruct l as [|p ps]; [discriminate|]. inv_bind Ha. inversion Ha; subst. cbn [am_use_old am_old am_min_dist].
        destruct (am_use_old a); [reflexivity|]. rewrite Ha0. reflexivity.
    + destruct (if am_use_old a then am_old a else None) eqn:EO; [|discriminate]. inversion H; subst.
      split; [reflexivity|]. split; [exact I|]. intros c2. cbn [supply_atoms]. rewrite EO. split; reflexivity.
    + destruct (if am_use_old a then am_old a else None) eqn:EO; [|discriminate]. inversion H; subst.
      split; [reflexivity|]. split; [exact I|]. intros c2. cbn [supply_atoms]. rewrite EO. split; reflexivity.
    + destruct (if am_use_old a then am_old a else None) eqn:EO; [|discriminate]. inversion H; subst.
      split; [reflexivity|]. split; [exact I|]. intros c2. cbn [supply_atoms]. rewrite EO. split; reflexivity.
  - cbn in H. inversion H; subst. split; [reflexivity|]. split; [exact I|]. intros; split; reflexivity.
Qed.

Lemma mapMS_det {A B St} (f : St -> A -> res (St * B)) : forall l s s' bs,
  mapMS f s l = Ok (s', bs) ->
  Forall (fun a => forall s s1 b, f s a = Ok (s1, b) -> s1 = s /\ forall s2, f s2 a = Ok (s2, b)) l ->
  s' = s /\ forall s2, mapMS f s2 l = Ok (s2, bs).
Proof.
  induction l as [|x t IH]; intros s s' bs H HF; simpl in H.
  - inversion H; subst. split; auto.
  - inv_bind H. destruct a as [s1 b]. cbn [fst snd] in H. inv_bind H. destruct a as [s3 bs']. cbn [fst snd] in H.
    inversion H; subst. inversion HF; subst. destruct (H2 _ _ _ Ha) as [-> Hx]. destruct (IH _ _ _ Ha0 H3) as [-> Ht].
    split; [reflexivity|]. intros s2. simpl. rewrite Hx. cbn [bind fst snd]. rewrite Ht. reflexivity.
Qed.
Lemma mapMS_fix {B St} (f : St -> B -> res (St * B)) : forall l,
  Forall (fun b => forall s, f s b = Ok (s, b)) l -> forall s, mapMS f s l = Ok (s, l).
Proof.
  induction 1; intros s; simpl; [reflexivity|]. rewrite H. cbn [bind fst snd]. rewrite IHForall. reflexivity.
Qed.

Lemma fold_right_Forall {A} (P : A -> Prop) l : fold_right (fun x Q => P x /\ Q) True l <-> Forall P l.
Proof. induction l; simpl; split; intros H; auto. constructor; tauto. inversion H; subst; tauto. Qed.

Lemma vol_populate_rng_free w : forall v c c' v',
  vol_rng_free v -> vol_populate w c v = Ok (c', v') ->
  c' = c /\ vol_rng_free v' /\
  forall c2, vol_populate w c2 v = Ok (c2, v') /\ vol_populate w c2 v' = Ok (c2, v').
Proof.
  induction v as [l|pr vs ca IH] using volume_ind'; intros c c' v' HF H; cbn [vol_populate vol_rng_free] in *.
  - inv_bind H. destruct a as [c1 l1]. cbn [fst snd] in H. inversion H; subst c1 v'. clear H.
    pose proof Ha as Hc. unfold leaf_populate in Ha.
    destruct (l_gen l) as [g|] eqn:EG; [|discriminate]. inv_bind Ha. destruct a as [[c1 g'] [co sp]].
    apply supply_rng_free in Ha0 as (-> & HF' & HH); auto.
    inv_bind Ha. inv_bind Ha. inversion Ha; subst c' l1. split; [reflexivity|]. split; [exact HF'|].
    intros c2. destruct (HH c2) as [E1 E2]. unfold leaf_populate at 1. rewrite EG, E1. cbn [bind].
    rewrite Ha0, Ha1. cbn [bind fst snd]. split; [reflexivity|].
    cbn [vol_populate]. unfold leaf_populate. cbn [l_gen with_atoms with_gen].
    change (get_bounding_box w (with_atoms (with_gen l (Some g')) (a, a0))) with (get_bounding_box w l).
    rewrite E2. cbn [bind].
    change (leaf_check w (with_atoms (with_gen l (Some g')) (a, a0)) co) with (leaf_check w l co).
    rewrite Ha0, Ha1. reflexivity.
  - rewrite fold_right_Forall in HF. inv_bind H. destruct a as [c1 vs1]. cbn [fst snd] in H.
    pose proof (sort_perm vol_prio vs1) as HP. pose proof (sort_idem vol_prio vs1) as HI.
    assert (HD : Forall (fun a => forall s s1 b, vol_populate w s a = Ok (s1, b) -> s1 = s /\ forall s2, vol_populate w s2 a = Ok (s2, b)) vs).
    { rewrite Forall_forall in *. intros x Hx s s1 b Hb. destruct (IH x Hx _ _ _ (HF x Hx) Hb) as (E1 & _ & E2).
      split; auto. intros s2. apply E2. }
    destruct (mapMS_det _ _ _ _ _ Ha HD) as [-> HA].
    assert (HV : Forall (fun b => vol_rng_free b /\ forall s, vol_populate w s b = Ok (s, b)) vs1).
    { apply mapMS_Forall2 in Ha. clear - IH HF Ha.
      induction Ha as [|a b la lb (s1 & s2 & Hab) _ IHl]; [constructor|]. inversion IH; inversion HF; subst.
      constructor; auto. destruct (H1 _ _ _ H5 Hab) as (_ & E1 & E2). split; auto. intros; apply E2. }
    assert (HV' : Forall (fun b => vol_rng_free b /\ forall s, vol_populate w s b = Ok (s, b)) (sort_by vol_prio vs1)).
    { eapply Permutation_Forall; [apply Permutation_sym, HP|exact HV]. }
    set (S1 := sort_by vol_prio vs1) in *.
    assert (HFS : Forall vol_rng_free S1) by (eapply Forall_impl; [|exact HV']; intros ? [? ?]; auto).
    assert (HMS : forall s, mapMS (vol_populate w) s S1 = Ok (s, S1)).
    { apply mapMS_fix. eapply Forall_impl; [|exact HV']; intros ? [? ?]; auto. }
    assert (v' = VMulti pr S1 (Some (stack_atoms vol_atoms S1 (checks vol_prio vol_atoms (vol_inside w) S1),
                 stack_species vol_species S1 (checks vol_prio vol_atoms (vol_inside w) S1))) /\ c' = c /\ S1 <> []) as (-> & -> & NE).
    { destruct S1; [discriminate|]. inversion H; subst. repeat split; auto; discriminate. }
    split; [reflexivity|]. split; [cbn; rewrite fold_right_Forall; exact HFS|].
    intros c2. rewrite HA. cbn [bind fst snd]. fold S1. split.
    + destruct S1; [congruence|reflexivity].
    + cbn [vol_populate]. rewrite HMS. cbn [bind fst snd]. rewrite HI.
      destruct S1; [congruence|reflexivity].
Qed.

Lemma ob_populate_rng_free w o c c' o' :
  obj_rng_free o -> ob_populate w c o = Ok (c', o') ->
  c' = c /\ obj_rng_free o' /\
  forall c2, ob_populate w c2 o = Ok (c2, o') /\ ob_populate w c2 o' = Ok (c2, o').
Proof.
  destruct o as [v|m]; cbn [ob_populate obj_rng_free]; intros HF H.
  - inv_bind H. destruct a as [c1 v1]. cbn [fst snd] in H. inversion H; subst.
    apply vol_populate_rng_free in Ha as (-> & HF' & HH); auto. split; [reflexivity|]. split; [exact HF'|].
    intros c2. destruct (HH c2) as [E1 E2]. rewrite E1. cbn [bind fst snd ob_populate]. rewrite E2. split; reflexivity.
  - inversion H; subst. split; [reflexivity|]. split; [exact I|]. intros; split; reflexivity.
Qed.

(** After populate_atoms positions and species are aligned *)
Lemma ob_populate_aligned w c o c' o' :
  obj_aligned o -> ob_populate w c o = Ok (c', o') ->
  length (ob_atoms o') = length (ob_species o') /\ ob_result o' <> None.
Proof.
  destruct o as [v|m]; cbn [ob_populate obj_aligned]; intros HA H.
  - inv_bind H. destruct a as [c1 v1]. cbn [fst snd] in H. inversion H; subst.
    apply populate_settled in Ha as HS. split; [apply (settled_aligned _ _ HS)|].
    destruct v as [l|p vs ca]; cbn [vol_populate] in Ha.
    + inv_bind Ha. destruct a as [c2 l2]. apply leaf_populate_inv in Ha0 as (?&?&?&?&_&_&_&->).
      inversion Ha; subst. discriminate.
    + inv_bind Ha. destruct a as [c2 l2]. cbn [fst snd] in Ha. destruct (sort_by vol_prio l2); [discriminate|].
      inversion Ha; subst. discriminate.
  - inversion H; subst. split; [exact HA|discriminate].
Qed.

Lemma populate_inv w c s c' s' :
  populate w c s = Ok (c', s') ->
  exists objs pobjs, sc_objects s = Some objs /\ mapMS (ob_populate w) c objs = Ok (c', pobjs) /\
    s' = mkScene (sc_lo s) (sc_hi s) (Some (sort_by ob_prio pobjs))
           (Some (checks ob_prio ob_atoms (ob_inside w) (sort_by ob_prio pobjs))).
Proof.
  unfold populate. destruct (sc_objects s) as [objs|]; [|discriminate]. intros H. inv_bind H.
  destruct a as [c1 pobjs]. cbn [fst snd] in H. inversion H; subst. eauto.
Qed.

Lemma select_checks {A} (read : sobj -> res (option (list A))) (proj : list vec * list Z -> list A) :
  (forall o r, ob_result o = Some r -> read o = Ok (Some (proj r))) -> forall objs cks,
  length cks = length objs ->
  Forall2 (fun o m => exists r, ob_result o = Some r /\ length (proj r) = length m) objs cks ->
  select read (Some cks) objs =
    Ok (map (fun co => compress (fst co) (match ob_result (snd co) with Some r => proj r | None => [] end))
            (combine cks objs)).
Proof.
  intros HR. induction objs as [|o t IH]; intros [|m ms] L H; simpl in L; try discriminate; [reflexivity|].
  inversion H; subst. destruct H3 as (r & E & Lr). cbn [select]. rewrite (HR o r E). cbn [bind].
  unfold index_mask. rewrite Lr, Nat.eqb_refl. cbn [bind]. rewrite IH by (auto; lia). cbn [bind].
  cbn [combine map fst snd]. rewrite E. reflexivity.
Qed.

Lemma read_atoms_some o r : ob_result o = Some r -> read_atoms o = Ok (Some (fst r)).
Proof. unfold read_atoms. intros ->. reflexivity. Qed.
Lemma read_species_some o r : ob_result o = Some r -> read_species o = Ok (Some (snd r)).
Proof. unfold read_species. intros ->. reflexivity. Qed.

Lemma check_length objs i o m : StronglySorted Z.le (map ob_prio objs) -> forall w,
  nth_error objs i = Some o -> nth_error (checks ob_prio ob_atoms (ob_inside w) objs) i = Some m ->
  length m = length (ob_atoms o).
Proof.
  intros HS w Ho Hm.
  rewrite (check_sorted ob_prio ob_atoms (ob_inside w) objs i o HS Ho) in Hm. inversion Hm. apply map_length.
Qed.

Lemma Forall2_nth {A B} (P : A -> B -> Prop) : forall l l', length l = length l' ->
  (forall i a b, nth_error l i = Some a -> nth_error l' i = Some b -> P a b) -> Forall2 P l l'.
Proof.
  induction l as [|a l IH]; intros [|b l'] L H; simpl in L; try discriminate; constructor.
  - apply (H 0%nat); reflexivity.
  - apply IH; [lia|]. intros i. apply (H (S i)).
Qed.

(** What the accessors report after populate *)
Lemma read_populated w c s c' s' :
  populate w c s = Ok (c', s') ->
  (forall objs, sc_objects s = Some objs -> Forall obj_aligned objs /\ objs <> []) ->
  exists objs pobjs, sc_objects s = Some objs /\ mapMS (ob_populate w) c objs = Ok (c', pobjs) /\
    let srt := sort_by ob_prio pobjs in
    let cks := checks ob_prio ob_atoms (ob_inside w) srt in
    sc_objects s' = Some srt /\ sc_checks s' = Some cks /\
    (forall o, In o pobjs -> length (ob_atoms o) = length (ob_species o) /\ ob_result o <> None) /\
    all_atoms s' = Ok (stack_atoms ob_atoms srt cks) /\
    all_species s' = Ok (stack_species ob_species srt cks).
Proof.
  intros H HW. apply populate_inv in H as (objs & pobjs & E & HM & ->).
  exists objs, pobjs. destruct (HW _ E) as [HA NE]. split; [auto|]. split; [auto|]. intros srt cks.
  split; [reflexivity|]. split; [reflexivity|].
  assert (HO : forall o, In o pobjs -> length (ob_atoms o) = length (ob_species o) /\ ob_result o <> None).
  { apply mapMS_Forall2 in HM. clear - HM HA. intros o Ho.
    induction HM as [|a b la lb (s1 & s2 & Hab) _ IHl]; [easy|]. inversion HA; subst.
    destruct Ho as [<-|Ho]; [eapply ob_populate_aligned; eauto | apply IHl; auto]. }
  split; [exact HO|].
  pose proof (sort_perm ob_prio pobjs) as HP. pose proof (sort_sorted ob_prio pobjs) as HS. fold srt in HP, HS.
  assert (HOS : forall o, In o srt -> length (ob_atoms o) = length (ob_species o) /\ ob_result o <> None).
  { intros o Ho. apply HO. eapply Permutation_in; eauto. }
  assert (NS : srt <> []).
  { apply mapMS_Forall2, Forall2_len in HM. apply Permutation_length in HP.
    destruct objs; [congruence|]. destruct srt; [simpl in *; lia|discriminate]. }
  assert (LC : length cks = length srt) by apply checks_length.
  assert (HF : forall A (proj : list vec * list Z -> list A),
     (forall o, In o srt -> length (match ob_result o with Some r => proj r | None => [] end) = length (ob_atoms o)) ->
     Forall2 (fun o m => exists r, ob_result o = Some r /\ length (proj r) = length m) srt cks).
  { intros A proj HL. apply Forall2_nth; [auto|]. intros i o m Ho Hm.
    pose proof (nth_error_In _ _ Ho) as Hi. destruct (HOS o Hi) as [_ HR].
    pose proof (HL o Hi) as HLo. destruct (ob_result o) as [r|] eqn:ER; [|congruence]. exists r. split; [reflexivity|].
    rewrite HLo. symmetry. eapply check_length; eauto. }
  assert (STK : forall A (bl : list (list A)) co, bl = map co (combine cks srt) -> np_stack bl = Ok (concat bl)).
  { intros A bl co ->. destruct srt as [|x xs]; [congruence|]. destruct cks; [discriminate|]. reflexivity. }
  unfold all_atoms, all_species. cbn [sc_objects sc_checks].
  split.
  - rewrite (select_checks read_atoms fst read_atoms_some); [|auto|]. cbn [bind]. erewrite STK by reflexivity. reflexivity.
    apply HF. intros o Ho. unfold ob_atoms. destruct (ob_result o); reflexivity.
  - rewrite (select_checks read_species snd read_species_some); [|auto|]. cbn [bind]. erewrite STK by reflexivity. reflexivity.
    apply HF. intros o Ho. symmetry. apply HOS; auto.
Qed.

Lemma sourced_map {Ob Pt Sp} prio atoms species inside (objs : list Ob) :
  map snd (@sourced_contents Ob Pt Sp prio atoms species inside objs) = contents prio atoms species inside objs.
Proof.
  unfold sourced_contents, contents. rewrite !flat_map_concat_map, concat_map, map_map. f_equal.
  apply map_ext. intros. rewrite map_map. apply map_id.
Qed.
