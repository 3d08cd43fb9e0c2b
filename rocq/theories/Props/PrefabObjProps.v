(** Prefabs as objects: C125, C126, C127. *)
From Coq Require Import Reals List ZArith Bool Lra Lia.
From Flocq Require Import Core.
From Verif.Model Require Import Base Vec Algebraic Transform Voxel Generator Volume Misc Snap Prefab PrefabObj.
From Verif.Spec Require Import Geometry CrystalSpec AlgSpec PrefabSpec HistorySpec PrefabObjSpec.
From Verif.Proofs Require Import VecFacts AlgFacts VolumeFacts VolTransFacts PrefabFacts GenFacts.
From Verif.Props Require Import MiscProps TransformProps GeneratorProps PrefabProps GrainProps.
Import ListNotations.
Open Scope R_scope.

Lemma ratio_check r : fcc_ratio_ok r = if Rle_dec 0 r then if Rle_dec r 1 then Ok r else Err AssertionError else Err AssertionError.
Proof.
  unfold fcc_ratio_ok. destruct (Rle_dec 0 r).
  - rewrite (proj2 (Rleb_iff _ _)) by auto. destruct (Rle_dec r 1); [rewrite (proj2 (Rleb_iff _ _)) by auto; reflexivity|]. rewrite (proj2 (Rleb_false _ _)) by lra. reflexivity.
  - rewrite (proj2 (Rleb_false _ _)) by lra. reflexivity.
Qed.
Lemma real_check v : py_real v = match real_of v with Some r => Ok r | None => Err TypeError end.
Proof. destruct v as [|[]| |]; reflexivity. Qed.
(** one assignment: refused and without effect, or only the attribute asked for changes *)
Definition update {A} (o : option A) (d : A) : A := match o with Some x => x | None => d end.
Lemma set_step p s :
  let q := fst (set_setting p s) in let k := pf_kind p in
  pf_kind q = k /\ pf_N q = update (asks_N s) (pf_N p) /\ pf_sep q = update (asks_sep s) (pf_sep p) /\ pf_plane q = update (asks_plane k s) (pf_plane p) /\
  pf_ratio q = update (asks_ratio k s) (pf_ratio p) /\ pf_gen q = update (asks_gen s) (pf_gen p) /\ pf_vol q = update (asks_vol s) (pf_vol p) /\
  snd (set_setting p s) = match refusal k s with Some e => Err e | None => Ok tt end /\ (refusal k s <> None -> q = p).
Proof.
  destruct p as [k n h r m g v]. cbn [pf_kind pf_N pf_sep pf_plane pf_ratio pf_gen pf_vol].
  destruct s as [x|x|h'|x|[g'|]|[v'|]].
  - destruct x as [z|[]|q|]; destruct k; cbn; repeat split; congruence.
  - destruct x as [z|[]|q|]; destruct k; cbn; repeat split; congruence.
  - destruct k; cbn; repeat split; congruence.
  - destruct k; try (cbn; repeat split; congruence). cbn [set_setting asks_ratio refusal asks_N asks_sep asks_plane asks_gen asks_vol update].
    rewrite real_check. destruct (real_of x) as [q|]; cbn [bind]; [|cbn; repeat split; congruence]. rewrite ratio_check.
    destruct (Rle_dec 0 q); [destruct (Rle_dec q 1)|]; cbn; repeat split; congruence.
  - destruct k; cbn; repeat split; congruence.
  - destruct k; cbn; repeat split; congruence.
  - destruct k; cbn; repeat split; congruence.
  - destruct k; cbn; repeat split; congruence.
Qed.
Lemma last_update {A B} (sel : A -> option B) b h x o : last_of sel b h x -> last_of sel b (h ++ [o]) (update (sel o) x).
Proof. intros H. destruct (sel o) as [y|] eqn:E; cbn; [eapply last_set; eauto|eapply last_keep; eauto]. Qed.

(** C125.  Whatever is assigned, every attribute is the last accepted value (floats for N are
    cut off, the ratio of the pure prefabs and the plane of the wurtzite prefab are fixed);
    exactly the listed assignments are refused, and these change nothing. *)
Theorem C125_settings : forall p h, let q := settings_after p h in let k := pf_kind p in
  pf_kind q = k /\ last_of asks_N (pf_N p) h (pf_N q) /\ last_of asks_sep (pf_sep p) h (pf_sep q) /\
  last_of (asks_plane k) (plane_of p) h (plane_of q) /\ last_of (asks_ratio k) (ratio_of p) h (ratio_of q) /\
  last_of asks_gen (pf_gen p) h (pf_gen q) /\ last_of asks_vol (pf_vol p) h (pf_vol q).
Proof.
  intros p h q k. subst q k. induction h as [|o h IH] using rev_ind; [cbn; repeat split; constructor|].
  unfold settings_after in *. rewrite fold_left_app. cbn [fold_left]. set (q := fold_left _ h p) in *.
  destruct IH as (K & I1 & I2 & I3 & I4 & I5 & I6). destruct (set_step q o) as (E0 & E1 & E2 & E3 & E4 & E5 & E6 & _). rewrite K in *.
  split; [exact E0|]. split; [rewrite E1; apply last_update, I1|]. split; [rewrite E2; apply last_update, I2|].
  split; [|split; [|split; [rewrite E5; apply last_update, I5|rewrite E6; apply last_update, I6]]].
  - assert (P : plane_of (fst (set_setting q o)) = update (asks_plane (pf_kind p) o) (plane_of q)).
    { unfold plane_of. rewrite E0, E3, K. destruct (pf_kind p); reflexivity. }
    rewrite P. apply last_update, I3.
  - assert (P : ratio_of (fst (set_setting q o)) = update (asks_ratio (pf_kind p) o) (ratio_of q)).
    { unfold ratio_of. rewrite E0, E4, K. destruct (pf_kind p); reflexivity. }
    rewrite P. apply last_update, I4.
Qed.
Theorem C125_refused : forall p s, match refusal (pf_kind p) s with
  | Some e => set_setting p s = (p, Err e)
  | None => snd (set_setting p s) = Ok tt
  end.
Proof.
  intros p s. destruct (set_step p s) as (_ & _ & _ & _ & _ & _ & _ & R & N). destruct (refusal (pf_kind p) s) as [e|]; [|exact R].
  rewrite (surjective_pairing (set_setting p s)), R. f_equal. apply N. discriminate.
Qed.
Lemma fixed_ratio k r : (k = KMixed -> 0 <= r <= 1) -> k <> KWurtzite -> forall p, pf_kind p = k -> exists q, init_step p (SetRatio (NFloat r)) = Ok q /\
  q = mkPf k (pf_N p) (pf_plane p) (match k with KMixed => r | _ => pf_ratio p end) (pf_sep p) (pf_gen p) (pf_vol p).
Proof.
  intros R W [k' n h r' m g v] K. cbn in K. subst k'. unfold init_step. destruct k; cbn; try congruence; try (eexists; split; reflexivity).
  rewrite ratio_check. destruct (R eq_refl). destruct (Rle_dec 0 r); [|lra]. destruct (Rle_dec r 1); [|lra]. cbn. eauto.
Qed.
(** What is built afterwards is what a prefab made afresh with the last values builds. *)
Theorem C125_build_uses_last : forall p h g v, let q := settings_after p h in
  (pf_kind p = KMixed -> 0 <= pf_ratio p <= 1) -> pf_gen q = Some g -> pf_vol q = Some v ->
  exists q', new_prefab (pf_kind p) (Some (Some g)) (Some (Some v)) (NFloat (ratio_of q)) (NInt (pf_N q)) (NInt (pf_sep q)) (plane_of q) = Ok q' /\
    forall w draws us, build_prefab w q' draws us = build_prefab w q draws us.
Proof.
  intros p h g v q R G V.
  assert (K : pf_kind q = pf_kind p) by apply (C125_settings p h).
  assert (RQ : pf_kind p = KMixed -> 0 <= pf_ratio q <= 1).
  { intros KM. specialize (R KM). subst q. clear G V K. induction h as [|o h IH] using rev_ind; [exact R|].
    unfold settings_after in *. rewrite fold_left_app. cbn [fold_left]. pose proof (C125_settings p h) as [K _]. unfold settings_after in K. set (q := fold_left _ h p) in *.
    destruct (set_step q o) as (_ & _ & _ & _ & E4 & _). rewrite E4, K, KM. cbn [asks_ratio]. destruct o; try exact IH. destruct (real_of v0) as [x|]; [|exact IH]. destruct (Rle_dec 0 x); [destruct (Rle_dec x 1)|]; cbn; auto; lra. }
  destruct q as [k n hh r m g' v']. cbn [pf_kind pf_gen pf_vol pf_N pf_sep pf_ratio] in *. subst k g' v'. unfold new_prefab, ratio_of, plane_of. cbn [pf_kind pf_ratio pf_plane].
  destruct (pf_kind p) eqn:KP; cbn [app foldM]; unfold init_step at 1; cbn.
  - destruct (RQ eq_refl). unfold init_step. cbn. rewrite ratio_check. destruct (Rle_dec 0 r); [|lra]. destruct (Rle_dec r 1); [|lra]. cbn. eexists. split; [reflexivity|]. reflexivity.
  - eexists. split; [reflexivity|]. reflexivity.
  - eexists. split; [reflexivity|]. reflexivity.
  - eexists. split; [reflexivity|]. reflexivity.
Qed.
(** A new prefab has the values it was given, or the documented defaults and no generator. *)
Theorem C125_new : forall k gen vol ratio N sep h p, new_prefab k gen vol ratio N sep h = Ok p ->
  pf_kind p = k /\ asks_N (SetN N) = Some (pf_N p) /\ asks_sep (SetSep sep) = Some (pf_sep p) /\
  plane_of p = match k with KWurtzite => (0, 0, 2)%Z | _ => h end /\
  (match k with KMixed => asks_ratio k (SetRatio ratio) = Some (ratio_of p) | KFault => ratio_of p = 1 | KTwin => ratio_of p = 0 | KWurtzite => True end) /\
  pf_gen p = match gen with Some g => g | None => None end /\ pf_vol p = match vol with Some v => v | None => None end /\
  gen <> Some None /\ vol <> Some None.
Proof.
  intros k gen vol ratio N sep h p H. unfold new_prefab, init_step in H.
  destruct k.
  - destruct N as [z|[]|x|]; cbn in H; try discriminate; rewrite real_check in H; (destruct (real_of ratio) as [r|] eqn:RR; [|discriminate]); cbn in H; rewrite ratio_check in H;
      (destruct (Rle_dec 0 r) as [R0|]; [|discriminate]); (destruct (Rle_dec r 1) as [R1|]; [|discriminate]);
      destruct sep as [m|[]|y|]; cbn in H; try discriminate; destruct gen as [[g|]|]; cbn in H; try discriminate; destruct vol as [[v|]|]; cbn in H; try discriminate;
      injection H as <-; cbn; rewrite RR; (destruct (Rle_dec 0 r); [|contradiction]); (destruct (Rle_dec r 1); [|contradiction]); repeat split; congruence.
  - destruct N as [z|[]|x|], sep as [m|[]|y|], gen as [[g|]|], vol as [[v|]|]; cbn in H; try discriminate; injection H as <-; cbn; repeat split; congruence.
  - destruct N as [z|[]|x|], sep as [m|[]|y|], gen as [[g|]|], vol as [[v|]|]; cbn in H; try discriminate; injection H as <-; cbn; repeat split; congruence.
  - destruct N as [z|[]|x|], sep as [m|[]|y|], gen as [[g|]|], vol as [[v|]|]; cbn in H; try discriminate; injection H as <-; cbn; repeat split; congruence.
Qed.
Theorem C125_defaults : forall k, exists p, default_prefab k = Ok p /\ pf_N p = 1%Z /\ pf_sep p = (match k with KWurtzite => 6 | _ => 3 end)%Z /\
  plane_of p = (match k with KWurtzite => (0, 0, 2) | _ => (1, 1, 1) end)%Z /\ (k = KMixed -> ratio_of p = 1 / 2) /\
  forall w draws us, build_prefab w p draws us = Err AttributeError.
Proof.
  intros k. unfold default_prefab, new_prefab, init_step. destruct k; cbn; try (eexists; split; [reflexivity|]; repeat split; congruence).
  rewrite ratio_check. destruct (Rle_dec 0 (1 / 2)); [|lra]. destruct (Rle_dec (1 / 2) 1); [|lra]. cbn. eexists. split; [reflexivity|]. repeat split.
Qed.

(** The defect types that a build reports: there is a stacking fault if and only if one of
    the first N draws is below the ratio, and a twin if and only if one is not. *)
Definition some_draw (N : Z) (us : list R) (P : R -> Prop) : Prop := exists i u, (Z.of_nat i < N)%Z /\ nth_error us i = Some u /\ P u.
Lemma some_first (b : R -> bool) (P : R -> Prop) N us : (forall u, b u = true <-> P u) -> existsb b (firstn (Z.to_nat N) us) = true <-> some_draw N us P.
Proof.
  intros BP. rewrite existsb_exists. split.
  - intros (u & Hu & B). apply In_nth_error in Hu as [i Hi]. assert (L : (i < length (firstn (Z.to_nat N) us))%nat) by (apply nth_error_Some; congruence).
    rewrite firstn_length in L. exists i, u. split; [lia|]. split; [|apply BP, B]. rewrite <- (firstn_skipn (Z.to_nat N) us), nth_error_app1; [exact Hi|rewrite firstn_length; lia].
  - intros (i & u & L & Hi & PU). assert (LU : (i < length us)%nat) by (apply nth_error_Some; congruence). exists u. split; [|apply BP, PU]. apply nth_error_In with i.
    rewrite <- (firstn_skipn (Z.to_nat N) us) in Hi. rewrite nth_error_app1 in Hi; [exact Hi|rewrite firstn_length; lia].
Qed.
Lemma passes_types w l h ratio N splits planes : forall is ax g vols ax' g' vols',
  foldM (defect_pass w l (fcc_step h ratio) N splits planes) is (ax, g, vols) = Ok (ax', g', vols') ->
  (length is <= length (fa_draws ax))%nat /\
  fa_sf ax' = fa_sf ax || existsb (fun u => Rltb u ratio) (firstn (length is) (fa_draws ax)) /\
  fa_twin ax' = fa_twin ax || existsb (fun u => negb (Rltb u ratio)) (firstn (length is) (fa_draws ax)).
Proof.
  induction is as [|i is IH]; intros ax g vols ax' g' vols' H; cbn [foldM] in H.
  - injection H as <- <- <-. cbn. rewrite !orb_false_r. split; [lia|]. auto.
  - inv_bind H. destruct a as [[ax1 g1] vols1]. apply IH in H as (L & S & T). unfold defect_pass in Ha.
    inv_bind Ha. inv_bind Ha. inv_bind Ha. inv_bind Ha. inv_bind Ha. inv_bind Ha. injection Ha as E _ _. subst ax1.
    match goal with K : fcc_step _ _ _ _ _ = Ok _ |- _ => rename K into ST end. unfold fcc_step in ST. destruct (fa_draws ax) as [|u us]; [discriminate|].
    cbn [length firstn existsb]. destruct (Rltb u ratio); injection ST as ST; subst; cbn [fst fa_draws fa_sf fa_twin] in *; rewrite S, T; cbn [negb orb]; rewrite ?orb_true_r, ?orb_true_l; cbn; (split; [lia|]); split; try reflexivity; destruct (fa_sf ax), (fa_twin ax); reflexivity.
Qed.
Lemma zrange_length a b : length (zrange a b) = Z.to_nat (b - a).
Proof. unfold zrange. rewrite map_length, seq_length. reflexivity. Qed.
Theorem C126_defect_types : forall w p draws us b, pf_kind p <> KWurtzite -> build_prefab w p draws us = Ok b ->
  (bt_fault b = true <-> some_draw (pf_N p) us (fun u => u < ratio_of p)) /\
  (bt_twin b = true <-> some_draw (pf_N p) us (fun u => ratio_of p <= u)).
Proof.
  intros w p draws us b K H. unfold build_prefab in H. destruct (pf_gen p) as [g|]; [|discriminate].
  assert (E : exists v r, fcc_build w g v (pf_N p) (pf_sep p) (plane_of p) (ratio_of p) draws us = Ok r /\ b = mkBuilt (snd r) (fa_twin (fst r)) (fa_sf (fst r))).
  { destruct (pf_kind p); try congruence; (destruct (pf_vol p) as [v|]; [|discriminate]); inv_bind H; injection H as <-; eauto. }
  destruct E as (v & r & F & ->). cbn [bt_fault bt_twin]. unfold fcc_build in F. destruct v as [l|]; [|discriminate]. inv_bind F. inv_bind F. unfold build_defects in F. inv_bind F. inv_bind F. inv_bind F. injection F as <-. cbn [fst].
  destruct a3 as [[ax gx] vols]. match goal with K : foldM _ _ _ = Ok _ |- _ => apply passes_types in K as (_ & S & T) end.
  cbn [fst fa_sf fa_twin fa_draws orb] in *. rewrite zrange_length, Z.sub_0_r in S, T. rewrite S, T. split; apply some_first; intros u.
  - apply Rltb_iff.
  - rewrite negb_true_iff. apply Rltb_false.
Qed.
(** So, for draws from [0,1), the stacking fault prefab places no twin and the twin prefab no
    stacking fault, and at least one defect is there as soon as one is asked for. *)
Theorem C126_pure : forall w p draws us b, Forall (fun u => 0 <= u < 1) us -> build_prefab w p draws us = Ok b ->
  (pf_kind p = KFault -> bt_twin b = false /\ (bt_fault b = true <-> (1 <= pf_N p)%Z)) /\
  (pf_kind p = KTwin -> bt_fault b = false /\ (bt_twin b = true <-> (1 <= pf_N p)%Z)).
Proof.
  intros w p draws us b U H. rewrite Forall_forall in U.
  assert (NE : pf_kind p <> KWurtzite -> (1 <= pf_N p)%Z -> exists u, nth_error us 0 = Some u).
  { intros K N. unfold build_prefab in H. destruct (pf_gen p) as [g|]; [|discriminate].
    assert (E : exists v r, fcc_build w g v (pf_N p) (pf_sep p) (plane_of p) (ratio_of p) draws us = Ok r).
    { destruct (pf_kind p); try congruence; (destruct (pf_vol p) as [v|]; [|discriminate]); inv_bind H; eauto. }
    destruct E as (v & r & F). unfold fcc_build in F. destruct v as [l|]; [|discriminate]. inv_bind F. inv_bind F. unfold build_defects in F. inv_bind F. inv_bind F. inv_bind F.
    destruct a3 as [[ax gx] vols]. match goal with K : foldM _ _ _ = Ok _ |- _ => apply passes_types in K as (L & _) end. cbn [fa_draws] in L. rewrite zrange_length in L. destruct us as [|u us]; [cbn in L; lia|]. exists u. reflexivity. }
  assert (NO : forall P, (forall u, In u us -> ~ P u) -> ~ some_draw (pf_N p) us P).
  { intros P F (i & u & _ & Hi & PU). apply (F u); [eapply nth_error_In; eauto|exact PU]. }
  assert (SOME : forall P : R -> Prop, pf_kind p <> KWurtzite -> (forall u, In u us -> P u) -> some_draw (pf_N p) us P <-> (1 <= pf_N p)%Z).
  { intros P K F. split; [intros (i & u & L & _); lia|]. intros N. destruct (NE K N) as [u Hu]. exists 0%nat, u. split; [lia|]. split; [exact Hu|]. apply F. eapply nth_error_In; eauto. }
  split; intros K; (destruct (C126_defect_types w p draws us b ltac:(rewrite K; discriminate) H) as [F T]); unfold ratio_of in F, T; rewrite K in F, T.
  - split; [|rewrite F; apply SOME; [congruence|]; intros u Hu; apply U in Hu; lra].
    destruct (bt_twin b); [|reflexivity]. exfalso. apply (NO (fun u => 1 <= u)); [intros u Hu; apply U in Hu; lra|]. apply T. reflexivity.
  - split; [|rewrite T; apply SOME; [congruence|]; intros u Hu; apply U in Hu; lra].
    destruct (bt_fault b); [|reflexivity]. exfalso. apply (NO (fun u => u < 0)); [intros u Hu; apply U in Hu; lra|]. apply F. reflexivity.
Qed.
(** Without defects asked for (N at most 0) the result is the whole host, once, with the
    generator of the prefab. *)
Theorem C126_no_defects : forall w p draws us b, (pf_N p <= 0)%Z -> build_prefab w p draws us = Ok b ->
  exists l g l', pf_vol p = Some (VLeaf l) /\ pf_gen p = Some g /\ leaf_from_volume w l (Some (GCrystal g)) [] = Ok l' /\
    bt_volume b = VMulti 0 [VLeaf (with_prio l' (pf_N p))] None.
Proof.
  intros w p draws us b N H. unfold build_prefab in H. destruct (pf_gen p) as [g|]; [|discriminate].
  assert (Z0 : zrange 0 (pf_N p) = []) by (unfold zrange; replace (Z.to_nat (pf_N p - 0)) with 0%nat by lia; reflexivity).
  assert (B : forall Aux l (step : Aux -> crystal -> plane -> res (Aux * transform)) planes ax r, build_defects w l step g (pf_N p) (pf_sep p) planes draws ax = Ok r ->
    exists l', leaf_from_volume w l (Some (GCrystal g)) [] = Ok l' /\ snd r = VMulti 0 [VLeaf (with_prio l' (pf_N p))] None).
  { intros Aux l step planes ax r F. unfold build_defects in F. inv_bind F. inv_bind F. rewrite Z0 in F. cbn [foldM bind] in F. injection F as <-. eauto. }
  destruct (pf_kind p).
  1-3: (destruct (pf_vol p) as [[l|]|]; try discriminate); inv_bind H; injection H as <-; unfold fcc_build in Ha; inv_bind Ha; inv_bind Ha; apply B in Ha as (l' & E & E'); exists l, g, l'; auto.
  destruct (pf_vol p) as [[l|]|]; inv_bind H; try discriminate.
  - injection H as <-. unfold wz_build in Ha. inv_bind Ha. inv_bind Ha. inv_bind Ha. inv_bind Ha. injection Ha as <-. match goal with K : build_defects _ _ _ _ _ _ _ _ _ = Ok _ |- _ => apply B in K as (l' & E & E') end. exists l, g, l'. auto.
  - unfold wz_build in Ha. inv_bind Ha. discriminate.
Qed.
(** A mixed prefab that is made without a generator, given one, a ball and another number of
    defects (of which a fraction is cut off), after refused assignments, is built. *)
Definition demo_settings : list setting :=
  [SetN (NFloat (5 / 2)); SetSep (NFloat 1); SetSep (NInt 0); SetRatio (NInt 2); SetPlane (0, 0, 1)%Z; SetGen (Some cube_crystal); SetGen None; SetVol (Some (VLeaf ball5))].
Lemma demo_settled p : default_prefab KMixed = Ok p ->
  settings_after p demo_settings = mkPf KMixed 2 (0, 0, 1)%Z (1 / 2) 0 (Some cube_crystal) (Some (VLeaf ball5)).
Proof.
  intros H. destruct (C125_defaults KMixed) as (p' & E & E1 & E2 & E3 & E4 & _). rewrite E in H. injection H as ->. specialize (E4 eq_refl).
  assert (K : pf_kind p = KMixed /\ pf_gen p = None /\ pf_vol p = None) by (unfold default_prefab in E; apply C125_new in E as (K & _ & _ & _ & _ & G & V & _); auto).
  destruct K as (K & G & V). destruct p as [k n h r m g v]. cbn [pf_kind pf_N pf_sep pf_gen pf_vol] in *. subst k g v n m. unfold plane_of, ratio_of in *. cbn [pf_kind pf_plane pf_ratio] in *. subst h r.
  assert (T : Ztrunc (5 / 2) = 2%Z) by (rewrite Ztrunc_floor by lra; apply Zfloor_imp; cbn; lra).
  unfold settings_after, demo_settings. cbn [fold_left set_setting py_int py_isint fst]. rewrite T, real_check. cbn [real_of bind]. rewrite ratio_check.
  destruct (Rle_dec 0 2); [|lra]. destruct (Rle_dec 2 1); [lra|]. reflexivity.
Qed.
Example C125_nonvacuous : exists p, default_prefab KMixed = Ok p /\ 0 <= pf_ratio p <= 1 /\ pf_gen (settings_after p demo_settings) = Some cube_crystal /\
  pf_vol (settings_after p demo_settings) = Some (VLeaf ball5) /\ pf_N (settings_after p demo_settings) = 2%Z.
Proof.
  destruct (C125_defaults KMixed) as (p & E & _ & _ & _ & R & _). exists p. split; [exact E|]. specialize (R eq_refl).
  assert (K : pf_kind p = KMixed) by (unfold default_prefab in E; apply C125_new in E; apply E). unfold ratio_of in R. rewrite K in R.
  rewrite (demo_settled p E). split; [lra|]. repeat split.
Qed.
Example C126_nonvacuous : forall w k, k <> KWurtzite -> exists draws b,
  let p := mkPf k 2 (0, 0, 1)%Z (1 / 2) 0 (Some cube_crystal) (Some (VLeaf ball5)) in
  build_prefab w p draws [1 / 4; 3 / 4] = Ok b /\ Forall (fun u => 0 <= u < 1) [1 / 4; 3 / 4] /\
  some_draw 2 [1 / 4; 3 / 4] (fun u => u < 1 / 2) /\ some_draw 2 [1 / 4; 3 / 4] (fun u => 1 / 2 <= u).
Proof.
  intros w k K. set (p := mkPf k 2 (0, 0, 1)%Z (1 / 2) 0 (Some cube_crystal) (Some (VLeaf ball5))).
  destruct (ball_builds w (0, 0, 1)%Z (ratio_of p) [1 / 4; 3 / 4] 2) as (draws & aux & V & E); [lia|cbn; lia|cbn; change (mkV 0 0 1) with ez; rewrite norm_ez; lra|].
  exists draws, (mkBuilt V (fa_twin aux) (fa_sf aux)). split.
  - unfold build_prefab, p. cbn [pf_gen pf_kind pf_vol pf_N pf_sep]. fold p. replace (plane_of p) with (0, 0, 1)%Z by (unfold plane_of, p; cbn; destruct k; congruence). destruct k; try congruence; rewrite E; reflexivity.
  - split; [repeat constructor; lra|]. split; [exists 0%nat, (1 / 4)|exists 1%nat, (3 / 4)]; (split; [lia|]); split; [reflexivity|lra|reflexivity|lra].
Qed.

(** C127.  The zone axes of a grain boundary: the first is the last accepted one; the second is
    the last accepted one as well, but when none is given it is the first one of that moment,
    not of the moment of the build. *)
Definition asks_z1 (s : axis_setting) : option vec := match s with SetZ1 [x; y; z] => Some (mkV x y z) | _ => None end.
Lemma axis_check l : axis_of l = match l with [x; y; z] => Ok (mkV x y z) | _ => Err AssertionError end.
Proof. reflexivity. Qed.
Lemma axis_step b s : bd_z1 (fst (set_axis b s)) = update (asks_z1 s) (bd_z1 b) /\
  bd_z2 (fst (set_axis b s)) = match s with SetZ2 None => bd_z1 b | SetZ2 (Some [x; y; z]) => mkV x y z | _ => bd_z2 b end.
Proof.
  destruct s as [l|[l|]]; cbn [set_axis]; [| |split; reflexivity].
  - destruct l as [|x [|y [|z [|q l]]]]; cbn; split; reflexivity.
  - destruct l as [|x [|y [|z [|q l]]]]; cbn; split; reflexivity.
Qed.
Theorem C127_first_axis : forall b h, last_of asks_z1 (bd_z1 b) h (bd_z1 (axes_after b h)).
Proof.
  intros b h. induction h as [|s h IH] using rev_ind; [constructor|]. unfold axes_after in *. rewrite fold_left_app. cbn [fold_left]. set (q := fold_left _ h b) in *.
  rewrite (proj1 (axis_step q s)). apply last_update, IH.
Qed.
Theorem C127_second_axis_partial : forall b h x h', (forall s, In s h' -> exists l, s = SetZ1 l) ->
  (forall z, x = Some [vx z; vy z; vz z] -> bd_z2 (axes_after b (h ++ SetZ2 x :: h')) = z) /\
  (x = None -> bd_z2 (axes_after b (h ++ SetZ2 x :: h')) = bd_z1 (axes_after b h)) /\
  (x = None -> h' = [] -> bd_z2 (axes_after b (h ++ SetZ2 x :: h')) = bd_z1 (axes_after b (h ++ SetZ2 x :: h'))).
Proof.
  intros b h x h' N. assert (K : forall h' q, (forall s, In s h' -> exists l, s = SetZ1 l) -> bd_z2 (axes_after q h') = bd_z2 q).
  { clear. induction h' as [|s h' IH]; intros q N; [reflexivity|]. unfold axes_after in *. cbn [fold_left]. rewrite IH by (intros s' Hs; apply N; right; auto).
    destruct (N s (or_introl eq_refl)) as [l ->]. rewrite (proj2 (axis_step q (SetZ1 l))). reflexivity. }
  assert (E : axes_after b (h ++ SetZ2 x :: h') = axes_after (fst (set_axis (axes_after b h) (SetZ2 x))) h').
  { unfold axes_after. rewrite fold_left_app. reflexivity. }
  rewrite E, K by exact N. split; [|split].
  - intros z ->. cbn. destruct z; reflexivity.
  - intros ->. reflexivity.
  - intros -> ->. reflexivity.
Qed.
Theorem C127_refused : forall b s l, (s = SetZ1 l \/ s = SetZ2 (Some l)) -> length l <> 3%nat -> set_axis b s = (b, Err AssertionError).
Proof. intros b s l [-> | ->] L; destruct l as [|x [|y [|z [|q l]]]]; try reflexivity; cbn in L; congruence. Qed.
Lemma basis_injective g Q B : rotation Q -> basis_of g = mm Q mI -> mv (basis_of g) (mkV 0 0 1) = vscale 1 B -> mv (basis_of g) (mkV 1 0 0) = vscale 1 B -> False.
Proof.
  intros [_ D] E H1 H2. rewrite <- H2 in H1. apply mv_inj in H1; [injection H1; lra|]. rewrite E, det_mm, D, det_mI. lra.
Qed.
(** Changing z1 of a boundary made with one axis: the second grain stays where it was, so the
    result is not the boundary with the new axis. *)
Theorem C127_default_axis_refuted : forall w, exists b b' V V',
  new_boundary [1; 0; 0] None = Ok b /\ new_boundary [0; 0; 1] None = Ok b' /\
  bd_z1 (axes_after b [SetZ1 [0; 0; 1]]) = bd_z1 b' /\
  build_boundary w (axes_after b [SetZ1 [0; 0; 1]]) (Some (APlane x_plane)) (VLeaf ball5) cube_crystal = Ok V /\
  build_boundary w b' (Some (APlane x_plane)) (VLeaf ball5) cube_crystal = Ok V' /\ V <> V'.
Proof.
  intros w. exists (mkBd (mkV 1 0 0) (mkV 1 0 0)), (mkBd (mkV 0 0 1) (mkV 0 0 1)).
  assert (HD : det (vo_bases (g_voxel cube_crystal)) <> 0) by (cbn; rewrite det_mI; lra).
  destruct (ball_boundary_builds w 0 None None) as [V E].
  assert (E' : exists V', gb_build w (mkGB (mkV 0 0 1) (Some (mkV 0 0 1)) 0 None (Some (APlane x_plane)) None (VLeaf ball5) cube_crystal) = Ok V').
  { destruct (gb_rot_total cube_crystal _ dir1 HD) as (q1 & g1 & E1 & T1).
    unfold gb_build. cbn [gb_generator gb_z1 gb_z2 gb_volume gb_plane]. rewrite E1. cbn [bind]. rewrite T1. cbn [bind vol_from_volume].
    destruct (leaf_copy_total w ball5 (GCrystal g1)) as [l1 L1]; [left; reflexivity|]. rewrite L1. cbn [rmap bind]. eauto. }
  destruct E' as [V' E']. exists V, V'. split; [reflexivity|]. split; [reflexivity|]. split; [reflexivity|]. split; [exact E|]. split; [exact E'|].
  intros EQ. subst V'.
  destruct (C89_zone_axes_partial w _ V E I dir1 dir2) as (l1 & l2 & g1 & g2 & EV & _ & G2 & _ & A2 & _).
  destruct (C89_zone_axes_partial w _ V E' I dir1 dir1) as (m1 & m2 & k1 & k2 & EV' & _ & K2 & _ & B2 & _).
  rewrite EV in EV'. injection EV' as <- <-. rewrite G2 in K2. injection K2 as <-. cbn [ball_boundary gb_z2 gb_z1 gb_generator] in A2, B2.
  destruct (C88_whole_turns_partial w _ V 0 0 E I) as (n1 & n2 & h1 & h2 & Q1 & Q2 & EV2 & _ & H2 & _ & RQ & _ & _ & _ & BG); [cbn; lra|cbn; lra|apply dir1|apply dir2|].
  rewrite EV in EV2. injection EV2 as <- <-. rewrite G2 in H2. injection H2 as <-. cbn [ball_boundary gb_r2 gb_r1 gb_generator] in BG.
  rewrite sb_cube in *. replace (about_z 0) with mI in BG by (unfold about_z, mI; rewrite cos_0, sin_0, Ropp_0; reflexivity). rewrite mm_id_l in BG.
  replace (norm (mv mI (mkV 1 0 0))) with 1 in A2 by (replace (mv mI (mkV 1 0 0)) with (mkV 1 0 0) by vring; rewrite norm_ex; reflexivity).
  replace (norm (mv mI (mkV 0 0 1))) with 1 in B2 by (replace (mv mI (mkV 0 0 1)) with ez by (unfold ez; vring); rewrite norm_ez; reflexivity).
  eapply basis_injective; eauto.
Qed.
Example C127_nonvacuous : exists b, new_boundary [1; 0; 0] (Some [0; 1; 0]) = Ok b /\
  bd_z2 (axes_after b ([SetZ1 [1; 1; 1]] ++ SetZ2 None :: [SetZ1 [2; 0; 0]])) = mkV 1 1 1.
Proof. eexists. split; reflexivity. Qed.
