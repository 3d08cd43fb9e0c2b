(** Histories of an amorphous generator: C109. *)
From Coq Require Import Reals List Bool ZArith Lra Lia.
From Flocq Require Import Core.
From Verif.Model Require Import Base Vec Voxel Amorphous Strain Generator.
From Verif.Spec Require Import Geometry AmorphSpec HistorySpec.
From Verif.Proofs Require Import VecFacts AmorphFacts.
From Verif.Props Require Import AmorphousProps.
Import ListNotations.
Open Scope R_scope.

(** A distance or a density that is not positive does not count as assigned. *)
Definition sets_min_dist (o : am_op) : option R :=
  match o with OpMinDist r => if Rlt_dec 0 r then Some r else None | _ => None end.
Definition sets_density (o : am_op) : option R :=
  match o with OpDensity r => if Rlt_dec 0 r then Some r else None | _ => None end.
Definition sets_species (o : am_op) : option Z := match o with OpSpecies z => Some z | _ => None end.
Definition sets_reuse (o : am_op) : option bool := match o with OpReuse b => Some b | _ => None end.
(** the atoms handed out most recently *)
Definition handed (r : res (option (list vec * list Z))) : option (option (list vec * list Z)) :=
  match r with Ok (Some x) => Some (Some x) | _ => None end.
(** the random numbers of a step are numpy's *)
Definition uniform_op (o : am_op) : Prop := match o with OpSupply d _ => Forall unit_draw d | _ => True end.

Lemma am_run_app g a b : am_run g (a ++ b) =
  let '(g1, r1) := am_run g a in let '(g2, r2) := am_run g1 b in (g2, r1 ++ r2).
Proof.
  revert g. induction a as [|o a IH]; intros g; cbn; [destruct (am_run g b); reflexivity|].
  destruct (am_step g o) as [g1 r]. rewrite IH. destruct (am_run g1 a) as [g2 rs]. destruct (am_run g2 b). reflexivity.
Qed.
Lemma supply_keeps draws g box g' r : amorphous_supply draws g box = Ok (g', r) ->
  am_min_dist g' = am_min_dist g /\ am_density g' = am_density g /\ am_species g' = am_species g /\
  am_use_old g' = am_use_old g /\ am_old g' = Some r.
Proof.
  unfold amorphous_supply. destruct (if am_use_old g then am_old g else None) as [r0|] eqn:E.
  - intros H. inversion H; subst. repeat split; auto. destruct (am_use_old g'); congruence.
  - destruct box as [|p ps]; [discriminate|]. destruct (gen_p_substrate _ _ _ _); cbn; [|discriminate].
    intros H. inversion H; subst. repeat split.
Qed.

Record tracks (md d : R) (sp : Z) (ops : list am_op) (g : amorphous) (outs : list (res (option (list vec * list Z)))) : Prop := {
  tr_md : last_of sets_min_dist md ops (am_min_dist g);
  tr_d : last_of sets_density d ops (am_density g);
  tr_sp : last_of sets_species sp ops (am_species g);
  tr_re : last_of sets_reuse false ops (am_use_old g);
  tr_old : last_of handed None outs (am_old g);
  tr_pos : 0 < am_min_dist g /\ 0 < am_density g }.
Lemma run_tracks o md d sp g0 ops : new_amorphous o md d sp = Ok g0 ->
  let '(g, outs) := am_run g0 ops in tracks md d sp ops g outs.
Proof.
  intros HN. unfold new_amorphous in HN. destruct (Rltb 0 md) eqn:E1; [|discriminate]. destruct (Rltb 0 d) eqn:E2; [|discriminate].
  cbn in HN. inversion HN; subst g0; clear HN. apply Rltb_iff in E1, E2.
  induction ops as [|op ops IH] using rev_ind.
  { cbn. split; cbn; auto; constructor. }
  rewrite am_run_app. destruct (am_run _ ops) as [g outs]. destruct IH as [T1 T2 T3 T4 T5 [T6 T7]].
  cbn [am_run]. destruct op as [r|r|z|o'|b|draws box]; cbn [am_step].
  - destruct (Rltb 0 r) eqn:E; [apply Rltb_iff in E|apply Rltb_false in E];
      (split; cbn [am_min_dist am_density am_species am_use_old am_old];
       [|eapply last_keep; eauto; reflexivity..|auto]).
    + eapply last_set; eauto. cbn. destruct (Rlt_dec 0 r); [reflexivity|lra].
    + eapply last_keep; eauto. cbn. destruct (Rlt_dec 0 r); [lra|reflexivity].
  - destruct (Rltb 0 r) eqn:E; [apply Rltb_iff in E|apply Rltb_false in E];
      (split; cbn [am_min_dist am_density am_species am_use_old am_old];
       [eapply last_keep; eauto; reflexivity| |eapply last_keep; eauto; reflexivity..|auto]).
    + eapply last_set; eauto. cbn. destruct (Rlt_dec 0 r); [reflexivity|lra].
    + eapply last_keep; eauto. cbn. destruct (Rlt_dec 0 r); [lra|reflexivity].
  - split; cbn [am_min_dist am_density am_species am_use_old am_old]; auto;
      first [eapply last_keep; eauto; reflexivity|eapply last_set; eauto; reflexivity].
  - split; cbn [am_min_dist am_density am_species am_use_old am_old]; auto;
      first [eapply last_keep; eauto; reflexivity|eapply last_set; eauto; reflexivity].
  - split; cbn [am_min_dist am_density am_species am_use_old am_old]; auto;
      first [eapply last_keep; eauto; reflexivity|eapply last_set; eauto; reflexivity].
  - destruct (amorphous_supply draws g box) as [[g' r]|e] eqn:E.
    + destruct (supply_keeps _ _ _ _ _ E) as (K1 & K2 & K3 & K4 & K5).
      split; rewrite ?K1, ?K2, ?K3, ?K4, ?K5; auto; first [eapply last_keep; eauto; reflexivity|eapply last_set; eauto; reflexivity].
    + split; auto; eapply last_keep; eauto; reflexivity.
Qed.

(** C109.  After any history of assignments and calls, accepted or refused, the settings
    are the last accepted values, distance and density are positive, and the next
    successful supply_atoms does one of two things.  If reuse is off, or nothing was
    handed out before, the atoms are of the current species and the current minimum
    distance apart.  If reuse is on, they are the atoms handed out last, whatever the
    settings and the box are now. *)
Theorem C109_history : forall o md d sp g0 ops, new_amorphous o md d sp = Ok g0 -> Forall uniform_op ops ->
  let '(g, outs) := am_run g0 ops in
  last_of sets_min_dist md ops (am_min_dist g) /\ last_of sets_density d ops (am_density g) /\
  last_of sets_species sp ops (am_species g) /\ last_of sets_reuse false ops (am_use_old g) /\
  0 < am_min_dist g /\ 0 < am_density g /\
  forall draws box g' atoms species, uniform_op (OpSupply draws box) ->
    am_step g (OpSupply draws box) = (g', Ok (Some (atoms, species))) ->
    exists last, last_of handed None outs last /\
      match am_use_old g, last with
      | true, Some r => (atoms, species) = r
      | _, _ => species = repeat (am_species g) (length atoms) /\ separated (am_min_dist g) atoms
      end.
Proof.
  intros o md d sp g0 ops HN HU. pose proof (run_tracks o md d sp g0 ops HN) as T.
  destruct (am_run g0 ops) as [g outs]. destruct T as [T1 T2 T3 T4 T5 [T6 T7]].
  split; [auto|]. split; [auto|]. split; [auto|]. split; [auto|]. split; [auto|]. split; [auto|].
  intros draws box g' atoms species HD HS. exists (am_old g). split; [auto|].
  cbn [am_step] in HS. destruct (amorphous_supply draws g box) as [[g1 r]|e] eqn:E; [|discriminate].
  inversion HS; subst g1 r; clear HS.
  destruct box as [|p ps].
  { unfold amorphous_supply in E. destruct (am_use_old g); [|discriminate]. destruct (am_old g); [|discriminate]. inversion E. reflexivity. }
  destruct (C42_amorphous_fills_box_partial draws g p ps _ g' atoms species T6 HD (spread_rows p ps) E) as (A & B & _).
  destruct (am_use_old g) eqn:U; [destruct (am_old g) as [r|] eqn:O|].
  - symmetry. apply B; auto.
  - destruct A as (A1 & _ & _ & A4); auto.
  - destruct A as (A1 & _ & _ & A4); auto.
Qed.
(** Refused assignments raise AssertionError and change nothing; each accepted one takes
    effect at once. *)
Theorem C109_refused : forall g r, r <= 0 ->
  am_step g (OpMinDist r) = (g, Err AssertionError) /\ am_step g (OpDensity r) = (g, Err AssertionError).
Proof. intros g r H. cbn. rewrite (proj2 (Rltb_false 0 r)) by lra. split; reflexivity. Qed.
(** So the documented meaning of [min_dist] can be lost: with reuse on, atoms closer than
    the current minimum distance, and of another species, are handed out. *)
Lemma two_atoms : gen_p_substrate (mkV 18 1 1) 1 default_density [mkV 0 0 0; mkV (1/4) 0 0] =
  Ok [mkV 0 0 0; mkV (1/4 * 18) 0 0].
Proof.
  unfold gen_p_substrate, num_atoms. cbn [vx vy vz].
  rewrite (Znearest_imp _ _ 2) by (unfold default_density; rewrite Rabs_left; lra).
  cbn [check_rows Z.ltb Z.compare bind]. change (Z.to_nat 2) with 2%nat. cbn [gen_loop Nat.leb length ps_coords].
  rewrite step_first. replace (vmul (mkV 0 0 0) (mkV 18 1 1)) with (mkV 0 0 0) by (apply vec_eq; vunfold; cbn; lra).
  rewrite block_0. cbn [gen_loop Nat.leb length ps_coords app]. unfold step.
  replace (vmul (mkV (1/4) 0 0) (mkV 18 1 1)) with (mkV (1/4 * 18) 0 0) by (apply vec_eq; vunfold; cbn; lra).
  unfold rejected.
  assert (E1 : block_of 1 (mkV (1/4 * 18) 0 0) = (4, 0, 0)%Z).
  { unfold block_of, vfloor. cbn. repeat f_equal; apply Zfloor_imp; cbn; lra. }
  assert (E2 : num_blocks 1 (mkV 18 1 1) = (18, 1, 1)%Z).
  { unfold num_blocks, vceil. cbn. repeat f_equal; apply Zceil_imp; cbn; lra. }
  rewrite E1, E2. change (parts_of _ _) with (@nil nat). cbn. reflexivity.
Qed.
Theorem C109_reuse_ignores_settings : exists g0 ops g outs atoms species,
  new_amorphous None 1 1 6 = Ok g0 /\ Forall uniform_op ops /\ am_run g0 ops = (g, outs) /\
  am_min_dist g = 5 /\ am_species g = 14%Z /\
  (forall draws box, am_step g (OpSupply draws box) = (g, Ok (Some (atoms, species)))) /\
  ~ separated (am_min_dist g) atoms /\ species <> repeat (am_species g) (length atoms).
Proof.
  exists (mkAm None 6 1 1 None false),
    [OpSupply [mkV 0 0 0; mkV (1/4) 0 0] [mkV 0 0 0; mkV 18 1 1]; OpReuse true; OpMinDist 5; OpSpecies 14].
  do 2 eexists. exists [mkV 0 0 0; mkV (1/4 * 18) 0 0], [6%Z; 6%Z].
  split. { unfold new_amorphous. rewrite (proj2 (Rltb_iff 0 1)) by lra. reflexivity. }
  split. { apply Forall_cons; [|repeat (apply Forall_cons; [exact I|]); apply Forall_nil].
    cbn. apply Forall_cons; [|apply Forall_cons; [|apply Forall_nil]]; unfold unit_draw, in_box; cbn; lra. }
  split.
  { cbn [am_run am_step]. unfold amorphous_supply. cbn [am_use_old am_min_dist am_species am_density am_origin].
    replace (vsub (rows_max (mkV 0 0 0) [mkV 18 1 1]) (rows_min (mkV 0 0 0) [mkV 18 1 1])) with (mkV 18 1 1).
    2:{ apply vec_eq; cbn; rewrite ?Rmax_right, ?Rmin_left by lra; lra. }
    rewrite two_atoms. cbn [bind length repeat]. rewrite (proj2 (Rltb_iff 0 5)) by lra. reflexivity. }
  split; [reflexivity|]. split; [reflexivity|]. split; [reflexivity|]. split.
  - intros H. specialize (H 0%nat 1%nat _ _ eq_refl eq_refl ltac:(lia)).
    pose proof (dist_sq (mkV 0 0 0) (mkV (1/4 * 18) 0 0)) as D. cbn in D, H. nra.
  - discriminate.
Qed.
Example C109_nonvacuous : exists g0 ops, new_amorphous None 1 1 6 = Ok g0 /\ Forall uniform_op ops /\
  exists draws box g' atoms species, uniform_op (OpSupply draws box) /\
    am_step (fst (am_run g0 ops)) (OpSupply draws box) = (g', Ok (Some (atoms, species))) /\ length atoms = 2%nat /\
    List.nth_error (snd (am_run g0 ops)) 1 = Some (Err AssertionError).
Proof.
  exists (mkAm None 6 1 1 None false), [OpMinDist 1; OpDensity (-1)].
  split. { unfold new_amorphous. rewrite (proj2 (Rltb_iff 0 1)) by lra. reflexivity. }
  split; [repeat (apply Forall_cons; [exact I|]); apply Forall_nil|].
  exists [mkV 0 0 0; mkV (1/4) 0 0], [mkV 0 0 0; mkV 18 1 1]. do 3 eexists. split.
  { cbn. apply Forall_cons; [|apply Forall_cons; [|apply Forall_nil]]; unfold unit_draw, in_box; cbn; lra. }
  cbn [am_run am_step]. rewrite (proj2 (Rltb_iff 0 1)), (proj2 (Rltb_false 0 (-1))) by lra. cbn [fst snd].
  split.
  { unfold amorphous_supply. cbn [am_use_old am_min_dist am_species am_density am_origin].
    replace (vsub (rows_max (mkV 0 0 0) [mkV 18 1 1]) (rows_min (mkV 0 0 0) [mkV 18 1 1])) with (mkV 18 1 1).
    2:{ apply vec_eq; cbn; rewrite ?Rmax_right, ?Rmin_left by lra; lra. }
    rewrite two_atoms. cbn [bind]. reflexivity. }
  split; reflexivity.
Qed.
