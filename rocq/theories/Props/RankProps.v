(** What a larger priority number takes from an object and gives to the others (C155). *)
From Coq Require Import Reals List ZArith Bool Permutation Lia Lra.
From Verif.Model Require Import Base Vec Algebraic Transform Voxel Post Generator Volume Molecule Scene Priority.
From Verif.Spec Require Import PrioritySpec SceneSpec RenumberSpec RankSpec.
From Verif.Proofs Require Import PriorityFacts VolumeFacts SceneFacts VecFacts.
From Verif.Props Require Import SceneProps VolumeProps WholeProps GroupProps RenumberProps.
Import ListNotations.
Open Scope R_scope.

Lemma filter_split {A} (g h : A -> bool) L : (forall x, g x = true -> h x = true) ->
  Permutation (filter h L) (filter g L ++ filter (fun x => h x && negb (g x)) L).
Proof.
  intros GH. induction L as [|x L IH]; cbn; [constructor|]. destruct (g x) eqn:G.
  - rewrite (GH _ G). cbn. constructor. exact IH.
  - rewrite andb_true_r. destruct (h x); [|exact IH]. apply Permutation_cons_app. exact IH.
Qed.

Lemma perm_five {A} (a g o b h : list A) : Permutation ((a ++ g) ++ o ++ b ++ h) ((a ++ b) ++ o ++ g ++ h).
Proof.
  rewrite <- !app_assoc. apply Permutation_app_head. rewrite !app_assoc. apply Permutation_app_tail.
  rewrite (Permutation_app_comm g o), (Permutation_app_comm (o ++ g) b). rewrite app_assoc. reflexivity.
Qed.
Section Abstract.
Context {Ob Pt Sp : Type} (prio : Ob -> Z) (atoms : Ob -> list Pt) (species : Ob -> list Sp) (inside : Ob -> Pt -> bool).
Notation contribution := (contribution prio atoms species inside).
Notation contents := (contents prio atoms species inside).
Notation loses := (loses prio inside).

Lemma contents_one l x r : contents (l ++ x :: r) =
  flat_map (fun oo => contribution (fst oo, snd oo ++ x :: r)) (each_with_others l) ++ contribution (x, l ++ r) ++
  flat_map (fun oo => contribution (fst oo, l ++ x :: snd oo)) (each_with_others r).
Proof.
  rewrite contents_concat. f_equal. cbn [each_with_others flat_map fst snd]. f_equal. rewrite !flat_map_concat_map, map_map. reflexivity.
Qed.
Variables (x x' : Ob).
Hypothesis (HA : atoms x' = atoms x) (HS : species x' = species x) (HI : forall p, inside x' p = inside x p) (HP : (prio x <= prio x')%Z).

Lemma loses_one o a b p : loses o (a ++ x :: b) p = loses o (a ++ b) p || ((prio x <=? prio o)%Z && inside x p).
Proof. unfold PrioritySpec.loses. rewrite !existsb_app. cbn [existsb]. destruct (existsb _ a), (existsb _ b), (_ && inside x p); reflexivity. Qed.
Lemma loses_one' o a b p : loses o (a ++ x' :: b) p = loses o (a ++ b) p || ((prio x' <=? prio o)%Z && inside x p).
Proof. unfold PrioritySpec.loses. rewrite !existsb_app. cbn [existsb]. rewrite HI. destruct (existsb _ a), (existsb _ b), (_ && inside x p); reflexivity. Qed.

(** the others win what lies in x at a priority in between *)
Lemma others_gain (T : list (Ob * (list Ob * list Ob))) : exists gained,
  Permutation (flat_map (fun t => contribution (fst t, fst (snd t) ++ x' :: snd (snd t))) T)
              (flat_map (fun t => contribution (fst t, fst (snd t) ++ x :: snd (snd t))) T ++ gained) /\
  forall p z, In (p, z) gained -> inside x p = true /\ exists y, In y (map fst T) /\ In (p, z) (combine (atoms y) (species y)) /\ (prio x <= prio y < prio x')%Z.
Proof.
  induction T as [|[y [a b]] T (gained & P & G)]; cbn [flat_map map fst snd]; [exists []; split; [constructor|intros p z []]|].
  set (g := fun ps : Pt * Sp => negb (loses y (a ++ x :: b) (fst ps))). set (h := fun ps : Pt * Sp => negb (loses y (a ++ x' :: b) (fst ps))).
  assert (GH : forall ps, g ps = true -> h ps = true).
  { intros ps. unfold g, h. rewrite loses_one, loses_one', !negb_true_iff, !orb_false_iff. intros [-> E]. split; [reflexivity|].
    destruct (inside x (fst ps)); [|apply andb_false_r]. rewrite andb_true_r in *. lia. }
  pose proof (filter_split g h (combine (atoms y) (species y)) GH) as PF.
  exists (filter (fun ps => h ps && negb (g ps)) (combine (atoms y) (species y)) ++ gained). split.
  - unfold PrioritySpec.contribution at 1 3. cbn [fst snd]. fold g h. rewrite PF, P.
    rewrite <- !app_assoc. apply Permutation_app_head. rewrite !app_assoc. apply Permutation_app_tail, Permutation_app_comm.
  - intros p z Hp. apply in_app_or in Hp as [Hp|Hp].
    + apply filter_In in Hp as [HL HB]. unfold g, h in HB. cbn [fst] in HB. rewrite loses_one, loses_one' in HB.
      destruct (loses y (a ++ b) p); [discriminate|]. cbn [orb] in HB. destruct (inside x p); [|rewrite !andb_false_r in HB; discriminate].
      split; [reflexivity|]. exists y. split; [left; reflexivity|]. split; [exact HL|]. rewrite !andb_true_r in HB. lia.
    + destruct (G p z Hp) as (I & y' & Y & HL & B). split; [exact I|]. exists y'. split; [right; exact Y|]. auto.
Qed.
(** x loses what lies in another object at a priority in between *)
Lemma own_lose others : exists lost, Permutation (contribution (x, others)) (contribution (x', others) ++ lost) /\
  forall p z, In (p, z) lost -> In (p, z) (combine (atoms x) (species x)) /\ exists y, In y others /\ inside y p = true /\ (prio x < prio y <= prio x')%Z.
Proof.
  unfold PrioritySpec.contribution. cbn [fst snd]. rewrite HA, HS.
  eexists. split; [apply filter_split|].
  - intros ps. rewrite !negb_true_iff. intros H. destruct (loses x others (fst ps)) eqn:E; [|reflexivity]. exfalso. rewrite <- not_true_iff_false in H. apply H.
    unfold PrioritySpec.loses in *. apply existsb_exists in E as (y & Y & E). apply existsb_exists. exists y. split; [exact Y|]. apply andb_true_iff in E as [E ->]. rewrite andb_true_r. lia.
  - intros p z Hp. apply filter_In in Hp as [HL HB]. cbn [fst] in HB. split; [exact HL|]. apply andb_true_iff in HB as [H1 H2].
    rewrite negb_involutive in H2. apply negb_true_iff in H1. unfold PrioritySpec.loses in *. apply existsb_exists in H2 as (y & Y & E).
    apply andb_true_iff in E as [E I]. exists y. split; [exact Y|]. split; [exact I|]. split; [|lia].
    destruct (Z.le_gt_cases (prio y) (prio x)) as [L|L]; [|exact L]. exfalso. rewrite <- not_true_iff_false in H1. apply H1.
    apply existsb_exists. exists y. split; [exact Y|]. rewrite I, andb_true_r. lia.
Qed.
Lemma each_fst (l : list Ob) : map fst (each_with_others l) = l.
Proof. induction l as [|y l IH]; [reflexivity|]. cbn. rewrite map_map. cbn. f_equal. exact IH. Qed.
Lemma contents_rank l r : exists kept own lost gained,
  Permutation (contents (l ++ x :: r)) (kept ++ own ++ lost) /\ Permutation (contents (l ++ x' :: r)) (kept ++ own ++ gained) /\
  own = contribution (x', l ++ r) /\
  (forall p z, In (p, z) lost -> In (p, z) (combine (atoms x) (species x)) /\ exists y, In y (l ++ r) /\ inside y p = true /\ (prio x < prio y <= prio x')%Z) /\
  (forall p z, In (p, z) gained -> inside x p = true /\ exists y, In y (l ++ r) /\ In (p, z) (combine (atoms y) (species y)) /\ (prio x <= prio y < prio x')%Z).
Proof.
  rewrite !contents_one.
  destruct (others_gain (map (fun oo => (fst oo, (snd oo, r))) (each_with_others l))) as (g1 & P1 & G1).
  destruct (others_gain (map (fun oo => (fst oo, (l, snd oo))) (each_with_others r))) as (g2 & P2 & G2).
  rewrite !flat_map_concat_map, !map_map in P1, P2. cbn [fst snd] in P1, P2. rewrite map_map in G1, G2. cbn [fst] in G1, G2.
  change (map (fun oo => fst oo) (each_with_others l)) with (map fst (each_with_others l)) in G1.
  change (map (fun oo => fst oo) (each_with_others r)) with (map fst (each_with_others r)) in G2. rewrite each_fst in G1, G2.
  destruct (own_lose (l ++ r)) as (lost & P3 & G3). rewrite !flat_map_concat_map.
  set (A := concat (map (fun oo => contribution (fst oo, snd oo ++ x :: r)) (each_with_others l))) in *.
  set (A' := concat (map (fun oo => contribution (fst oo, snd oo ++ x' :: r)) (each_with_others l))) in *.
  set (B := concat (map (fun oo => contribution (fst oo, l ++ x :: snd oo)) (each_with_others r))) in *.
  set (B' := concat (map (fun oo => contribution (fst oo, l ++ x' :: snd oo)) (each_with_others r))) in *.
  exists (A ++ B), (contribution (x', l ++ r)), lost, (g1 ++ g2). split; [|split; [|split; [reflexivity|split; [exact G3|]]]].
  - rewrite P3. rewrite <- !app_assoc. apply Permutation_app_head. rewrite (Permutation_app_comm B). rewrite <- app_assoc. reflexivity.
  - rewrite P1, P2. apply perm_five.
  - intros p z Hp. apply in_app_or in Hp as [Hp|Hp]; [destruct (G1 p z Hp) as (I & y & Y & W)|destruct (G2 p z Hp) as (I & y & Y & W)];
      (split; [exact I|]); exists y; (split; [apply in_or_app; auto|exact W]).
Qed.
End Abstract.

Lemma mapMS_app {A} (g : nat -> A -> res (nat * A)) l r : forall c, mapMS g c (l ++ r) =
  bind (mapMS g c l) (fun a => bind (mapMS g (fst a) r) (fun b => Ok (fst b, snd a ++ snd b))).
Proof.
  induction l as [|x l IH]; intros c; cbn [app mapMS bind fst snd]; [destruct (mapMS g c r) as [[k q]|e]; reflexivity|].
  destruct (g c x) as [[k y]|e]; cbn [bind fst snd]; [|reflexivity]. rewrite IH. destruct (mapMS g k l) as [[k1 ys]|e]; cbn [bind fst snd]; [|reflexivity].
  destruct (mapMS g k1 r) as [[k2 zs]|e]; reflexivity.
Qed.
Lemma rank_populate w c o q k o1 : ob_populate w c o = Ok (k, o1) -> ob_populate w c (with_rank o q) = Ok (k, with_rank o1 q).
Proof.
  destruct o as [[l|p vols ca]|m]; cbn [ob_populate with_rank].
  - cbn [vol_populate]. rewrite leaf_populate_prio. destruct (leaf_populate w c l) as [[j l1]|e]; cbn; [|discriminate]. intros E. injection E as <- <-. reflexivity.
  - cbn [vol_populate]. destruct (mapMS (vol_populate w) c vols) as [[j ps]|e]; cbn [bind fst snd]; [|discriminate].
    destruct (sort_by vol_prio ps); cbn [bind fst snd]; [discriminate|]. intros E. injection E as <- <-. reflexivity.
  - intros E. injection E as <- <-. reflexivity.
Qed.
Lemma rank_same w o q : ob_prio (with_rank o q) = q /\ ob_atoms (with_rank o q) = ob_atoms o /\ ob_species (with_rank o q) = ob_species o /\
  forall p, ob_inside w (with_rank o q) p = ob_inside w o p.
Proof. destruct o as [[l|p vols ca]|m]; repeat split; reflexivity. Qed.
Lemma rank_aligned o q : obj_aligned o -> obj_aligned (with_rank o q).
Proof. destruct o as [[l|p vols ca]|m]; exact (fun H => H). Qed.

(** [o] gets the larger number q.  The scene is populated in the same way (also when random
    generators are among its objects).  Of the atoms, [lost] disappear and [gained] appear: lost are
    atoms of [o] that lie in another object whose number is now no larger but was; gained are atoms
    of other objects that lie in [o], whose number was no larger but is now. *)
Theorem C155_larger_number : forall w c s s' l o r q k t,
  sc_objects s = Some (l ++ o :: r) -> sc_objects s' = Some (l ++ with_rank o q :: r) -> (ob_prio o <= q)%Z ->
  Forall obj_aligned (l ++ o :: r) -> populate w c s = Ok (k, t) ->
  exists t' pl po pr a z a' z' rest lost gained, populate w c s' = Ok (k, t') /\
    populated w l pl /\ populated w [o] [po] /\ populated w r pr /\
    all_atoms t = Ok a /\ all_species t = Ok z /\ all_atoms t' = Ok a' /\ all_species t' = Ok z' /\
    length a = length z /\ length a' = length z' /\
    Permutation (combine a z) (rest ++ lost) /\ Permutation (combine a' z') (rest ++ gained) /\
    (forall p x, In (p, x) lost -> In (p, x) (combine (ob_atoms po) (ob_species po)) /\
       exists y, In y (pl ++ pr) /\ ob_inside w y p = true /\ (ob_prio o < ob_prio y <= q)%Z) /\
    (forall p x, In (p, x) gained -> ob_inside w o p = true /\
       exists y, In y (pl ++ pr) /\ In (p, x) (combine (ob_atoms y) (ob_species y)) /\ (ob_prio o <= ob_prio y < q)%Z).
Proof.
  intros w c s s' l o r q k t E E' HQ AL H.
  destruct (read_populated _ _ _ _ _ H) as (objs & pobjs & E1 & HM & HO & HC & HL & RA & RS).
  { intros objs F. rewrite E in F. injection F as <-. split; [exact AL|]. intros X. destruct l; discriminate. }
  rewrite E in E1. injection E1 as <-. rewrite mapMS_app in HM. inv_bind HM. destruct a as [k1 pl]. inv_bind HM. destruct a as [k2 prs]. injection HM as -> <-.
  cbn [fst snd] in *. cbn [mapMS] in Ha0. inv_bind Ha0. destruct a as [k3 po]. inv_bind Ha0. destruct a as [k4 pr]. cbn [fst snd] in *. injection Ha0 as -> <-.
  pose proof (rank_populate w k1 o q k3 po Ha1) as HR.
  assert (HM' : mapMS (ob_populate w) c (l ++ with_rank o q :: r) = Ok (k, pl ++ with_rank po q :: pr)).
  { rewrite mapMS_app, Ha. cbn [bind fst snd mapMS]. rewrite HR. cbn [bind fst snd]. rewrite Ha2. reflexivity. }
  assert (PT : exists t', populate w c s' = Ok (k, t')).
  { unfold populate. rewrite E', HM'. cbn [bind fst snd]. eauto. }
  destruct PT as [t' H'].
  assert (AL' : Forall obj_aligned (l ++ with_rank o q :: r)).
  { apply Forall_app in AL as [A1 A2]. inversion A2; subst. apply Forall_app. split; [auto|]. constructor; [apply rank_aligned|]; auto. }
  destruct (read_populated _ _ _ _ _ H') as (objs' & pobjs' & E2 & HM2 & HO2 & HC2 & HL2 & RA2 & RS2).
  { intros objs F. rewrite E' in F. injection F as <-. split; [exact AL'|]. intros X. destruct l; discriminate. }
  rewrite E' in E2. injection E2 as <-. rewrite HM' in HM2. injection HM2 as <-.
  destruct (resolve_correct ob_prio ob_atoms ob_species (ob_inside w) (pl ++ po :: pr)) as [P1 P2]; [intros y Hy; apply HL; auto|].
  destruct (resolve_correct ob_prio ob_atoms ob_species (ob_inside w) (pl ++ with_rank po q :: pr)) as [P3 P4]; [intros y Hy; apply HL2; auto|].
  destruct (rank_same w po q) as (S1 & S2 & S3 & S4).
  assert (PP : ob_prio po = ob_prio o) by (apply (ob_populate_prio w _ _ _ _ Ha1)).
  destruct (contents_rank ob_prio ob_atoms ob_species (ob_inside w) po (with_rank po q) S2 S3 S4) with (l := pl) (r := pr) as (kept & own & lost & gained & Q1 & Q2 & _ & G1 & G2).
  { rewrite S1, PP. exact HQ. }
  rewrite S1, PP in G1, G2.
  exists t', pl, po, pr. do 4 eexists. exists (kept ++ own), lost, gained. split; [exact H'|].
  split; [exact (mapMS_Forall2 _ _ _ _ _ Ha)|]. split; [constructor; [eauto|constructor]|]. split; [exact (mapMS_Forall2 _ _ _ _ _ Ha2)|].
  split; [exact RA|]. split; [exact RS|]. split; [exact RA2|]. split; [exact RS2|]. split; [exact P2|]. split; [exact P4|].
  rewrite <- !app_assoc. split; [rewrite P1; exact Q1|]. split; [rewrite P3; exact Q2|]. split; [exact G1|].
  intros p x Hp. destruct (G2 p x Hp) as [I W]. split; [|exact W].
  assert (SI : forall u, ob_inside w po u = ob_inside w o u); [|rewrite <- SI; exact I].
  clear - Ha1. destruct o as [v|m]; cbn [ob_populate] in Ha1; [|injection Ha1 as _ <-; reflexivity].
  inv_bind Ha1. destruct a as [j v']. injection Ha1 as _ <-. destruct (vol_populate_static _ _ _ _ _ Ha) as [_ S]. exact S.
Qed.
(** the void of the demonstration scene takes an atom at number 0 and gives it back at number 2 *)
Example C155_nonvacuous : exists t t', sc_objects demo_scene = Some ([SMol demo_mol] ++ SVol demo_void :: []) /\ (ob_prio (SVol demo_void) <= 2)%Z /\
  populate demo_world 0 demo_scene = Ok (0%nat, t) /\ all_atoms t = Ok [mkV 5 0 0] /\
  populate demo_world 0 (new_scene None [SMol demo_mol; with_rank (SVol demo_void) 2]) = Ok (0%nat, t') /\ all_atoms t' = Ok [mkV 0 0 0; mkV 5 0 0].
Proof.
  do 2 eexists. split; [reflexivity|]. split; [cbn; lia|]. split; [reflexivity|]. split; [unfold all_atoms; demo_eval; reflexivity|].
  split; [reflexivity|]. unfold all_atoms; demo_eval. reflexivity.
Qed.
