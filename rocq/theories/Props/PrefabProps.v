(** Defect prefabs and grain boundaries: C68, C69, C72, C84-C89. *)
From Coq Require Import Reals List ZArith Bool Lra Lia.
From Flocq Require Import Core.Raux Core.Generic_fmt.
From Verif.Model Require Import Base Vec Algebraic Transform Voxel Generator Volume Misc Snap Prefab.
From Verif.Spec Require Import Geometry CrystalSpec AlgSpec PrefabSpec.
From Verif.Proofs Require Import VecFacts AlgFacts VolumeFacts VolTransFacts PrefabFacts.
From Verif.Props Require Import MiscProps TransformProps GeneratorProps.
Import ListNotations.
Open Scope R_scope.

(* ------------------------------------------------------------------ *)
(** * C68 and C69: what any defect prefab builds *)

Lemma below_plane pl p : plane_interior pl p = true <-> below pl p.
Proof. unfold plane_interior, sdist_from_plane, below. rewrite Rltb_iff. replace (dot (vsub p (p_point pl)) (p_normal pl)) with (dot p (p_normal pl) - dot (p_point pl) (p_normal pl)) by (generalize (p_normal pl) (p_point pl); vring). reflexivity. Qed.
Lemma pristine_copy w l l' p : pristine l -> l_alg l' = l_alg l -> l_tol l' = default_vtol ->
  l_tri l' = match l_points l with PArr p => Some p | _ => None end -> leaf_inside w l' p = leaf_inside w l p.
Proof.
  intros P A T TR. rewrite !leaf_inside_eq, A, T, TR. destruct P as [[-> ->]|(pts & -> & -> & ->)]; auto.
Qed.
Lemma nth_rev {A} (l : list A) k : (k < length l)%nat -> nth_error (rev l) k = nth_error l (length l - S k).
Proof.
  intros H. destruct (nth_error l (length l - S k)) as [x|] eqn:E.
  - pose proof (nth_error_nth _ _ x E) as N. rewrite <- N. rewrite nth_error_nth' with (d := x) by (rewrite rev_length; auto).
    f_equal. apply rev_nth; auto.
  - apply nth_error_None in E. lia.
Qed.

(** [grains l N n pt d min_sep count vols defects gens]: N+1 copies of the host l, the
    first whole, the following cut by the defect planes, which are planes number
    s of the evenly spaced stack pt + s d n and are listed from the top down. *)
Record grains (w : world) (l : leaf) (N : Z) (n pt : vec) (d : R) (min_sep count : Z)
       (vols : list volume) (defects : list plane) (gens : list crystal) : Prop := {
  gr_unit : norm n = 1; gr_spacing : 0 < d;
  gr_volumes : Z.of_nat (length vols) = (N + 1)%Z;
  gr_defects : Z.of_nat (length defects) = N;
  gr_gens : length gens = length vols;
  gr_priority : forall k v, nth_error vols k = Some v -> vol_prio v = (N - Z.of_nat k)%Z;
  gr_first : exists v, nth_error vols 0 = Some v /\ forall p, vol_inside w v p = leaf_inside w l p;
  gr_next : forall k pl, nth_error defects k = Some pl -> exists v, nth_error vols (S k) = Some v /\
              forall p, vol_inside w v p = leaf_inside w l p && plane_interior pl p;
  gr_gen : forall k v g, nth_error vols k = Some v -> nth_error gens k = Some g -> exists lk, v = VLeaf lk /\ l_gen lk = Some (GCrystal g);
  gr_stack : forall k pl, nth_error defects k = Some pl -> exists s, (min_sep <= s < count - min_sep)%Z /\
               pl = mkPlane n (vadd pt (vscale (IZR s * d) n)) default_tol;
  gr_order : forall i j a b, (i < j)%nat -> nth_error defects i = Some a -> nth_error defects j = Some b ->
               height b <= height a /\ IZR min_sep * d <= height a - height b }.

Lemma height_level n pt t : norm n = 1 -> forall tol, height (mkPlane n (vadd pt (vscale t n)) tol) = dot pt n + t.
Proof. intros U tol. unfold height. cbn. replace (dot (vadd pt (vscale t n)) n) with (dot pt n + t * dot n n) by vring. rewrite unit_dot by auto. ring. Qed.

Section Build.
Context (w : world) (l : leaf) {Aux : Type} (step : Aux -> crystal -> plane -> res (Aux * transform)).
(** the invariant behind C68, C69 and the theorems on the grains' crystals *)
Lemma build_grains g N ms n pt d m draws aux aux' V :
  (0 <= N)%Z -> (0 <= ms)%Z -> pristine l -> norm n = 1 -> 0 < d ->
  build_defects w l step g N ms (map (level n pt d) (seq 0 (S m))) draws aux = Ok (aux', V) ->
  exists vols defects gens auxs, V = VMulti 0 vols None /\ grains w l N n pt d ms (Z.of_nat (S m)) vols defects gens /\
    nth_error gens 0 = Some g /\ nth_error auxs 0 = Some aux /\ nth_error auxs (length defects) = Some aux' /\
    forall k pl, nth_error defects k = Some pl -> exists gp ap gk ak t, nth_error gens k = Some gp /\ nth_error auxs k = Some ap /\
      nth_error gens (S k) = Some gk /\ nth_error auxs (S k) = Some ak /\ step ap gp pl = Ok (ak, t) /\ crystal_transform gp t = Ok gk.
Proof.
  intros HN HM PR U D H. unfold build_defects in H. set (planes := map (level n pt d) (seq 0 (S m))) in *.
  assert (LP : length planes = S m) by (unfold planes; rewrite map_length, seq_length; auto). rewrite LP in H.
  inv_bind H. inv_bind H. inv_bind H. injection H as E1 E2.
  assert (GS : good_splits N ms (Z.of_nat (S m)) a).
  { destruct (Z.eq_dec N 0) as [->|]; [|eapply C49_splits_separated; eauto; lia]. unfold get_N_splits in Ha. cbn in Ha. injection Ha as <-.
    split; [reflexivity|]. split; [constructor|]. intros i j x y _ Hx. destruct i; discriminate. }
  destruct GS as (GL & GB & GA).
  destruct a1 as [[ax gx] vols]. cbn [fst snd] in *. subst ax V.
  replace N with (Z.of_nat (length a)) in Ha1 at 2. apply loop_ok in Ha1.
  destruct Ha1 as (gens & auxs & ms' & -> & LM & LG & LA & G0 & A0 & GN & AN & M).
  destruct (leaf_copy _ _ _ _ Ha0) as (CA & CP & CG & CT & CPT & CTR).
  set (pick := fun s => level n pt d (Z.to_nat s)). set (defects := map pick (rev a)).
  assert (LD : length defects = length a) by (unfold defects; rewrite map_length, rev_length; auto).
  assert (ND : forall k pl, nth_error defects k = Some pl -> exists s, nth_error a (length a - S k) = Some s /\ (k < length a)%nat /\ pl = pick s).
  { intros k pl Hk. assert (K : (k < length a)%nat) by (rewrite <- LD; apply nth_error_Some; congruence).
    unfold defects in Hk. rewrite nth_error_map, nth_rev in Hk by auto. destruct (nth_error a (length a - S k)) as [s|]; [|discriminate].
    injection Hk as <-. eauto. }
  assert (BD : forall k s, nth_error a k = Some s -> (ms <= s < Z.of_nat (S m) - ms)%Z).
  { intros k s Hk. rewrite Forall_forall in GB. apply GB. eapply nth_error_In; eauto. }
  (* the k-th member after the first *)
  assert (MEM : forall k pl v, nth_error defects k = Some pl -> nth_error ms' k = Some v ->
    exists gp ap gk ak t lk, nth_error gens k = Some gp /\ nth_error auxs k = Some ap /\ nth_error gens (S k) = Some gk /\ nth_error auxs (S k) = Some ak /\
      step ap gp pl = Ok (ak, t) /\ crystal_transform gp t = Ok gk /\ v = VLeaf lk /\ l_gen lk = Some (GCrystal gk) /\ l_prio lk = (N - (Z.of_nat k + 1))%Z /\
      forall p, leaf_inside w lk p = leaf_inside w l p && plane_interior pl p).
  { intros k pl v Hd Hv. destruct (ND k pl Hd) as (s & Hs & K & ->). destruct (M k v Hv) as (gp & ap & gk & ak & M1 & M2 & M3 & M4 & lk & s' & pl & t & pl' & -> & S1 & S2 & ST & CR & NP & LA' & LPR & LGN & LT & LTR).
    apply py_get_pos in S1; [|lia]. rewrite Nat2Z.id, nth_rev in S1 by auto. rewrite Hs in S1. injection S1 as <-.
    pose proof (BD _ _ Hs) as B. apply py_get_pos in S2; [|lia]. unfold planes in S2. rewrite nth_error_map in S2.
    rewrite nth_error_nth' with (d := 0%nat) in S2 by (rewrite seq_length; lia). rewrite seq_nth in S2 by lia. cbn [option_map] in S2. injection S2 as <-.
    cbn [level p_normal p_point] in NP. rewrite new_plane_unit in NP by auto. injection NP as <-.
    exists gp, ap, gk, ak, t, lk. do 9 (split; [assumption || reflexivity|]). intros p.
    rewrite !leaf_inside_eq, LA', forallb_app. cbn [forallb alg_interior]. rewrite andb_true_r, andb_assoc. f_equal.
    rewrite <- leaf_inside_eq. transitivity (leaf_inside w (with_alg lk (l_alg l)) p); [rewrite leaf_inside_eq; reflexivity|].
    apply pristine_copy; auto. }
  exists (VLeaf (with_prio a0 N) :: ms'), defects, gens, auxs. split; [reflexivity|]. split; [constructor|].
  - auto.
  - auto.
  - cbn [length]. lia.
  - lia.
  - cbn [length]. lia.
  - intros [|k] v Hv; cbn [nth_error] in Hv; [injection Hv as <-; cbn; lia|].
    destruct (nth_error defects k) as [pl|] eqn:Hd; [|apply nth_error_None in Hd; assert (k < length ms')%nat by (apply nth_error_Some; congruence); lia].
    destruct (MEM k pl v Hd Hv) as (gp & ap & gk & ak & t & lk & _ & _ & _ & _ & _ & _ & -> & _ & P & _). cbn [vol_prio]. lia.
  - eexists. split; [reflexivity|]. intros p. cbn [vol_inside]. apply pristine_copy; auto.
  - intros k pl Hd. cbn [nth_error]. destruct (nth_error ms' k) as [v|] eqn:Hv; [|apply nth_error_None in Hv; assert (k < length defects)%nat by (apply nth_error_Some; congruence); lia].
    destruct (MEM k pl v Hd Hv) as (gp & ap & gk & ak & t & lk & _ & _ & _ & _ & _ & _ & -> & _ & _ & I). exists (VLeaf lk). auto.
  - intros [|k] v gg Hv Hg; cbn [nth_error] in Hv.
    + injection Hv as <-. rewrite G0 in Hg. injection Hg as <-. eexists. split; [reflexivity|]. exact CG.
    + destruct (nth_error defects k) as [pl|] eqn:Hd; [|apply nth_error_None in Hd; assert (k < length ms')%nat by (apply nth_error_Some; congruence); lia].
      destruct (MEM k pl v Hd Hv) as (gp & ap & gk & ak & t & lk & _ & _ & E & _ & _ & _ & -> & GG & _ & _). rewrite E in Hg. injection Hg as <-. eauto.
  - intros k pl Hd. destruct (ND k pl Hd) as (s & Hs & _ & ->). exists s. pose proof (BD _ _ Hs) as B. split; auto. unfold pick, level.
    rewrite INR_IZR_INZ, Z2Nat.id by lia. reflexivity.
  - intros i j x y IJ Hi Hj. destruct (ND i x Hi) as (si & Hsi & Ki & ->). destruct (ND j y Hj) as (sj & Hsj & Kj & ->).
    destruct (GA (length a - S j)%nat (length a - S i)%nat sj si) as [C1 C2]; auto; [lia|].
    pose proof (BD _ _ Hsi) as Bi. pose proof (BD _ _ Hsj) as Bj. unfold pick, level. rewrite !height_level by auto.
    rewrite !INR_IZR_INZ, !Z2Nat.id by lia. apply IZR_le in C1, C2. rewrite minus_IZR in C2. split; nra.
  - split; [auto|]. split; [auto|]. split; [rewrite LD; auto|].
    intros k pl Hd. destruct (nth_error ms' k) as [v|] eqn:Hv; [|apply nth_error_None in Hv; assert (k < length defects)%nat by (apply nth_error_Some; congruence); lia].
    destruct (MEM k pl v Hd Hv) as (gp & ap & gk & ak & t & lk & Q1 & Q2 & Q3 & Q4 & Q5 & Q6 & _). exists gp, ap, gk, ak, t. auto 10.
Qed.
End Build.

Lemma grains_below w l N n pt d ms c vols defects gens : (0 <= ms)%Z -> grains w l N n pt d ms c vols defects gens ->
  forall i j a b p, (i < j)%nat -> nth_error defects i = Some a -> nth_error defects j = Some b -> below b p -> below a p.
Proof.
  intros HM G i j a b p IJ Hi Hj B. destruct (gr_order _ _ _ _ _ _ _ _ _ _ _ G _ _ _ _ IJ Hi Hj) as [H _].
  destruct (gr_stack _ _ _ _ _ _ _ _ _ _ _ G _ _ Hi) as (s1 & _ & ->). destruct (gr_stack _ _ _ _ _ _ _ _ _ _ _ G _ _ Hj) as (s2 & _ & ->).
  unfold below, height in *. cbn [p_point p_normal p_tol] in *.
  assert (E : forall x, dot (vsub p x) n = dot p n - dot x n) by (intros; vring). rewrite E in *. lra.
Qed.
Lemma grains_serves w l N n pt d ms c vols defects gens : (0 <= ms)%Z -> grains w l N n pt d ms c vols defects gens ->
  forall p k, serves w vols k p <-> leaf_inside w l p = true /\ lowest_above defects p k.
Proof.
  intros HM G p. pose proof (gr_volumes _ _ _ _ _ _ _ _ _ _ _ G) as LV. pose proof (gr_defects _ _ _ _ _ _ _ _ _ _ _ G) as LD.
  destruct (gr_first _ _ _ _ _ _ _ _ _ _ _ G) as (v0' & V0 & I0). pose proof (gr_next _ _ _ _ _ _ _ _ _ _ _ G) as NX. pose proof (gr_priority _ _ _ _ _ _ _ _ _ _ _ G) as PRI.
  assert (AT : forall k v, nth_error vols (S k) = Some v -> exists pl, nth_error defects k = Some pl /\ forall q, vol_inside w v q = leaf_inside w l q && plane_interior pl q).
  { intros k v Hv. assert (K : (S k < length vols)%nat) by (apply nth_error_Some; congruence).
    destruct (nth_error defects k) as [pl|] eqn:Hd; [|apply nth_error_None in Hd; lia]. destruct (NX k pl Hd) as (v' & Hv' & I). exists pl. split; auto. congruence. }
  assert (OUT : forall b, b = false <-> ~ b = true) by (intros []; split; congruence).
  intros k. split.
  - intros (v & Hv & IN & REST). assert (HI : leaf_inside w l p = true).
    { destruct k; [rewrite V0 in Hv; injection Hv as <-; rewrite <- I0; auto|]. destruct (AT _ _ Hv) as (pl & _ & I). rewrite I in IN. apply andb_prop in IN. tauto. }
    split; auto. destruct k as [|k].
    + intros pl Hin B. apply In_nth_error in Hin. destruct Hin as [i Hi]. destruct (NX i pl Hi) as (u & Hu & I).
      specialize (REST (S i) u ltac:(lia) Hu). rewrite (PRI _ _ Hv), (PRI _ _ Hu) in REST. specialize (REST ltac:(lia)). rewrite I, HI in REST. cbn in REST.
      apply below_plane in B. congruence.
    + destruct (AT _ _ Hv) as (pl & Hd & I). exists pl. split; auto. rewrite I, HI in IN. cbn in IN. apply below_plane in IN. split; auto.
      intros i pl' Hi B. destruct (le_lt_dec i k) as [L|L].
      * split; [|lia]. destruct (Nat.eq_dec i k) as [->|]; [replace pl' with pl by congruence; lra|].
        apply (gr_order _ _ _ _ _ _ _ _ _ _ _ G i k pl' pl); auto. lia.
      * exfalso. destruct (NX i pl' Hi) as (u & Hu & I').
        specialize (REST (S i) u ltac:(lia) Hu). rewrite (PRI _ _ Hv), (PRI _ _ Hu) in REST. specialize (REST ltac:(lia)). rewrite I', HI in REST. cbn in REST. apply below_plane in B. congruence.
  - intros [HI LA]. destruct k as [|k].
    + exists v0'. split; auto. split; [rewrite I0; auto|]. intros [|j] u J Hu _; [lia|]. destruct (AT _ _ Hu) as (pl & Hd & I). rewrite I, HI. cbn.
      apply OUT. rewrite below_plane. apply LA. eapply nth_error_In; eauto.
    + destruct LA as (pl & Hd & B & LOW). destruct (NX k pl Hd) as (v & Hv & I). exists v. split; auto. split; [rewrite I, HI; cbn; apply below_plane; auto|].
      intros j u J Hu P. rewrite (PRI _ _ Hu), (PRI _ _ Hv) in P. destruct j as [|j]; [lia|]. destruct (AT _ _ Hu) as (pl' & Hd' & I'). rewrite I', HI. cbn.
      apply OUT. rewrite below_plane. intros B'. destruct (LOW _ _ Hd' B') as [_ L]. lia.
Qed.
(** exactly one grain serves each point of the host *)
Lemma lowest_unique defects p j k : lowest_above defects p j -> lowest_above defects p k -> j = k.
Proof.
  destruct j as [|j], k as [|k]; auto.
  - intros A (pl & H & B & _). exfalso. eapply A; eauto. eapply nth_error_In; eauto.
  - intros (pl & H & B & _) A. exfalso. eapply A; eauto. eapply nth_error_In; eauto.
  - intros (pl & H & B & L) (pl' & H' & B' & L'). destruct (L _ _ H' B'), (L' _ _ H B). f_equal. lia.
Qed.
Lemma lowest_exists w l N n pt d ms c vols defects gens p : (0 <= ms)%Z -> grains w l N n pt d ms c vols defects gens -> exists k, lowest_above defects p k.
Proof.
  intros HM G. assert (DEC : forall pl, below pl p \/ ~ below pl p) by (intros; unfold below; destruct (Rlt_dec (dot (vsub p (p_point pl)) (p_normal pl)) (p_tol pl)); auto).
  assert (Q : forall m, (m <= length defects)%nat -> (forall i pl, (i < m)%nat -> nth_error defects i = Some pl -> ~ below pl p) \/
     exists j pl, (j < m)%nat /\ nth_error defects j = Some pl /\ below pl p /\ forall i pl', (i < m)%nat -> nth_error defects i = Some pl' -> below pl' p -> (i <= j)%nat).
  { induction m as [|m IH]; intros L; [left; intros; lia|]. destruct (nth_error defects m) as [pl|] eqn:E; [|apply nth_error_None in E; lia].
    destruct (DEC pl) as [B|B].
    - right. exists m, pl. split; [lia|]. split; auto. split; auto. intros; lia.
    - destruct IH as [IH|(j & pj & J & H & Bj & LO)]; [lia| |].
      + left. intros i pl' I Hi. destruct (Nat.eq_dec i m) as [->|]; [congruence|]. apply (IH i); auto. lia.
      + right. exists j, pj. split; [lia|]. split; auto. split; auto. intros i pl' I Hi Bi. destruct (Nat.eq_dec i m) as [->|]; [congruence|]. eapply LO; eauto. lia. }
  destruct (Q _ (le_n _)) as [A|(j & pl & J & H & B & LO)].
  - exists 0%nat. intros pl Hin. apply In_nth_error in Hin. destruct Hin as [i Hi]. eapply A; eauto. apply nth_error_Some; congruence.
  - exists (S j), pl. split; auto. split; auto. intros i pl' Hi Bi. assert (I : (i <= j)%nat) by (eapply LO; eauto; apply nth_error_Some; congruence). split; auto.
    destruct (Nat.eq_dec i j) as [->|]; [replace pl' with pl by congruence; lra|]. apply (gr_order _ _ _ _ _ _ _ _ _ _ _ G i j pl' pl); auto. lia.
Qed.
Lemma grains_inside w l N n pt d ms c vols defects gens : (0 <= ms)%Z -> grains w l N n pt d ms c vols defects gens ->
  forall p, vol_inside w (VMulti 0 vols None) p = leaf_inside w l p.
Proof.
  intros HM G p. cbn [vol_inside]. destruct (gr_first _ _ _ _ _ _ _ _ _ _ _ G) as (v0' & V0 & I0). destruct (leaf_inside w l p) eqn:E.
  - apply existsb_exists. exists v0'. split; [eapply nth_error_In; eauto|rewrite I0; auto].
  - apply not_true_iff_false. intros X. apply existsb_exists in X. destruct X as (v & Hin & IN). apply In_nth_error in Hin. destruct Hin as [k Hk].
    destruct k as [|k]; [rewrite V0 in Hk; injection Hk as <-; congruence|]. assert (K : (S k < length vols)%nat) by (apply nth_error_Some; congruence).
    pose proof (gr_volumes _ _ _ _ _ _ _ _ _ _ _ G). pose proof (gr_defects _ _ _ _ _ _ _ _ _ _ _ G).
    destruct (nth_error defects k) as [pl|] eqn:Hd; [|apply nth_error_None in Hd; lia]. destruct (gr_next _ _ _ _ _ _ _ _ _ _ _ G k pl Hd) as (v' & Hv' & I).
    rewrite Hk in Hv'. injection Hv' as <-. rewrite I, E in IN. discriminate.
Qed.

(** what C68 says of a group of grains *)
Definition partitions (w : world) (l : leaf) (N : Z) (V : volume) : Prop :=
  exists vols defects, V = VMulti 0 vols None /\
    Z.of_nat (length vols) = (N + 1)%Z /\ Z.of_nat (length defects) = N /\
    (* priorities N, N-1, ..., 0 *)
    (forall k v, nth_error vols k = Some v -> vol_prio v = (N - Z.of_nat k)%Z) /\
    (* the defect planes are parallel and listed from the top down *)
    (exists n, norm n = 1 /\ Forall (fun pl => p_normal pl = n) defects) /\
    (forall i j a b, (i < j)%nat -> nth_error defects i = Some a -> nth_error defects j = Some b -> height b <= height a) /\
    (* same interior as the host *)
    (forall p, vol_inside w V p = vol_inside w (VLeaf l) p) /\
    (* a position is provided by at most one grain: the host's, with the lowest plane above *)
    (forall p k, serves w vols k p <-> vol_inside w (VLeaf l) p = true /\ lowest_above defects p k) /\
    (forall p, vol_inside w (VLeaf l) p = true -> exists! k, serves w vols k p).
Lemma grains_partition w l N n pt d ms c vols defects gens : (0 <= ms)%Z -> grains w l N n pt d ms c vols defects gens ->
  partitions w l N (VMulti 0 vols None).
Proof.
  intros HM G. exists vols, defects. split; auto. split; [apply (gr_volumes _ _ _ _ _ _ _ _ _ _ _ G)|]. split; [apply (gr_defects _ _ _ _ _ _ _ _ _ _ _ G)|].
  split; [apply (gr_priority _ _ _ _ _ _ _ _ _ _ _ G)|]. split.
  { exists n. split; [apply (gr_unit _ _ _ _ _ _ _ _ _ _ _ G)|]. apply Forall_forall. intros pl Hin. apply In_nth_error in Hin. destruct Hin as [i Hi].
    destruct (gr_stack _ _ _ _ _ _ _ _ _ _ _ G _ _ Hi) as (s & _ & ->). reflexivity. }
  split; [intros i j x y IJ Hi Hj; apply (gr_order _ _ _ _ _ _ _ _ _ _ _ G i j x y IJ Hi Hj)|].
  split; [exact (grains_inside _ _ _ _ _ _ _ _ _ _ _ HM G)|]. pose proof (grains_serves _ _ _ _ _ _ _ _ _ _ _ HM G) as SV. split; [exact SV|].
  intros p HI. destruct (lowest_exists _ _ _ _ _ _ _ _ _ _ _ p HM G) as [k Hk]. exists k. split; [apply SV; auto|]. intros j Hj. apply SV in Hj. eapply lowest_unique; eauto. tauto.
Qed.

(** A host with points must carry the default tolerance: from_volume drops it. *)
Theorem C68_fcc_partition_partial : forall w g l N min_sep h ratio draws us aux V,
  (0 <= N)%Z -> (0 <= min_sep)%Z -> pristine l ->
  fcc_build w g (VLeaf l) N min_sep h ratio draws us = Ok (aux, V) -> partitions w l N V.
Proof.
  intros w g l N ms h ratio draws us aux V HN HM PR H. unfold fcc_build in H. inv_bind H. inv_bind H.
  destruct (plane_stack_levels _ _ _ _ _ Ha0) as (n & pt & d & m & U & D & _ & ->).
  destruct (build_grains w l _ g N ms n pt d m draws _ _ V HN HM PR U D H) as (vols & defects & gens & auxs & -> & G & _). eapply grains_partition; eauto.
Qed.
Theorem C68_wurtzite_partition_partial : forall w g l N min_sep draws V,
  (0 <= N)%Z -> (0 <= min_sep)%Z -> pristine l ->
  wz_build w g (VLeaf l) N min_sep draws = Ok V -> partitions w l N V.
Proof.
  intros w g l N ms draws V HN HM PR H. unfold wz_build in H. inv_bind H. inv_bind H. inv_bind H. inv_bind H. injection H as <-. destruct a2 as [aux V].
  destruct (plane_stack_levels _ _ _ _ _ Ha1) as (n & pt & d & m & U & D & _ & ->).
  destruct (build_grains w l _ g N ms n pt d m draws _ _ V HN HM PR U D Ha2) as (vols & defects & gens & auxs & -> & G & _). eapply grains_partition; eauto.
Qed.

(** what C69 says: the surface added to member k+1 is a plane of the stack
    pt, pt + d n, ..., pt + (count-1) d n with d the interplanar spacing, and any two
    are at least min_sep d apart *)
Definition separated_stack (w : world) (l : leaf) (d : R) (min_sep : Z) (V : volume) : Prop :=
  exists vols n pt count index, V = VMulti 0 vols None /\ norm n = 1 /\ 0 < d /\
    (forall k, (S k < length vols)%nat -> (min_sep <= index k < count - min_sep)%Z /\
       exists v, nth_error vols (S k) = Some v /\
         forall p, vol_inside w v p = true <-> vol_inside w (VLeaf l) p = true /\ below (mkPlane n (vadd pt (vscale (IZR (index k) * d) n)) default_tol) p) /\
    (forall i j, (i < j)%nat -> (S j < length vols)%nat -> (min_sep <= index i - index j)%Z).
Lemma grains_separated w l N n pt d ms c vols defects gens : (0 <= ms)%Z -> grains w l N n pt d ms c vols defects gens ->
  separated_stack w l d ms (VMulti 0 vols None).
Proof.
  intros HM G. pose proof (gr_volumes _ _ _ _ _ _ _ _ _ _ _ G) as LV. pose proof (gr_defects _ _ _ _ _ _ _ _ _ _ _ G) as LD.
  pose proof (gr_spacing _ _ _ _ _ _ _ _ _ _ _ G) as D. pose proof (gr_unit _ _ _ _ _ _ _ _ _ _ _ G) as U.
  assert (CH : forall m, (m <= length defects)%nat -> exists index, forall k, (k < m)%nat -> (ms <= index k < c - ms)%Z /\ nth_error defects k = Some (mkPlane n (vadd pt (vscale (IZR (index k) * d) n)) default_tol)).
  { induction m as [|m IH]; intros L; [exists (fun _ => 0%Z); intros; lia|]. destruct IH as [ix IH]; [lia|].
    destruct (nth_error defects m) as [pl|] eqn:E; [|apply nth_error_None in E; lia]. destruct (gr_stack _ _ _ _ _ _ _ _ _ _ _ G _ _ E) as (s & B & ->).
    exists (fun k => if Nat.eqb k m then s else ix k). intros k K. destruct (Nat.eqb_spec k m) as [->|]; [auto|]. apply IH. lia. }
  destruct (CH _ (le_n _)) as [ix IX]. exists vols, n, pt, c, ix. split; auto. split; auto. split; auto. split.
  - intros k K. destruct (IX k) as [B E]; [lia|]. split; auto. destruct (gr_next _ _ _ _ _ _ _ _ _ _ _ G _ _ E) as (v & Hv & I). exists v. split; auto.
    intros p. rewrite I, andb_true_iff, below_plane. reflexivity.
  - intros i j IJ J. destruct (IX i) as [Bi Ei]; [lia|]. destruct (IX j) as [Bj Ej]; [lia|].
    destruct (gr_order _ _ _ _ _ _ _ _ _ _ _ G _ _ _ _ IJ Ei Ej) as [_ O]. rewrite !height_level in O by auto.
    apply le_IZR. rewrite minus_IZR. nra.
Qed.
Lemma d_hkl_interplanar st h d : d_hkl st h = Ok d <-> interplanar st h d.
Proof.
  destruct h as [[a b] c]. unfold d_hkl, inv, interplanar. destruct (Reqb (det (st_matrix st)) 0) eqn:E.
  - apply Reqb_iff in E. split; [discriminate|intros [N _]; contradiction].
  - apply Reqb_false in E. cbn [bind vec_of]. split.
    + intros H. injection H as <-. split; auto. exists (mv (minv (st_matrix st)) (mkV (IZR a) (IZR b) (IZR c))). split; auto. apply mv_minv_r; auto.
    + intros (_ & G & HG & ->). rewrite <- HG, mv_minv_l by auto. reflexivity.
Qed.
Theorem C69_fcc_planes_separated : forall w g l N min_sep h ratio draws us aux V,
  (0 <= N)%Z -> (0 <= min_sep)%Z -> pristine l ->
  fcc_build w g (VLeaf l) N min_sep h ratio draws us = Ok (aux, V) ->
  exists d, interplanar (g_structure g) h d /\ separated_stack w l d min_sep V.
Proof.
  intros w g l N ms h ratio draws us aux V HN HM PR H. unfold fcc_build in H. inv_bind H. inv_bind H.
  destruct (plane_stack_levels _ _ _ _ _ Ha0) as (n & pt & d & m & U & D & E & ->). exists d. split; [apply d_hkl_interplanar; auto|].
  destruct (build_grains w l _ g N ms n pt d m draws _ _ V HN HM PR U D H) as (vols & defects & gens & auxs & -> & G & _). eapply grains_separated; eauto.
Qed.
Theorem C69_wurtzite_planes_separated : forall w g l N min_sep draws V,
  (0 <= N)%Z -> (0 <= min_sep)%Z -> pristine l ->
  wz_build w g (VLeaf l) N min_sep draws = Ok V ->
  exists d, interplanar (g_structure g) (0, 0, 2)%Z d /\ separated_stack w l d min_sep V.
Proof.
  intros w g l N ms draws V HN HM PR H. unfold wz_build in H. inv_bind H. inv_bind H. inv_bind H. inv_bind H. injection H as <-. destruct a2 as [aux V].
  destruct (plane_stack_levels _ _ _ _ _ Ha1) as (n & pt & d & m & U & D & E & ->). exists d. split; [apply d_hkl_interplanar; auto|].
  destruct (build_grains w l _ g N ms n pt d m draws _ _ V HN HM PR U D Ha2) as (vols & defects & gens & auxs & -> & G & _). eapply grains_separated; eauto.
Qed.

(* ------------------------------------------------------------------ *)
(** * C84: the prefab is built whenever the request fits *)

(** hosts that can be copied: no points, or at least four points that scipy can
    triangulate *)
Definition copyable (w : world) (l : leaf) : Prop :=
  l_points l = PNone \/ exists p, l_points l = PArr p /\ (3 < length p)%nat /\ w_qhull w p = true.
Lemma build_total w l {Aux} (step : Aux -> crystal -> plane -> res (Aux * transform)) (J : nat -> Aux -> crystal -> Prop) g N ms n pt d m draws aux splits :
  (0 <= N)%Z -> (0 <= ms)%Z -> copyable w l -> norm n = 1 ->
  get_N_splits N ms (Z.of_nat (S m)) draws = Ok splits -> J 0%nat aux g ->
  (forall k ax gx pl, (Z.of_nat k < N)%Z -> norm (p_normal pl) = 1 -> J k ax gx -> exists ax' t gx', step ax gx pl = Ok (ax', t) /\ crystal_transform gx t = Ok gx' /\ J (S k) ax' gx') ->
  exists aux' V, build_defects w l step g N ms (map (level n pt d) (seq 0 (S m))) draws aux = Ok (aux', V).
Proof.
  intros HN HM HC U SP J0 ST. unfold build_defects. set (planes := map (level n pt d) (seq 0 (S m))).
  assert (LP : length planes = S m) by (unfold planes; rewrite map_length, seq_length; auto). rewrite LP, SP. cbn [bind].
  assert (GS : good_splits N ms (Z.of_nat (S m)) splits).
  { destruct (Z.eq_dec N 0) as [->|]; [|eapply C49_splits_separated; eauto; lia]. unfold get_N_splits in SP. cbn in SP. injection SP as <-.
    split; [reflexivity|]. split; [constructor|]. intros i j x y _ Hx. destruct i; discriminate. }
  destruct GS as (GL & GB & _). destruct (leaf_copy_total w l (GCrystal g) HC) as [v0' E0]. rewrite E0. cbn [bind].
  assert (L : forall k, (Z.of_nat k <= N)%Z -> exists ax gx vols, foldM (defect_pass w l step N (rev splits) planes) (zrange 0 (Z.of_nat k)) (aux, g, [VLeaf (with_prio v0' N)]) = Ok (ax, gx, vols) /\ J k ax gx).
  { induction k as [|k IH]; intros K; [cbn; eauto|]. destruct IH as (ax & gx & vols & E & Jk); [lia|]. rewrite zrange_S, foldM_app, E. cbn [bind foldM].
    assert (KL : (k < length splits)%nat) by lia. destruct (nth_error splits (length splits - S k)) as [s|] eqn:Es; [|apply nth_error_None in Es; lia].
    assert (B : (ms <= s < Z.of_nat (S m) - ms)%Z) by (rewrite Forall_forall in GB; apply GB; eapply nth_error_In; eauto).
    set (pl := level n pt d (Z.to_nat s)). destruct (ST k ax gx pl ltac:(lia) U Jk) as (ax' & t & gx' & S1 & S2 & S3).
    unfold defect_pass. rewrite (proj2 (py_get_pos (rev splits) (Z.of_nat k) s ltac:(lia))) by (rewrite Nat2Z.id, nth_rev by auto; auto). cbn [bind].
    assert (PL : nth_error planes (Z.to_nat s) = Some pl).
    { unfold planes. rewrite nth_error_map, nth_error_nth' with (d := 0%nat) by (rewrite seq_length; lia). rewrite seq_nth by lia. reflexivity. }
    rewrite (proj2 (py_get_pos planes s pl ltac:(lia)) PL). cbn [bind]. rewrite S1. cbn [bind fst snd]. rewrite S2. cbn [bind].
    destruct (leaf_copy_total w l (GCrystal gx') HC) as [nv Env]. rewrite Env. cbn [bind]. unfold pl, level at 1. cbn [p_normal p_point level]. rewrite new_plane_unit by auto. cbn [bind].
    eexists _, _, _. split; [reflexivity|]. exact S3. }
  destruct (L (Z.to_nat N)) as (ax & gx & vols & E & _); [lia|]. rewrite Z2Nat.id in E by lia. rewrite E. cbn [bind]. eauto.
Qed.
Lemma plane_stack_total g h s f : g_strain g = None -> det (basis_of g) <> 0 -> det (st_matrix (g_structure g)) <> 0 ->
  eps < norm (mv (mt (minv (basis_of g))) (vec_of h)) -> exists n pt d m, norm n = 1 /\ 0 < d /\ plane_stack g h s f = Ok (map (level n pt d) (seq 0 (S m))).
Proof.
  intros HS HB HD HE. assert (HE' : eps < norm (mv (mt (minv (basis_of g))) (miller_vec h))) by (destruct h as [[? ?] ?]; exact HE).
  destruct (snap_plane_total s g h Floor HS HB HE') as [sp Es]. destruct (snap_plane_total f g h Ceil HS HB HE') as [ep Ee].
  assert (EX : exists planes, plane_stack g h s f = Ok planes).
  { unfold plane_stack. rewrite Es, Ee. cbn [bind]. unfold d_hkl, inv. rewrite (proj2 (Reqb_false _ _) HD). cbn [bind].
    destruct (snap_plane_form _ _ _ _ _ Es) as (U & T & _). set (k := Z.to_nat _). set (dd := / norm _).
    destruct (stack_planes_levels (p_normal sp) dd U k (p_point sp) sp) as (rest & E & _); auto. rewrite E. cbn [bind]. eauto. }
  destruct EX as [planes E]. destruct (plane_stack_levels _ _ _ _ _ E) as (n & pt & d & m & U & D & _ & ->). exists n, pt, d, m. auto.
Qed.
Lemma det_reflection n : dot n n = 1 -> det (reflection_matrix n) = -1.
Proof.
  intros H. unfold reflection_matrix. rewrite H. replace (2 / 1) with 2 by field.
  transitivity (1 - 2 * dot n n); [clear H; vring|rewrite H; ring].
Qed.
Lemma fcc_step_total h ratio N k ax gx pl : (Z.of_nat k < N)%Z -> norm (p_normal pl) = 1 ->
  ((N - Z.of_nat k <= Z.of_nat (length (fa_draws ax)))%Z /\ det (vo_bases (g_voxel gx)) <> 0) ->
  exists ax' t gx', fcc_step h ratio ax gx pl = Ok (ax', t) /\ crystal_transform gx t = Ok gx' /\
    (N - Z.of_nat (S k) <= Z.of_nat (length (fa_draws ax')))%Z /\ det (vo_bases (g_voxel gx')) <> 0.
Proof.
  intros K U [L D]. unfold fcc_step. destruct (fa_draws ax) as [|u us]; [cbn in L; lia|]. cbn [length] in L. apply unit_dot in U.
  assert (D' : det (mm (reflection_matrix (p_normal pl)) (vo_bases (g_voxel gx))) <> 0) by (rewrite det_mm, det_reflection by auto; lra).
  destruct (Rltb u ratio); eexists _, _, _; (split; [reflexivity|]); unfold crystal_transform, set_bases; cbn [apply_bases basis_only];
    rewrite check_bases_det by assumption; cbn [bind]; (split; [reflexivity|]); cbn [fa_draws g_voxel set_vorigin vo_bases]; (split; [lia|assumption]).
Qed.
Lemma fcc_builds_stack : forall w g l N min_sep h ratio us start finish planes,
  (1 <= N)%Z -> (0 <= min_sep)%Z -> copyable w l -> (N <= Z.of_nat (length us))%Z ->
  g_strain g = None -> det (vo_bases (g_voxel g)) <> 0 ->
  let nv := mv (vo_bases (g_voxel g)) (vec_of h) in
  extremes (vscale (/ norm nv) nv) (get_bounding_box w l) (l_alg l) = Ok (start, finish) ->
  plane_stack g h start finish = Ok planes ->
  (* the host is tall enough: N planes min_sep apart, min_sep away from both ends *)
  ((N - 1) * min_sep < Z.of_nat (length planes) - 2 * min_sep)%Z ->
  forall prefix, exists rest aux V, fcc_build w g (VLeaf l) N min_sep h ratio (prefix ++ rest) us = Ok (aux, V).
Proof.
  intros w g l N ms h ratio us s f planes HN HM HC HU HS HD nv EX PS FIT prefix.
  destruct (plane_stack_levels _ _ _ _ _ PS) as (n & pt & d & m & U & D & _ & EQ).
  destruct (C50_splits_terminate_partial N ms (Z.of_nat (length planes)) HN) as (P & _). destruct (P ltac:(nia) prefix) as (rest & out & E).
  exists rest. unfold fcc_build. fold nv. rewrite EX. cbn [bind fst snd]. rewrite PS. cbn [bind].
  subst planes. rewrite map_length, seq_length in E.
  apply (build_total w l (fcc_step h ratio) (fun k ax gx => (N - Z.of_nat k <= Z.of_nat (length (fa_draws ax)))%Z /\ det (vo_bases (g_voxel gx)) <> 0) g N ms n pt d m (prefix ++ rest) (mkAux us 1 false false) out); auto; [lia|cbn; split; [lia|auto]|].
  intros. eapply fcc_step_total; eauto.
Qed.

(* the ends of the stack *)
Lemma arg_first_spec better (f : vec -> R) p ps :
  (forall x, better x x = false) ->
  (forall a b c, better a b = false -> better b c = false -> better a c = false) ->
  (forall a b, better a b = true -> better b a = false) ->
  In (arg_first better f p ps) (p :: ps) /\ forall q, In q (p :: ps) -> better (f q) (f (arg_first better f p ps)) = false.
Proof.
  intros I TR AS. unfold arg_first. revert p. induction ps as [|x ps IH]; intros p; cbn [fold_left]; [split; [left; auto|]; intros q [->|[]]; apply I|].
  destruct (IH (if better (f x) (f p) then x else p)) as [A B]. split; [destruct A as [E|A]; [|right; right; auto]; rewrite <- E; destruct (better (f x) (f p)); cbn; auto|].
  assert (B0 := B _ (or_introl eq_refl)). set (r := fold_left _ ps _) in *.
  intros q [->|[->|Hq]]; [| |apply B; right; auto].
  - destruct (better (f x) (f q)) eqn:E; [eapply TR; [|exact B0]; apply AS; auto|auto].
  - destruct (better (f q) (f p)) eqn:E; [auto|eapply TR; [exact E|exact B0]].
Qed.
Lemma low_first f p ps : In (arg_first Rltb f p ps) (p :: ps) /\ forall q, In q (p :: ps) -> f (arg_first Rltb f p ps) <= f q.
Proof.
  destruct (arg_first_spec Rltb f p ps) as [A B].
  - intros. apply Rltb_false. lra.
  - intros a b c. rewrite !Rltb_false. lra.
  - intros a b. rewrite Rltb_iff, Rltb_false. lra.
  - split; auto. intros q Hq. specialize (B q Hq). apply Rltb_false in B. lra.
Qed.
Lemma high_first f p ps : let m := arg_first (fun x y => Rltb y x) f p ps in In m (p :: ps) /\ forall q, In q (p :: ps) -> f q <= f m.
Proof.
  cbv zeta. destruct (arg_first_spec (fun x y => Rltb y x) f p ps) as [A B].
  - intros. apply Rltb_false. lra.
  - intros a b c. rewrite !Rltb_false. lra.
  - intros a b. rewrite Rltb_iff, Rltb_false. lra.
  - split; auto. intros q Hq. specialize (B q Hq). apply Rltb_false in B. lra.
Qed.
Lemma sphere_last l : (forall s, ~ In (ASphere s) l) \/ exists pre s post, l = pre ++ ASphere s :: post /\ forall s', ~ In (ASphere s') post.
Proof.
  induction l as [|a l IH]; [left; intros s []|]. destruct IH as [N|(pre & s & post & -> & N)].
  - destruct a as [s|p|c]; [right; exists [], s, l; split; [reflexivity|exact N]|left; intros s [E|H]; [discriminate|exact (N _ H)]..].
  - right. exists (a :: pre), s, post. auto.
Qed.
Lemma fold_nosphere nv l se : (forall s, ~ In (ASphere s) l) ->
  fold_left (fun se a => match a with ASphere s => (vscale (-1 * s_radius s) nv, vscale (s_radius s) nv) | _ => se end) l se = se.
Proof.
  revert se. induction l as [|a l IH]; intros se N; auto. cbn [fold_left]. destruct a as [s|p|c]; [exfalso; eapply N; left; reflexivity|..]; apply IH; intros s' H; eapply N; right; eauto.
Qed.
(** a host with points, or with a sphere *)
Definition bounded_host (l : leaf) : Prop :=
  (exists p ps, l_points l = PArr (p :: ps)) \/ (l_points l = PNone /\ exists s, In (ASphere s) (l_alg l)).
Lemma host_box w l : bounded_host l -> exists p ps, get_bounding_box w l = BArr (p :: ps) /\ forall q qs, l_points l = PArr (q :: qs) -> p = q /\ ps = qs.
Proof.
  intros [(p & ps & E)|(E & s & Hs)]; unfold get_bounding_box; rewrite E; [exists p, ps; split; auto; intros q qs H; injection H as -> ->; auto|].
  destruct (spheres_of (l_alg l)) as [|x xs] eqn:ES; [|cbn; eexists _, _; split; [reflexivity|discriminate]].
  exfalso. assert (H : In s (spheres_of (l_alg l))) by (apply in_flat_map; exists (ASphere s); split; [auto|left; auto]). rewrite ES in H. contradiction.
Qed.
Lemma extremes_ends w l n : bounded_host l -> exists lo hi, extremes n (get_bounding_box w l) (l_alg l) = Ok (lo, hi) /\ ends n l lo hi.
Proof.
  intros H. destruct (host_box w l H) as (p & ps & B & BP). rewrite B. unfold extremes. cbn [bind].
  destruct (sphere_last (l_alg l)) as [N|(pre & s & post & E & N)].
  - rewrite fold_nosphere by auto. eexists _, _. split; [reflexivity|]. destruct H as [(q & qs & E)|(_ & s & Hs)]; [|exfalso; eapply N; eauto].
    destruct (BP q qs E) as [-> ->]. destruct (low_first (dot n) q qs) as [L1 L2]. destruct (high_first (dot n) q qs) as [H1 H2].
    eapply ends_points; eauto.
  - rewrite E, fold_left_app. cbn [fold_left]. rewrite fold_nosphere by auto. eexists _, _. split; [reflexivity|].
    replace (-1 * s_radius s) with (- s_radius s) by ring. eapply ends_sphere; eauto. destruct H as [H|[H _]]; auto.
Qed.
(** An unstrained crystal and a family of planes it really has: the lattice is not flat
    and the reciprocal vector of the planes is not too short for Plane to accept. *)
Definition usable_planes (g : crystal) (h : Z * Z * Z) : Prop :=
  g_strain g = None /\ det (basis_of g) <> 0 /\ det (vo_bases (g_voxel g)) <> 0 /\ det (st_matrix (g_structure g)) <> 0 /\
  exists G, mv (mt (basis_of g)) G = vec_of h /\ eps < norm G.
Lemma Rdiv_le_pos a b : 0 <= a -> 0 < b -> 0 <= a / b.
Proof. intros. apply Rmult_le_pos; auto. left. apply Rinv_0_lt_compat; auto. Qed.
Lemma stack_counted g h lo hi : usable_planes g h -> exists count, stack_count g h lo hi count /\ (1 <= count)%Z /\
  exists planes, plane_stack g h lo hi = Ok planes /\ Z.of_nat (length planes) = count.
Proof.
  intros (HS & HB & HV & HD & G & HG & HE).
  assert (E1 : mv (mt (minv (basis_of g))) (vec_of h) = G).
  { rewrite <- HG. transitivity (mv (mt (mm (basis_of g) (minv (basis_of g)))) G); [vring|]. rewrite minv_r by auto. vring. }
  assert (HE' : eps < norm (mv (mt (minv (basis_of g))) (miller_vec h))) by (destruct h as [[? ?] ?]; cbn in *; rewrite E1; exact HE).
  destruct (snap_plane_total lo g h Floor HS HB HE') as [sp Es]. destruct (snap_plane_total hi g h Ceil HS HB HE') as [ep Ee].
  assert (ED : exists d, d_hkl (g_structure g) h = Ok d) by (unfold d_hkl, inv; rewrite (proj2 (Reqb_false _ _) HD); cbn; eauto). destruct ED as [d ED].
  destruct (snap_plane_form _ _ _ _ _ Es) as (U & T & NZ). pose proof (d_hkl_pos _ _ _ ED NZ) as DP.
  assert (POS : (0 <= np_round (dist_from_plane ep (p_point sp) / d))%Z).
  { unfold np_round. rewrite <- (Zrnd_IZR (Znearest (fun x => negb (Z.even x))) 0). apply Zrnd_le; [typeclasses eauto|]. apply Rdiv_le_pos; auto. apply Rabs_pos. }
  exists (1 + np_round (dist_from_plane ep (p_point sp) / d))%Z. split; [exists sp, ep, d; repeat split; auto; apply d_hkl_interplanar; auto|]. split; [lia|].
  unfold plane_stack. rewrite Es, Ee, ED. cbn [bind].
  destruct (stack_planes_levels (p_normal sp) d U (Z.to_nat (np_round (dist_from_plane ep (p_point sp) / d))) (p_point sp) sp) as (rest & E & EL); auto. rewrite E. cbn [bind].
  eexists. split; [reflexivity|]. rewrite EL, map_length, seq_length. lia.
Qed.
(** C84: for every host with points or a sphere, the number of planes of the stack
    decides: if the request fits, any stream of split draws can be continued to one for
    which the object is built; if it is too large, ValueError is raised. *)
Theorem C84_fcc_builds : forall w g l h, usable_planes g h -> copyable w l -> bounded_host l ->
  exists lo hi count, ends (unit_vec (mv (vo_bases (g_voxel g)) (vec_of h))) l lo hi /\ stack_count g h lo hi count /\ (1 <= count)%Z /\
  forall N min_sep ratio us, (1 <= N)%Z -> (0 <= min_sep)%Z -> (N <= Z.of_nat (length us))%Z ->
    (* N planes min_sep apart, min_sep away from both ends *)
    ((N - 1) * min_sep < count - 2 * min_sep ->
       forall prefix, exists rest aux V, fcc_build w g (VLeaf l) N min_sep h ratio (prefix ++ rest) us = Ok (aux, V))%Z /\
    (count - 2 * min_sep < (N - 1) * min_sep \/ count <= 2 * min_sep ->
       forall d ds, fcc_build w g (VLeaf l) N min_sep h ratio (d :: ds) us = Err ValueError)%Z.
Proof.
  intros w g l h UP HC HB. set (nv := mv (vo_bases (g_voxel g)) (vec_of h)).
  destruct (extremes_ends w l (unit_vec nv) HB) as (lo & hi & EX & EN). destruct (stack_counted g h lo hi UP) as (count & SC & C1 & planes & PS & LP).
  exists lo, hi, count. split; [exact EN|]. split; [exact SC|]. split; [exact C1|]. intros N ms ratio us HN HM HU. split.
  - intros FIT prefix. destruct UP as (HS & _ & HV & _). eapply fcc_builds_stack; eauto. rewrite LP. lia.
  - intros BIG d ds. unfold fcc_build. fold nv. change (vscale (/ norm nv) nv) with (unit_vec nv). rewrite EX. cbn [bind fst snd]. rewrite PS. cbn [bind]. unfold build_defects.
    destruct (C50_splits_terminate_partial N ms (Z.of_nat (length planes)) HN) as (_ & P & _). rewrite P; [reflexivity|lia].
Qed.

(** A ball of radius 5 around the origin cut by (001) planes of a unit cubic crystal:
    11 planes, of which two, three apart, are chosen. *)
Definition ez : vec := mkV 0 0 1.
Lemma norm_ez : norm ez = 1.
Proof. unfold norm. replace (dot ez ez) with 1 by (unfold ez; vring). apply sqrt_1. Qed.
Lemma minv_mI : minv mI = mI. Proof. apply mat_eq; apply vec_eq; vunfold; field. Qed.
Definition cube_crystal : crystal := mkCrystal (mkStruct mI [v0] [79%Z]) (mkVoxel mI (SAll 1) v0) None None.
Lemma sb_cube : sbases (g_voxel cube_crystal) = mI. Proof. cbn. apply mat_eq; apply vec_eq; vunfold; ring. Qed.
Lemma det_mI_neq : Reqb (det mI) 0 = false. Proof. apply Reqb_false. rewrite det_mI. lra. Qed.
Lemma snap_cube p m : m <> OtherMode -> snap_plane p cube_crystal (0, 0, 1)%Z m = Ok (mkPlane ez (mkV (vx p) (vy p) (IZR (snap_round m (vz p)))) default_tol).
Proof.
  intros HM. unfold snap_plane. cbn [g_strain cube_crystal]. rewrite sb_cube. unfold solve, inv. rewrite det_mI_neq, minv_mI. cbn [rmap bind].
  replace (mv mI p) with p by vring.
  assert (E : mv (mt mI) (mkV 0 0 1) = ez) by (unfold ez; vring).
  assert (S1 : snap_coord m (vz p) 1 = IZR (snap_round m (vz p))).
  { pose proof (snap_coord_int m (vz p) 1) as X. rewrite Rmult_1_l, Rmult_1_r in X. auto. }
  assert (S0 : forall f, snap_coord m f 0 = f) by (intros; destruct m; try reflexivity; congruence).
  rewrite !S0, S1. destruct m; try congruence; cbn [bind]; rewrite E, new_plane_unit by apply norm_ez; do 2 f_equal; vring.
Qed.
Definition ball5 : leaf := mkLeaf PNone None None [ASphere (mkSphere 5 v0 default_tol)] None 0 default_vtol None.
Lemma round_int m (z : Z) : m <> OtherMode -> snap_round m (IZR z) = z.
Proof.
  intros HM. destruct m; cbn [snap_round]; try congruence.
  - unfold np_round. apply Zrnd_IZR. typeclasses eauto.
  - unfold round_away. destruct (Z.eq_dec z 0) as [->|N].
    + apply (proj2 (proj2 (proj2 (C51_round_away 0)))). reflexivity.
    + rewrite <- abs_IZR. replace (Zceil (IZR (Z.abs z))) with (Z.abs z) by (symmetry; apply (Zceil_IZR (Z.abs z))).
      unfold np_sign. destruct (Rltb 0 (IZR z)) eqn:E; [apply Rltb_iff, lt_IZR in E; lia|]. apply Rltb_false in E.
      assert (z < 0)%Z by (apply Rnot_lt_le in E || idtac; apply le_IZR in E; lia). rewrite (proj2 (Rltb_iff _ _)) by (apply IZR_lt; auto). lia.
  - unfold np_fix. apply Ztrunc_IZR.
Qed.
Definition z_planes (r : Z) : list plane := map (level ez (mkV 0 0 (IZR (- r))) 1) (seq 0 (S (Z.to_nat (2 * r)))).
Definition ball_planes : list plane := z_planes 5.
Definition ball (r : Z) (c : vec) : leaf := mkLeaf PNone None None [ASphere (mkSphere (IZR r) c default_tol)] None 0 default_vtol None.
Lemma z_extremes w r c : extremes (vscale (/ norm (mv (vo_bases (g_voxel cube_crystal)) (vec_of (0, 0, 1)%Z))) (mv (vo_bases (g_voxel cube_crystal)) (vec_of (0, 0, 1)%Z))) (get_bounding_box w (ball r c)) (l_alg (ball r c)) = Ok (mkV 0 0 (IZR (- r)), mkV 0 0 (IZR r)).
Proof.
  assert (E : mv (vo_bases (g_voxel cube_crystal)) (vec_of (0, 0, 1)%Z) = ez) by (unfold ez; cbn; vring). rewrite E, norm_ez.
  assert (B : exists q qs, get_bounding_box w (ball r c) = BArr (q :: qs)) by (cbn; eauto). destruct B as (q & qs & B). rewrite B. unfold extremes. cbn [bind ball l_alg fold_left s_radius].
  rewrite opp_IZR. f_equal. f_equal; unfold ez; apply vec_eq; vunfold; field.
Qed.
Lemma z_stack r : (0 <= r)%Z -> plane_stack cube_crystal (0, 0, 1)%Z (mkV 0 0 (IZR (- r))) (mkV 0 0 (IZR r)) = Ok (z_planes r).
Proof.
  intros HR. unfold plane_stack. rewrite !snap_cube by discriminate. cbn [bind vx vy vz]. rewrite !round_int by discriminate. cbn [p_point p_normal].
  unfold d_hkl, inv. cbn [g_structure cube_crystal st_matrix]. rewrite det_mI_neq, minv_mI. cbn [bind].
  assert (E : mv mI (vec_of (0, 0, 1)%Z) = ez) by (unfold ez; cbn; vring). rewrite E, norm_ez, Rinv_1.
  assert (DT : dist_from_plane (mkPlane ez (mkV 0 0 (IZR r)) default_tol) (mkV 0 0 (IZR (- r))) = IZR (2 * r)).
  { unfold dist_from_plane, sdist_from_plane, ez. rewrite opp_IZR, mult_IZR. apply IZR_le in HR. cbn. vunfold. match goal with |- Rabs ?x = _ => replace x with (- (2 * IZR r)) by ring end. rewrite Rabs_Ropp, Rabs_pos_eq; lra. }
  rewrite DT. unfold Rdiv. rewrite Rinv_1, Rmult_1_r. unfold np_round. rewrite Zrnd_IZR by typeclasses eauto.
  destruct (stack_planes_levels ez 1 norm_ez (Z.to_nat (2 * r)) (mkV 0 0 (IZR (- r))) (mkPlane ez (mkV 0 0 (IZR (- r))) default_tol)) as (rest & R1 & R2); auto. rewrite R1. cbn [bind]. rewrite R2. reflexivity.
Qed.
Lemma ball_extremes w : extremes (vscale (/ norm (mv (vo_bases (g_voxel cube_crystal)) (vec_of (0, 0, 1)%Z))) (mv (vo_bases (g_voxel cube_crystal)) (vec_of (0, 0, 1)%Z))) (get_bounding_box w ball5) (l_alg ball5) = Ok (mkV 0 0 (-5), mkV 0 0 5).
Proof. exact (z_extremes w 5 v0). Qed.
Lemma ball_stack : plane_stack cube_crystal (0, 0, 1)%Z (mkV 0 0 (-5)) (mkV 0 0 5) = Ok ball_planes.
Proof. apply (z_stack 5). lia. Qed.
Example C84_nonvacuous : forall w,
  copyable w ball5 /\ (1 <= 2)%Z /\ (2 <= Z.of_nat (length [0; 1]))%Z /\ ((2 - 1) * 3 < Z.of_nat (length ball_planes) - 2 * 3)%Z /\
  exists rest aux V, fcc_build w cube_crystal (VLeaf ball5) 2 3 (0, 0, 1)%Z (1/2) rest [0; 1] = Ok (aux, V) /\ fa_twin aux = true /\ fa_sf aux = true.
Proof.
  intros w. split; [left; reflexivity|]. split; [lia|]. split; [cbn; lia|]. split; [unfold ball_planes, z_planes; rewrite map_length, seq_length; lia|].
  destruct (fcc_builds_stack w cube_crystal ball5 2 3 (0, 0, 1)%Z (1/2) [0; 1] (mkV 0 0 (-5)) (mkV 0 0 5) ball_planes) with (prefix := @nil nat) as (rest & aux & V & E); try lia; auto.
  - left; reflexivity.
  - cbn; lia.
  - cbn. rewrite det_mI. lra.
  - apply ball_extremes.
  - apply ball_stack.
  - unfold ball_planes, z_planes; rewrite map_length, seq_length; lia.
  - exists rest, aux, V. split; [exact E|]. cbn [app] in E. unfold fcc_build in E. rewrite ball_extremes in E. cbn [bind fst snd] in E. rewrite ball_stack in E. cbn [bind] in E.
    unfold ball_planes, z_planes in E. apply build_grains in E; [|lia|lia|left; split; reflexivity|apply norm_ez|lra].
    destruct E as (vols & defects & gens & auxs & _ & G & _ & A0 & AN & ST). pose proof (gr_defects _ _ _ _ _ _ _ _ _ _ _ G) as LD.
    destruct defects as [|d0 [|d1 [|? ?]]]; cbn [length] in LD; try lia. cbn [length] in AN.
    destruct (ST 0%nat d0 eq_refl) as (g0 & a0 & g1 & a1 & t0 & _ & X0 & _ & X1 & S0 & _). destruct (ST 1%nat d1 eq_refl) as (g1' & a1' & g2 & a2 & t1 & _ & X1' & _ & X2 & S1 & _).
    rewrite A0 in X0. injection X0 as <-. rewrite X1 in X1'. injection X1' as <-. rewrite AN in X2. injection X2 as <-.
    unfold fcc_step in S0. cbn [fa_draws] in S0. rewrite (proj2 (Rltb_iff 0 (1/2))) in S0 by lra. injection S0 as <- _.
    unfold fcc_step in S1. cbn [fa_draws fa_twin_last fa_twin fa_sf] in S1. rewrite (proj2 (Rltb_false 1 (1/2))) in S1 by lra. injection S1 as <- _. auto.
Qed.
Example C68_nonvacuous : forall w, pristine ball5 /\ exists draws aux V, fcc_build w cube_crystal (VLeaf ball5) 2 3 (0, 0, 1)%Z (1/2) draws [0; 1] = Ok (aux, V) /\ partitions w ball5 2 V.
Proof.
  intros w. assert (P : pristine ball5) by (left; split; reflexivity). split; auto. destruct (C84_nonvacuous w) as (_ & _ & _ & _ & r & aux & V & E & _).
  exists r, aux, V. split; auto. eapply C68_fcc_partition_partial; eauto; lia.
Qed.
Example C69_nonvacuous : forall w, pristine ball5 /\ exists draws aux V, fcc_build w cube_crystal (VLeaf ball5) 2 3 (0, 0, 1)%Z (1/2) draws [0; 1] = Ok (aux, V).
Proof. intros w. destruct (C68_nonvacuous w) as (P & draws & aux & V & E & _). split; [exact P|]. eauto. Qed.

(* ------------------------------------------------------------------ *)
(** * C85, C86: the crystals of the grains *)
Lemma snap_normal pt g h m pl : g_strain g = None -> snap_plane pt g h m = Ok pl ->
  det (basis_of g) <> 0 /\ exists c, 0 < c /\ p_normal pl = vscale c (mv (mt (minv (basis_of g))) (vec_of h)).
Proof.
  intros HS H. destruct h as [[h k] l]. unfold snap_plane in H. rewrite HS in H. inv_bind H. inv_bind H. inv_bind H. unfold inv in Ha1.
  destruct (Reqb (det (sbases (g_voxel g))) 0) eqn:E; [discriminate|]. apply Reqb_false in E. injection Ha1 as <-. split; auto.
  unfold new_plane in H. inv_bind H. inv_bind H. apply check_normal_Ok in Ha1. destruct Ha1 as [L ->]. injection H as <-. pose proof eps_pos.
  eexists. split; [|cbn [p_normal]; reflexivity]. apply Rinv_0_lt_compat. lra.
Qed.
Lemma fcc_build_normal w g l N ms h ratio draws us aux V : g_strain g = None -> (0 <= N)%Z -> (0 <= ms)%Z -> pristine l ->
  fcc_build w g (VLeaf l) N ms h ratio draws us = Ok (aux, V) ->
  det (basis_of g) <> 0 /\ exists n pt d count vols defects gens auxs, V = VMulti 0 vols None /\ grains w l N n pt d ms count vols defects gens /\
    (exists c, 0 < c /\ n = vscale c (mv (mt (minv (basis_of g))) (vec_of h))) /\
    nth_error gens 0 = Some g /\ nth_error auxs 0 = Some (mkAux us 1 false false) /\
    forall k pl, nth_error defects k = Some pl -> exists gp ap gk ak t, nth_error gens k = Some gp /\ nth_error auxs k = Some ap /\
      nth_error gens (S k) = Some gk /\ nth_error auxs (S k) = Some ak /\ fcc_step h ratio ap gp pl = Ok (ak, t) /\ crystal_transform gp t = Ok gk.
Proof.
  intros HS HN HM PR H. unfold fcc_build in H. inv_bind H. inv_bind H.
  assert (SN : exists sp, snap_plane (fst a) g h Floor = Ok sp /\ exists rest, a0 = sp :: rest).
  { unfold plane_stack in Ha0. inv_bind Ha0. inv_bind Ha0. inv_bind Ha0. inv_bind Ha0. injection Ha0 as <-. eauto. }
  destruct SN as (sp & E1 & rest & E2). destruct (snap_normal _ _ _ _ _ HS E1) as (HD & c & C & NE). split; auto.
  destruct (plane_stack_levels _ _ _ _ _ Ha0) as (n & pt & d & m & U & D & _ & E3).
  assert (EN : n = p_normal sp) by (rewrite E2 in E3; cbn [seq map] in E3; injection E3 as -> _; reflexivity).
  subst a0. rewrite E3 in H.
  destruct (build_grains w l _ g N ms n pt d m draws _ _ V HN HM PR U D H) as (vols & defects & gens & auxs & -> & G & G0 & A0 & _ & ST).
  exists n, pt, d, (Z.of_nat (S m)), vols, defects, gens, auxs. split; auto. split; auto. split; [exists c; subst n; auto|]. auto.
Qed.
Lemma dot_recip B c u h : det B <> 0 -> dot (mv B u) (vscale c (mv (mt (minv B)) h)) = c * dot u h.
Proof.
  intros D. replace (dot (mv B u) (vscale c (mv (mt (minv B)) h))) with (c * dot (mv (mt (minv B)) h) (mv B u)) by (generalize (minv B); vring).
  rewrite dot_mv, mt_mt, mv_minv_l by auto. rewrite dot_comm. reflexivity.
Qed.
Lemma firstn_S_nth {A} (l : list A) k u : nth_error l k = Some u -> firstn (S k) l = firstn k l ++ [u].
Proof. revert l. induction k as [|k IH]; intros [|x l] E; try discriminate; cbn [firstn app]; [injection E as <-; destruct l; reflexivity|]. f_equal. apply IH, E. Qed.
Lemma skipn_nth {A} (l : list A) k u r : skipn k l = u :: r -> nth_error l k = Some u /\ skipn (S k) l = r.
Proof. revert l. induction k as [|k IH]; intros l E; [cbn in E; subst l; auto|]. destruct l as [|x l]; [discriminate|]. cbn [skipn] in E. apply IH in E. exact E. Qed.
Lemma twins_S ratio us k u : nth_error us k = Some u -> twins ratio us (S k) = (twins ratio us k + if Rltb u ratio then 0 else 1)%nat.
Proof.
  intros H. unfold twins. rewrite (firstn_S_nth _ _ _ H), filter_app, app_length. f_equal. cbn [filter]. unfold Rltb.
  destruct (Rlt_dec u ratio); reflexivity.
Qed.
(** what the loop state and the current crystal are after k defects *)
Record loop_state (g : crystal) (h : Z * Z * Z) (ratio : R) (us : list R) (n : vec) (k : nat) (gk : crystal) (ak : fcc_aux) : Prop := {
  ls_draws : fa_draws ak = skipn k us; ls_sign : fa_twin_last ak = (-1) ^ twins ratio us k;
  ls_basis : basis_of gk = if Nat.even (twins ratio us k) then basis_of g else mm (reflection_matrix n) (basis_of g);
  ls_scale : vo_scale (g_voxel gk) = vo_scale (g_voxel g) }.
Lemma refl_refl n : dot n n = 1 -> mm (reflection_matrix n) (reflection_matrix n) = mI.
Proof.
  intros H. unfold reflection_matrix. rewrite H. replace (2 / 1) with 2 by field.
  transitivity (madd mI (mscale (4 * (dot n n - 1)) (outer n n))); [clear H; vring|]. rewrite H. vring.
Qed.
Lemma voxel_eta v : v = mkVoxel (vo_bases v) (vo_scale v) (vo_origin v). Proof. destruct v; reflexivity. Qed.
Lemma loop_states w g l N n pt d ms c vols defects gens auxs h ratio us : uniform_scale (g_voxel g) ->
  grains w l N n pt d ms c vols defects gens -> nth_error gens 0 = Some g -> nth_error auxs 0 = Some (mkAux us 1 false false) ->
  (forall k pl, nth_error defects k = Some pl -> exists gp ap gk ak t, nth_error gens k = Some gp /\ nth_error auxs k = Some ap /\
      nth_error gens (S k) = Some gk /\ nth_error auxs (S k) = Some ak /\ fcc_step h ratio ap gp pl = Ok (ak, t) /\ crystal_transform gp t = Ok gk) ->
  forall k gk ak, (k <= length defects)%nat -> nth_error gens k = Some gk -> nth_error auxs k = Some ak -> loop_state g h ratio us n k gk ak.
Proof.
  intros US G G0 A0 ST. induction k as [|k IH]; intros gk ak K Hg Ha.
  - rewrite G0 in Hg. injection Hg as <-. rewrite A0 in Ha. injection Ha as <-. constructor; auto.
  - destruct (nth_error defects k) as [pl|] eqn:Hd; [|apply nth_error_None in Hd; lia].
    destruct (ST k pl Hd) as (gp & ap & gk' & ak' & t & E1 & E2 & E3 & E4 & E5 & E6). rewrite E3 in Hg. injection Hg as <-. rewrite E4 in Ha. injection Ha as <-.
    destruct (IH gp ap ltac:(lia) E1 E2) as [LD LS LB LC]. clear IH.
    destruct (gr_stack _ _ _ _ _ _ _ _ _ _ _ G _ _ Hd) as (s & _ & ->). pose proof (unit_dot _ (gr_unit _ _ _ _ _ _ _ _ _ _ _ G)) as NN.
    unfold fcc_step in E5. rewrite LD in E5. destruct (skipn k us) as [|u r] eqn:SK; [discriminate|]. destruct (skipn_nth _ _ _ _ SK) as [NU SU].
    pose proof (twins_S ratio us k u NU) as TS.
    assert (US' : uniform_scale (g_voxel gp)) by (unfold uniform_scale in *; rewrite LC; auto). destruct (sbases_mm (g_voxel gp) US') as [dd Hdd].
    assert (CT : vo_scale (g_voxel gk') = vo_scale (g_voxel gp) /\ vo_bases (g_voxel gk') = apply_bases t (vo_bases (g_voxel gp))).
    { unfold crystal_transform in E6. inv_bind E6. injection E6 as <-. unfold set_bases in Ha. inv_bind Ha. injection Ha as <-.
      assert (a0 = apply_bases t (vo_bases (g_voxel gp))) by (unfold check_bases in Ha0; revert Ha0; repeat destruct (collinear _ _); intros X; inversion X; auto). subst a0.
      cbn [g_voxel]. destruct (basis_only t); cbn; auto. }
    destruct CT as [CS CB].
    assert (BK : basis_of gk' = mm (vo_bases (g_voxel gk')) dd).
    { rewrite <- (Hdd _ (vo_origin (g_voxel gk'))), <- CS, <- voxel_eta. reflexivity. }
    assert (BP : basis_of gp = mm (vo_bases (g_voxel gp)) dd).
    { rewrite <- (Hdd _ (vo_origin (g_voxel gp))), <- voxel_eta. reflexivity. }
    rewrite CB in BK. destruct (Rltb u ratio); injection E5 as <- <-; cbn [apply_bases] in BK; rewrite Nat.add_comm in TS; cbn [Nat.add] in TS.
    + constructor; cbn [fa_draws fa_twin_last]; rewrite ?TS; auto; [|congruence]. rewrite BK, <- BP. exact LB.
    + constructor; cbn [fa_draws fa_twin_last]; rewrite ?TS; auto; [rewrite LS; cbn [pow]; ring| |congruence].
      cbn [p_normal] in BK. assert (BK' : basis_of gk' = mm (reflection_matrix n) (basis_of gp)) by (rewrite BK, BP; generalize (reflection_matrix n); vring).
      rewrite BK', LB, Nat.even_succ, <- Nat.negb_even. destruct (Nat.even (twins ratio us k)); cbn [negb]; auto.
      transitivity (mm (mm (reflection_matrix n) (reflection_matrix n)) (basis_of g)); [generalize (reflection_matrix n); vring|]. rewrite refl_refl by auto. vring.
Qed.
Lemma refl_fix n b : dot n n = 1 -> dot b n = 0 -> mv (reflection_matrix n) b = b.
Proof.
  intros H P. unfold reflection_matrix. rewrite H. transitivity (vsub b (vscale (2 * dot b n) n)); [clear P H; vfield; lra|]. rewrite P. vring.
Qed.

(** C85: from each grain to the one below, the crystal is mirrored in the plane
    between them (twin) or shifted (stacking fault), as the random number says.
    Crystals whose voxel is scaled per row are excluded (C37_row_scaled_refuted). *)
Theorem C85_grain_crystals_partial : forall w g l N min_sep h ratio draws us aux V,
  (0 <= N)%Z -> (0 <= min_sep)%Z -> pristine l -> g_strain g = None -> uniform_scale (g_voxel g) ->
  fcc_build w g (VLeaf l) N min_sep h ratio draws us = Ok (aux, V) ->
  exists vols defects gens, V = VMulti 0 vols None /\ Z.of_nat (length defects) = N /\
    (forall p k, serves w vols k p <-> vol_inside w (VLeaf l) p = true /\ lowest_above defects p k) /\
    (forall k v, nth_error vols k = Some v -> exists lk gk, v = VLeaf lk /\ nth_error gens k = Some gk /\ l_gen lk = Some (GCrystal gk)) /\
    nth_error gens 0 = Some g /\
    forall k pl, nth_error defects k = Some pl -> exists u gp gk,
      nth_error us k = Some u /\ nth_error gens k = Some gp /\ nth_error gens (S k) = Some gk /\ g_structure gk = g_structure gp /\
      (ratio <= u -> forall c f, lattice_site (basis_of gk) (origin_of gk) c f = mirror pl (lattice_site (basis_of gp) (origin_of gp) c f)) /\
      (u < ratio -> forall c f, lattice_site (basis_of gk) (origin_of gk) c f =
         vadd (lattice_site (basis_of gp) (origin_of gp) c f) (vscale ((-1) ^ twins ratio us k) (mv (basis_of gp) (partial_112 h)))).
Proof.
  intros w g l N ms h ratio draws us aux V HN HM PR HS US H.
  destruct (fcc_build_normal _ _ _ _ _ _ _ _ _ _ _ HS HN HM PR H) as (HD & n & pt & d & cn & vols & defects & gens & auxs & -> & G & _ & G0 & A0 & ST).
  pose proof (loop_states _ _ _ _ _ _ _ _ _ _ _ _ _ h ratio us US G G0 A0 ST) as LS.
  exists vols, defects, gens. split; auto. split; [apply (gr_defects _ _ _ _ _ _ _ _ _ _ _ G)|]. split; [exact (grains_serves _ _ _ _ _ _ _ _ _ _ _ HM G)|]. split; [|split; auto].
  { intros k v Hv. destruct (nth_error gens k) as [gk|] eqn:Hg.
    - destruct (gr_gen _ _ _ _ _ _ _ _ _ _ _ G _ _ _ Hv Hg) as (lk & -> & E). eauto.
    - apply nth_error_None in Hg. pose proof (gr_gens _ _ _ _ _ _ _ _ _ _ _ G). assert (k < length vols)%nat by (apply nth_error_Some; congruence). lia. }
  intros k pl Hd. destruct (ST k pl Hd) as (gp & ap & gk & ak & t & E1 & E2 & E3 & E4 & E5 & E6).
  assert (K : (k < length defects)%nat) by (apply nth_error_Some; congruence).
  destruct (LS k gp ap ltac:(lia) E1 E2) as [LD LSG LB LC].
  destruct (gr_stack _ _ _ _ _ _ _ _ _ _ _ G _ _ Hd) as (s & _ & ->). pose proof (unit_dot _ (gr_unit _ _ _ _ _ _ _ _ _ _ _ G)) as NN.
  unfold fcc_step in E5. rewrite LD in E5. destruct (skipn k us) as [|u r] eqn:SK; [discriminate|]. destruct (skipn_nth _ _ _ _ SK) as [NU _].
  assert (US' : uniform_scale (g_voxel gp)) by (unfold uniform_scale in *; rewrite LC; auto).
  destruct (C37_transform_moves_crystal_partial _ _ _ E6 US') as (MS & _ & _ & MV). exists u, gp, gk. split; auto. split; auto. split; auto. split; auto.
  destruct (Rltb u ratio) eqn:EU; injection E5 as <- <-; (split; intros CU c f; [|]).
  - exfalso. apply Rltb_iff in EU. lra.
  - destruct (MV c f) as [M _]. rewrite (M eq_refl). cbn [apply_pt]. f_equal. rewrite LSG. destruct h as [[h1 h2] h3]. unfold partial_112, sign_vec, vec_of.
    generalize ((-1) ^ twins ratio us k). vfield.
  - destruct (MV c f) as [M _]. rewrite (M eq_refl). rewrite reflection_pt by exact NN. unfold mirror, sdist_from_plane. cbn [p_normal p_point].
    generalize (lattice_site (basis_of gp) (origin_of gp) c f) (vadd pt (vscale (IZR s * d) n)). vring.
  - exfalso. apply Rltb_false in EU. lra.
Qed.
Example C85_nonvacuous : forall w, pristine ball5 /\ g_strain cube_crystal = None /\ uniform_scale (g_voxel cube_crystal) /\
  exists draws aux V, fcc_build w cube_crystal (VLeaf ball5) 2 3 (0, 0, 1)%Z (1/2) draws [0; 1] = Ok (aux, V).
Proof. intros w. destruct (C69_nonvacuous w) as (P & E). split; [exact P|]. split; [reflexivity|]. split; [exact I|]. exact E. Qed.

(** the displacement of a stacking fault placed in the crystal gp after k defects *)
Definition fault_shift (h : Z * Z * Z) (ratio : R) (us : list R) (k : nat) (gp : crystal) : vec :=
  vscale ((-1) ^ twins ratio us k) (mv (basis_of gp) (partial_112 h)).
Lemma partial_perp h : is_111 h -> dot (partial_112 h) (vec_of h) = 0.
Proof.
  destruct h as [[a b] c]. intros (A & B & C). unfold partial_112, vec_of, dot. cbn [vx vy vz].
  assert (Q : forall z, (z * z = 1)%Z -> (IZR (Z.sgn z) * IZR z = 1)) by (intros z Z1; rewrite <- mult_IZR; f_equal; nia).
  pose proof (Q a A). pose proof (Q b B). pose proof (Q c C). nra.
Qed.
(** C86: on {111} planes a stacking fault moves the crystal within the fault plane,
    always by plus or minus the same vector of the original crystal, however many twins
    and faults precede it. *)
Theorem C86_fault_in_plane_partial : forall w g l N min_sep h ratio draws us aux V,
  (0 <= N)%Z -> (0 <= min_sep)%Z -> pristine l -> g_strain g = None -> uniform_scale (g_voxel g) -> is_111 h ->
  fcc_build w g (VLeaf l) N min_sep h ratio draws us = Ok (aux, V) ->
  exists vols defects gens, V = VMulti 0 vols None /\ Z.of_nat (length defects) = N /\
    (forall p k, serves w vols k p <-> vol_inside w (VLeaf l) p = true /\ lowest_above defects p k) /\
    (forall k v, nth_error vols k = Some v -> exists lk gk, v = VLeaf lk /\ nth_error gens k = Some gk /\ l_gen lk = Some (GCrystal gk)) /\
    forall k pl, nth_error defects k = Some pl -> exists gp gk,
      nth_error gens k = Some gp /\ nth_error gens (S k) = Some gk /\
      let s := fault_shift h ratio us k gp in
      dot s (p_normal pl) = 0 /\ s = vscale ((-1) ^ twins ratio us k) (mv (basis_of g) (partial_112 h)) /\
      ((exists u, nth_error us k = Some u /\ u < ratio) -> forall c f,
         lattice_site (basis_of gk) (origin_of gk) c f = vadd (lattice_site (basis_of gp) (origin_of gp) c f) s) /\
      (* in a cubic crystal no atom of the next layer above sits straight over a shifted one *)
      (cubic (basis_of g) -> forall x, fcc_vector x -> Rabs (dot x (vec_of h)) = 1 -> 0 < dot (mv (basis_of gp) x) (p_normal pl) ->
         forall t, vsub (mv (basis_of gp) x) s <> vscale t (p_normal pl)).
Proof.
  intros w g l N ms h ratio draws us aux V HN HM PR HS US H1 H.
  destruct (fcc_build_normal _ _ _ _ _ _ _ _ _ _ _ HS HN HM PR H) as (HD & n & pt & d & cn & vols & defects & gens & auxs & EV & G & (c & C & NE) & G0 & A0 & ST).
  pose proof (loop_states _ _ _ _ _ _ _ _ _ _ _ _ _ h ratio us US G G0 A0 ST) as LS.
  exists vols, defects, gens. split; auto. split; [apply (gr_defects _ _ _ _ _ _ _ _ _ _ _ G)|]. split; [exact (grains_serves _ _ _ _ _ _ _ _ _ _ _ HM G)|]. split.
  { intros k v Hv. destruct (nth_error gens k) as [gk|] eqn:Hg.
    - destruct (gr_gen _ _ _ _ _ _ _ _ _ _ _ G _ _ _ Hv Hg) as (lk & -> & E). eauto.
    - apply nth_error_None in Hg. pose proof (gr_gens _ _ _ _ _ _ _ _ _ _ _ G). assert (k < length vols)%nat by (apply nth_error_Some; congruence). lia. }
  intros k pl Hd. destruct (ST k pl Hd) as (gp & ap & gk & ak & t & E1 & E2 & E3 & E4 & E5 & E6).
  assert (K : (k < length defects)%nat) by (apply nth_error_Some; congruence).
  destruct (LS k gp ap ltac:(lia) E1 E2) as [LD LSG LB LC].
  destruct (gr_stack _ _ _ _ _ _ _ _ _ _ _ G _ _ Hd) as (sp & _ & EPL). pose proof (unit_dot _ (gr_unit _ _ _ _ _ _ _ _ _ _ _ G)) as NN.
  set (b := mv (basis_of g) (partial_112 h)). set (tw := twins ratio us k) in *.
  assert (BN : dot b n = 0) by (unfold b; rewrite NE, dot_recip, partial_perp by auto; ring).
  assert (BP : mv (basis_of gp) (partial_112 h) = b).
  { rewrite LB. destruct (Nat.even tw); [reflexivity|]. transitivity (mv (reflection_matrix n) b); [unfold b; generalize (reflection_matrix n); vring|]. apply refl_fix; auto. }
  exists gp, gk. split; auto. split; auto. unfold fault_shift. fold tw. rewrite BP. subst pl. cbn [p_normal]. cbv zeta.
  split; [|split; [reflexivity|split]].
  - transitivity ((-1) ^ tw * dot b n); [generalize ((-1) ^ tw); vring|]. rewrite BN. ring.
  - intros (u & NU & UR) cc f. unfold fcc_step in E5. rewrite LD in E5. destruct (skipn k us) as [|u' r] eqn:SK; [discriminate|]. destruct (skipn_nth _ _ _ _ SK) as [NU' _].
    rewrite NU in NU'. injection NU' as <-. rewrite (proj2 (Rltb_iff _ _) UR) in E5. injection E5 as _ <-.
    assert (US' : uniform_scale (g_voxel gp)) by (unfold uniform_scale in *; rewrite LC; auto).
    destruct (C37_transform_moves_crystal_partial _ _ _ E6 US') as (_ & _ & _ & MV). destruct (MV cc f) as [M _]. rewrite (M eq_refl). cbn [apply_pt]. f_equal.
    rewrite LSG. fold tw. rewrite <- BP. destruct h as [[h1 h2] h3]. unfold partial_112, sign_vec, vec_of. generalize ((-1) ^ tw). vfield.
  - intros (sc & SC & Q1 & Q2) x FX HX UP t0 EQ.
    (* bring everything back to the original crystal *)
    assert (NB : n = mv (basis_of g) (vscale (c / (sc * sc)) (vec_of h))).
    { rewrite NE. assert (MI : mv (mt (minv (basis_of g))) (vec_of h) = mv (basis_of g) (vscale (/ (sc * sc)) (vec_of h))).
      { assert (E : mt (minv (basis_of g)) = mscale (/ (sc * sc)) (basis_of g)).
        { transitivity (mt (mscale (/ (sc * sc)) (mm (mm (mt (basis_of g)) (basis_of g)) (minv (basis_of g))))).
          - rewrite Q2. generalize (minv (basis_of g)). intros mi. apply mat_eq; apply vec_eq; vunfold; field; auto.
          - transitivity (mt (mscale (/ (sc * sc)) (mm (mt (basis_of g)) (mm (basis_of g) (minv (basis_of g)))))); [generalize (minv (basis_of g)) (/ (sc * sc)); vring|].
            rewrite minv_r by auto. generalize (/ (sc * sc)). vring. }
        rewrite E. generalize (/ (sc * sc)). vring. }
      rewrite MI. unfold Rdiv. generalize (/ (sc * sc)). vring. }
    assert (INJ : forall y z, mv (basis_of g) y = mv (basis_of g) z -> y = z).
    { intros y z E. rewrite <- (mv_minv_l (basis_of g) y HD), E. apply mv_minv_l. auto. }
    assert (HH : forall y, dot (mv (basis_of g) y) n = c * dot y (vec_of h)) by (intros; rewrite NE; apply dot_recip; auto).
    assert (KEY : exists e r, (e = 1 \/ e = -1) /\ 0 < e * dot x (vec_of h) /\ vsub x (vscale e (partial_112 h)) = vscale r (vec_of h)).
    { rewrite LB in EQ, UP. destruct (Nat.even tw) eqn:EV'.
      - assert (PW : (-1) ^ tw = 1) by (apply Nat.even_spec in EV'; destruct EV' as [q ->]; rewrite pow_mult; replace ((-1) ^ 2) with 1 by ring; apply pow1).
        exists 1, (t0 * (c / (sc * sc))). split; auto. rewrite HH in UP. split; [nra|]. apply INJ. rewrite PW in EQ. transitivity (vscale t0 n); [rewrite <- EQ; unfold b; vring|].
        rewrite NB. generalize (c / (sc * sc)). vring.
      - assert (PW : (-1) ^ tw = -1).
        { assert (O : Nat.odd tw = true) by (unfold Nat.odd; rewrite EV'; auto). apply Nat.odd_spec in O. destruct O as [q ->]. rewrite pow_add, pow_mult. replace ((-1) ^ 2) with 1 by ring. rewrite pow1. ring. }
        exists (-1), (- t0 * (c / (sc * sc))). split; auto.
        assert (RF : forall y, mv (mm (reflection_matrix n) (basis_of g)) y = mv (reflection_matrix n) (mv (basis_of g) y)) by (intros; generalize (reflection_matrix n); vring).
        assert (RD : forall y, dot (mv (reflection_matrix n) y) n = - dot y n).
        { intros y. unfold reflection_matrix. rewrite NN. transitivity (dot y n - 2 * dot y n * dot n n); [clear; vfield; lra|]. rewrite NN. ring. }
        rewrite RF, RD, HH in UP. split; [nra|]. apply INJ.
        assert (EQ' : mv (reflection_matrix n) (vsub (mv (mm (reflection_matrix n) (basis_of g)) x) (vscale ((-1) ^ tw) b)) = mv (reflection_matrix n) (vscale t0 n)) by (rewrite EQ; reflexivity).
        assert (L1 : mv (reflection_matrix n) (vscale t0 n) = vscale (- t0) n).
        { unfold reflection_matrix. rewrite NN. transitivity (vscale (t0 - 2 * t0 * dot n n) n); [clear; vfield; lra|]. rewrite NN. f_equal. ring. }
        assert (L2 : mv (reflection_matrix n) (vsub (mv (mm (reflection_matrix n) (basis_of g)) x) (vscale ((-1) ^ tw) b)) = vadd (mv (basis_of g) x) b).
        { rewrite PW. transitivity (vadd (mv (mm (mm (reflection_matrix n) (reflection_matrix n)) (basis_of g)) x) (mv (reflection_matrix n) b)); [generalize (reflection_matrix n); vring|].
          rewrite refl_refl, refl_fix by auto. generalize b. vring. }
        rewrite L1, L2 in EQ'. transitivity (vscale (- t0) n); [rewrite <- EQ'; unfold b; vring|]. rewrite NB. generalize (c / (sc * sc)). vring. }
    clear - KEY HX H1 FX. destruct KEY as (e & r & E & POS & X). destruct h as [[h1 h2] h3]. destruct H1 as (A1 & A2 & A3).
    destruct FX as (xa & xb & xc & EX & _). apply (f_equal vx) in EX as X1. apply (f_equal vy) in EX as X2. apply (f_equal vz) in EX as X3.
    apply (f_equal vx) in X as Y1. apply (f_equal vy) in X as Y2. apply (f_equal vz) in X as Y3. clear X EX.
    unfold partial_112, vec_of, dot in *. cbn [vsub vscale vx vy vz] in *.
    assert (SG : forall z, (z * z = 1)%Z -> z = 1%Z \/ z = (-1)%Z) by (intros; nia).
    assert (F : 3 * IZR xa = 4 * e * IZR h1).
    { destruct (SG _ A1) as [-> | ->], (SG _ A2) as [-> | ->], (SG _ A3) as [-> | ->]; cbn [Z.sgn] in *;
        (destruct E as [-> | ->]; [|]); revert HX POS; unfold Rabs; destruct (Rcase_abs _); intros HX POS; lra. }
    assert (F' : (3 * xa = 4 * h1)%Z \/ (3 * xa = - (4 * h1))%Z).
    { destruct E as [-> | ->]; [left|right]; apply eq_IZR; rewrite ?opp_IZR, !mult_IZR; lra. }
    destruct (SG _ A1) as [-> | ->]; lia.
Qed.
Lemma norm_ge_x v : Rabs (vx v) <= norm v.
Proof. unfold norm. rewrite <- sqrt_Rsqr_abs. apply sqrt_le_1_alt. unfold dot, Rsqr. nra. Qed.
Lemma ball_builds w h ratio us N : (1 <= N)%Z -> (N <= Z.of_nat (length us))%Z -> 1 <= norm (vec_of h) ->
  exists draws aux V, fcc_build w cube_crystal (VLeaf ball5) N 0 h ratio draws us = Ok (aux, V).
Proof.
  intros HN HU HH. set (nv := mv (vo_bases (g_voxel cube_crystal)) (vec_of h)).
  assert (EX : exists s f, extremes (vscale (/ norm nv) nv) (get_bounding_box w ball5) (l_alg ball5) = Ok (s, f)).
  { assert (B : exists q qs, get_bounding_box w ball5 = BArr (q :: qs)) by (cbn; eauto). destruct B as (q & qs & B). rewrite B. unfold extremes. cbn [bind ball5 l_alg fold_left]. eauto. }
  destruct EX as (s & f & EX).
  destruct (plane_stack_total cube_crystal h s f eq_refl) as (n & pt & d & m & U & D & PS).
  { rewrite sb_cube, det_mI. lra. }
  { cbn. rewrite det_mI. lra. }
  { rewrite sb_cube, minv_mI. replace (mv (mt mI) (vec_of h)) with (vec_of h) by vring. pose proof eps_small. lra. }
  destruct (fcc_builds_stack w cube_crystal ball5 N 0 h ratio us s f _ HN ltac:(lia) (or_introl eq_refl) HU eq_refl ltac:(cbn; rewrite det_mI; lra) EX PS) with (prefix := @nil nat) as (r & aux & V & E).
  { rewrite map_length, seq_length. lia. }
  eauto.
Qed.
Lemma cubic_mI : cubic mI.
Proof. exists 1. split; [lra|]. split; vring. Qed.
Example C86_nonvacuous : forall w, exists draws aux V,
  fcc_build w cube_crystal (VLeaf ball5) 2 0 (1, 1, 1)%Z (1/2) draws [1; 0] = Ok (aux, V) /\ is_111 (1, 1, 1)%Z /\ pristine ball5 /\
  uniform_scale (g_voxel cube_crystal) /\ cubic (basis_of cube_crystal) /\ (exists x, fcc_vector x /\ Rabs (dot x (vec_of (1, 1, 1)%Z)) = 1 /\ 0 < dot x (mkV 1 1 1)) /\
  twins (1/2) [1; 0] 1 = 1%nat.
Proof.
  intros w. destruct (ball_builds w (1, 1, 1)%Z (1/2) [1; 0] 2) as (dr & aux & V & E); try (cbn; lia).
  { pose proof (norm_ge_x (vec_of (1, 1, 1)%Z)) as X. cbn [vec_of vx] in X. rewrite Rabs_pos_eq in X by lra. exact X. }
  exists dr, aux, V. split; [exact E|]. split; [cbn; lia|]. split; [left; split; reflexivity|]. split; [exact I|]. split; [rewrite sb_cube; apply cubic_mI|].
  split; [|unfold twins; cbn; destruct (Rlt_dec 1 (1/2)); [lra|reflexivity]].
  exists (mkV (1/2) (1/2) 0). split; [exists 1%Z, 1%Z, 0%Z; split; [apply vec_eq; vunfold; field|reflexivity]|]. unfold dot, vec_of. cbn. split; [rewrite Rabs_pos_eq|]; lra.
Qed.
(** On other planes the same formula leaves the plane: for (001) the crystal is moved
    along the plane normal. *)
Theorem C86_other_planes_refuted : forall w, exists draws aux lk0 lk1 vols g0 g1 pl,
  fcc_build w cube_crystal (VLeaf ball5) 1 0 (0, 0, 1)%Z 1 draws [0] = Ok (aux, VMulti 0 (VLeaf lk0 :: VLeaf lk1 :: vols) None) /\
  l_gen lk0 = Some (GCrystal g0) /\ l_gen lk1 = Some (GCrystal g1) /\ In (APlane pl) (l_alg lk1) /\ p_normal pl = ez /\
  forall c f, lattice_site (basis_of g1) (origin_of g1) c f = vadd (lattice_site (basis_of g0) (origin_of g0) c f) (vscale (-2/3) ez).
Proof.
  intros w. destruct (ball_builds w (0, 0, 1)%Z 1 [0] 1) as (dr & aux & V & E); try (cbn; lia).
  { replace (vec_of (0, 0, 1)%Z) with ez by reflexivity. rewrite norm_ez. lra. }
  pose proof E as E'. unfold fcc_build in E. inv_bind E. inv_bind E. rewrite ball_extremes in Ha. injection Ha as <-. cbn [fst snd] in *. rewrite ball_stack in Ha0. injection Ha0 as <-.
  unfold build_defects in E. inv_bind E. inv_bind E. inv_bind E. injection E as E1 E2. destruct a1 as [[ax gx] vs]. cbn [fst snd] in *. subst ax V.
  change (zrange 0 1) with [0%Z] in Ha1. cbn [foldM bind] in Ha1. inv_bind Ha1. injection Ha1 as ->.
  apply (pass_ok w ball5 (fcc_step (0, 0, 1)%Z 1) 1 (rev a) ball_planes _ _ _ 0) in Ha2. destruct Ha2 as (v & -> & MO).
  destruct MO as (lk & s & pl & t & pl' & -> & S1 & S2 & ST & CR & NP & LA & LPR & LG & _).
  destruct (leaf_copy _ _ _ _ Ha0) as (_ & _ & CG & _).
  exists dr, aux, (with_prio a0 1), lk, [], cube_crystal, gx, pl'. split; [exact E'|]. split; [exact CG|]. split; [exact LG|]. split; [rewrite LA; apply in_or_app; right; left; reflexivity|].
  assert (PN : p_normal pl = ez).
  { unfold py_get in S2. destruct (_ || _)%bool in S2; [discriminate|]. destruct (nth_error ball_planes _) as [q|] eqn:EQ in S2; [|discriminate]. injection S2 as ->. apply nth_error_In in EQ. unfold ball_planes in EQ. apply in_map_iff in EQ. destruct EQ as (j & <- & _). reflexivity. }
  split. { rewrite PN, new_plane_unit in NP by apply norm_ez. injection NP as <-. reflexivity. }
  unfold fcc_step in ST. cbn [fa_draws] in ST. rewrite (proj2 (Rltb_iff 0 1)) in ST by lra. injection ST as _ <-.
  destruct (C37_transform_moves_crystal_partial _ _ _ CR I) as (_ & _ & _ & MV). intros c f. destruct (MV c f) as [M _]. rewrite (M eq_refl). cbn [apply_pt fa_twin_last]. f_equal.
  unfold ez. cbn. apply vec_eq; vunfold; field.
Qed.

(* ------------------------------------------------------------------ *)
(** * C68 and C87, refuted parts *)
(** scipy's test on the unit cube, with a tolerance *)
Definition cube_find (ps : list vec) (tol : R) (p : vec) : bool :=
  Rleb (- tol) (vx p) && Rleb (vx p) (1 + tol) && (Rleb (- tol) (vy p) && Rleb (vy p) (1 + tol)) && (Rleb (- tol) (vz p) && Rleb (vz p) (1 + tol)).
Definition cube_world : world := mkWorld cube_find (fun _ => true) (fun _ => LPfail 2) (fun _ _ => None) (fun _ _ _ => 0) [].
Definition loose_cube : leaf := mkLeaf (PArr unit_cube) (Some unit_cube) (Some unit_cube) [] None 0 (1/2) None.
(** A host with points and its own tolerance: the prefab tests its copies with the
    default tolerance and loses part of the host. *)
Theorem C68_tolerance_refuted : exists draws aux V p,
  fcc_build cube_world cube_crystal (VLeaf loose_cube) 1 0 (1, 1, 1)%Z 1 draws [0] = Ok (aux, V) /\
  vol_inside cube_world (VLeaf loose_cube) p = true /\ vol_inside cube_world V p = false.
Proof.
  set (h := (1, 1, 1)%Z). set (nv := mv (vo_bases (g_voxel cube_crystal)) (vec_of h)).
  assert (EX : exists s f, extremes (vscale (/ norm nv) nv) (get_bounding_box cube_world loose_cube) (l_alg loose_cube) = Ok (s, f)) by (cbn [get_bounding_box loose_cube l_points unit_cube extremes bind l_alg fold_left]; eauto).
  destruct EX as (s & f & EX).
  destruct (plane_stack_total cube_crystal h s f eq_refl) as (n & pt & d & m & U & D & PS).
  { rewrite sb_cube, det_mI. lra. }
  { cbn. rewrite det_mI. lra. }
  { rewrite sb_cube, minv_mI. replace (mv (mt mI) (vec_of h)) with (vec_of h) by vring. pose proof eps_small.
    pose proof (norm_ge_x (vec_of h)) as X. cbn [vec_of vx h] in X. rewrite Rabs_pos_eq in X by lra. unfold h. cbn [vec_of]. lra. }
  destruct (fcc_builds_stack cube_world cube_crystal loose_cube 1 0 h 1 [0] s f (map (level n pt d) (seq 0 (S m)))) with (prefix := @nil nat) as (r & aux & V & E); try lia; auto.
  { right. exists unit_cube. split; [reflexivity|]. split; [cbn; lia|reflexivity]. }
  { cbn; lia. }
  { cbn. rewrite det_mI. lra. }
  { rewrite map_length, seq_length. lia. }
  cbn [app] in E. exists r, aux, V, (mkV (-1/4) (1/2) (1/2)). split; [exact E|].
  assert (IN : vol_inside cube_world (VLeaf loose_cube) (mkV (-1/4) (1/2) (1/2)) = true).
  { cbn. unfold cube_find. cbn. rewrite !(proj2 (Rleb_iff _ _)) by lra. reflexivity. }
  split; [exact IN|]. unfold fcc_build in E. inv_bind E. inv_bind E. unfold build_defects in E. inv_bind E. inv_bind E. inv_bind E. injection E as _ <-.
  destruct a3 as [[ax gx] vols]. cbn [snd]. apply (loop_ok cube_world loose_cube (fcc_step h 1) 1 (rev a1) a0 _ _ _ 1) in Ha3. destruct Ha3 as (gens & auxs & ms' & -> & _ & _ & _ & _ & _ & _ & _ & M).
  assert (OUT : forall lk, l_tri lk = Some unit_cube -> l_tol lk = default_vtol -> leaf_inside cube_world lk (mkV (-1/4) (1/2) (1/2)) = false).
  { intros lk T1 T2. rewrite leaf_inside_eq, T1, T2. cbn [w_find cube_world]. unfold cube_find. cbn [vx]. rewrite (proj2 (Rleb_false _ _)); [reflexivity|]. unfold default_vtol. lra. }
  cbn [vol_inside existsb]. destruct (leaf_copy _ _ _ _ Ha2) as (_ & _ & _ & CT & _ & CTR). rewrite OUT by auto. cbn [orb].
  apply not_true_iff_false. intros X. apply existsb_exists in X. destruct X as (v & Hin & IN'). apply In_nth_error in Hin. destruct Hin as [k Hk].
  destruct (M k v Hk) as (gp & ap & gk & ak & _ & _ & _ & _ & lk & _ & _ & _ & _ & -> & _ & _ & _ & _ & _ & _ & _ & _ & LT & LTR). cbn [vol_inside] in IN'. rewrite OUT in IN' by auto. discriminate.
Qed.

(** C87: the stack of planes is laid around the coordinate origin whatever the centre of
    a spherical host: for a ball far away every defect plane misses the host and the
    whole ball is the first grain. *)
Theorem C87_planes_miss_host_refuted : forall w, exists draws aux V vols,
  fcc_build w cube_crystal (VLeaf (ball 1 (mkV 0 0 100))) 1 0 (0, 0, 1)%Z 1 draws [0] = Ok (aux, V) /\ V = VMulti 0 vols None /\ length vols = 2%nat /\
  (exists p, vol_inside w V p = true) /\
  forall p, vol_inside w V p = true -> serves w vols 0 p /\ ~ serves w vols 1 p.
Proof.
  intros w. set (h := (0, 0, 1)%Z). set (l := ball 1 (mkV 0 0 100)).
  destruct (fcc_builds_stack w cube_crystal l 1 0 h 1 [0] (mkV 0 0 (IZR (- (1)))) (mkV 0 0 (IZR 1)) (z_planes 1)) with (prefix := @nil nat) as (r & aux & V & E); try lia; auto.
  { left; reflexivity. }
  { cbn; lia. }
  { cbn. rewrite det_mI. lra. }
  { apply (z_extremes w 1). }
  { apply z_stack. lia. }
  { unfold z_planes; rewrite map_length, seq_length; lia. }
  assert (PR : pristine l) by (left; split; reflexivity). pose proof E as E'. cbn [app] in E.
  unfold fcc_build in E. inv_bind E. inv_bind E. unfold l, h in Ha. rewrite z_extremes in Ha. injection Ha as <-. cbn [fst snd] in *. pose proof (z_stack 1 ltac:(lia)) as ZS. cbn [Z.opp] in ZS. unfold h in Ha0. rewrite ZS in Ha0. injection Ha0 as <-.
  unfold z_planes in E. apply build_grains in E; auto; [|lia|lia|apply norm_ez|lra]. destruct E as (vols & defects & gens & auxs & -> & G & _).
  exists r, aux, (VMulti 0 vols None), vols. split; [exact E'|]. split; [reflexivity|]. pose proof (gr_volumes _ _ _ _ _ _ _ _ _ _ _ G) as LV. split; [lia|].
  pose proof (grains_inside _ _ _ _ _ _ _ _ _ _ _ (Z.le_refl 0) G) as GI. pose proof (grains_serves _ _ _ _ _ _ _ _ _ _ _ (Z.le_refl 0) G) as GS.
  assert (SPH : forall p, leaf_inside w l p = true -> 98 < vz p).
  { intros p I. rewrite leaf_inside_eq in I. cbn [l l_tri ball andb l_alg forallb alg_interior] in I. rewrite andb_true_r in I. unfold sphere_interior in I. apply Rltb_iff in I.
    cbn [s_center s_radius s_tol vsub vx vy vz] in I. unfold default_tol in I. nra. }
  split.
  { exists (mkV 0 0 100). rewrite GI, leaf_inside_eq. cbn [l l_tri ball andb l_alg forallb alg_interior]. rewrite andb_true_r. unfold sphere_interior. apply Rltb_iff. cbn [s_center s_radius s_tol].
    cbn [vsub vx vy vz]. unfold default_tol. lra. }
  intros p HP. rewrite GI in HP. specialize (SPH p HP).
  assert (NB : forall pl, In pl defects -> ~ below pl p).
  { intros pl Hin B. apply In_nth_error in Hin. destruct Hin as [i Hi]. destruct (gr_stack _ _ _ _ _ _ _ _ _ _ _ G _ _ Hi) as (s & [S1 S2] & ->).
    change (Z.of_nat (S (Z.to_nat (2 * 1)))) with 3%Z in S2. assert (SS : IZR s <= 2) by (apply IZR_le; lia). unfold below in B. cbn [p_point p_normal p_tol] in B.
    assert (EB : dot (vsub p (vadd (mkV 0 0 (IZR (- (1)))) (vscale (IZR s * 1) ez))) ez = vz p + 1 - IZR s) by (unfold ez; vunfold; rewrite opp_IZR; ring).
    rewrite EB in B. unfold default_tol in B. lra. }
  split; [apply GS; split; auto|]. rewrite GS. intros [_ (pl & H & B & _)]. eapply NB; eauto. eapply nth_error_In; eauto.
Qed.

(** C90: the documented hosts "Volume or MultiVolume" are not all accepted: groups and
    volumes bounded by planes alone make build_object fail. *)
Theorem C90_hosts_refuted : forall w g N min_sep h ratio draws us,
  (forall pr vols c, fcc_build w g (VMulti pr vols c) N min_sep h ratio draws us = Err AttributeError) /\
  (forall l, l_points l = PNone -> spheres_of (l_alg l) = [] -> (3 < length (planes_of (l_alg l)))%nat ->
     fcc_build w g (VLeaf l) N min_sep h ratio draws us = Err AttributeError).
Proof.
  intros. split; [reflexivity|]. intros l P S L. unfold fcc_build, get_bounding_box. rewrite P, S. rewrite (proj2 (Nat.ltb_lt _ _) L).
  destruct (bounding_box_planes _ _ _). reflexivity.
Qed.
(** Every host with (at least four, triangulable) points or a sphere is accepted: with
    min_sep = 0 any number of defects can be built. *)
Theorem C90_hosts_partial : forall w g l N h ratio us, usable_planes g h -> copyable w l -> bounded_host l ->
  (1 <= N)%Z -> (N <= Z.of_nat (length us))%Z ->
  exists draws aux V, fcc_build w g (VLeaf l) N 0 h ratio draws us = Ok (aux, V).
Proof.
  intros w g l N h ratio us UP HC HB HN HU. destruct (C84_fcc_builds w g l h UP HC HB) as (lo & hi & count & _ & _ & C1 & H).
  destruct (H N 0%Z ratio us HN ltac:(lia) HU) as [F _]. destruct (F ltac:(lia) []) as (rest & aux & V & E). eauto.
Qed.
Lemma cube_usable h : eps < norm (vec_of h) -> usable_planes cube_crystal h.
Proof.
  intros H. split; [reflexivity|]. rewrite sb_cube. change (vo_bases (g_voxel cube_crystal)) with mI; change (st_matrix (g_structure cube_crystal)) with mI. rewrite det_mI. repeat split; try lra.
  exists (vec_of h). split; [vring|exact H].
Qed.
Example C90_nonvacuous : (forall w, copyable w ball5) /\ bounded_host ball5 /\ usable_planes cube_crystal (0, 0, 1)%Z /\
  (let l := mkLeaf PNone None None (repeat (APlane (mkPlane ez v0 default_tol)) 4) None 0 default_vtol None in
   l_points l = PNone /\ spheres_of (l_alg l) = [] /\ (3 < length (planes_of (l_alg l)))%nat).
Proof.
  split; [left; reflexivity|]. split; [right; split; [reflexivity|eexists; left; reflexivity]|].
  split; [apply cube_usable; change (vec_of (0, 0, 1)%Z) with ez; rewrite norm_ez; pose proof eps_small; lra|].
  cbn. repeat split; auto.
Qed.
