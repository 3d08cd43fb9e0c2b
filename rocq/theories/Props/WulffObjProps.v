(** C137: Wulff constructions under any history of assignments, edits and calls. *)
From Coq Require Import Reals List ZArith Bool Lra Lia.
From Flocq Require Import Core.Raux.
From Verif.Model Require Import Base Vec Algebraic Transform Voxel Strain Generator Volume Wulff WulffObj.
From Verif.Spec Require Import WulffSpec GenObjSpec WulffObjSpec.
From Verif.Proofs Require Import VecFacts AlgFacts VolumeFacts VolTransFacts GenFacts PrefabFacts WulffFacts.
From Verif.Props Require Import GeneratorProps PrefabProps WulffProps.
Import ListNotations.
Open Scope R_scope.

Definition dict_of (l : list (list Z * R)) : pyval := VDict (map (fun kv => (KTuple (fst kv), VFloat (snd kv))) l).
Lemma set_energies_iff v e : set_energies v = Ok e <-> v = dict_of e.
Proof.
  destruct v as [| |l|]; cbn; try (split; discriminate). revert e. induction l as [|[k x] l IH]; intros e; cbn.
  - split; [intros [= <-]; reflexivity|]. destruct e; [reflexivity|discriminate].
  - unfold dict_of in *. split.
    + intros H. inv_bind H. inv_bind H. injection H as <-. destruct k; cbn in Ha; [|discriminate]. destruct x; try discriminate. injection Ha as <-.
      apply IH in Ha0. injection Ha0 as ->. reflexivity.
    + destruct e as [|[k' x'] e]; [discriminate|]. cbn. intros [= -> -> ->]. cbn. rewrite (proj2 (IH e) eq_refl). reflexivity.
Qed.
Lemma set_natoms_iff v n : set_natoms v = Ok n <-> names_size (WNatoms v) n.
Proof.
  split.
  - destruct v; cbn; intros H; try discriminate; injection H as <-; constructor.
  - intros H. inversion H; reflexivity.
Qed.
Lemma names_energies_iff v e : set_energies v = Ok e <-> names_energies (WEnergies v) e.
Proof.
  rewrite set_energies_iff. split.
  - intros ->. constructor.
  - intros H. inversion H. reflexivity.
Qed.
Lemma particle_volume_shape w g p : unit_facets (concat (pa_forms p)) ->
  exists V, particle_volume w g p = Ok V /\ wulff_shape w V g (concat (pa_forms p)).
Proof.
  intros U. destruct (plane_volume_shape w g _ U) as (l & E & _ & G & _ & _ & I).
  unfold particle_volume. rewrite planes_wulff_ok by assumption. cbn [bind]. rewrite E. cbn [bind].
  exists (VLeaf l). split; [reflexivity|]. exists l. auto.
Qed.

(** the settings and the remembered particle after any history *)
Lemma wulff_state w wp g0 a0 n0 e0 h :
  let s := w_run w wp (mkWO g0 a0 n0 e0 None) h in
  latest names_gen g0 h (wo_gen s) /\ latest names_atoms a0 h (wo_atoms s) /\
  latest names_size n0 h (wo_natoms s) /\ latest names_energies e0 h (wo_energies s) /\
  remembered wp a0 n0 e0 h (wo_wulff s).
Proof.
  induction h as [|o h IH] using rev_ind; cbn zeta; [repeat split; constructor|].
  unfold w_run in *. rewrite fold_left_app. cbn [fold_left]. cbn zeta in IH.
  destruct (fold_left (fun s o => fst (w_step w wp s o)) h (mkWO g0 a0 n0 e0 None)) as [g a n e p].
  cbn [wo_gen wo_atoms wo_natoms wo_energies wo_wulff] in IH. destruct IH as (G & A & N & E & M).
  assert (QM : ~ wants_particle o -> remembered wp a0 n0 e0 (h ++ [o]) p).
  { intros Q. destruct p; [apply rem_keep; exact M|apply rem_other; assumption]. }
  assert (QW : wants_particle o ->
     let s' := fst (w_particle wp (mkWO g a n e p)) in
     wo_gen s' = g /\ wo_atoms s' = a /\ wo_natoms s' = n /\ wo_energies s' = e /\ remembered wp a0 n0 e0 (h ++ [o]) (wo_wulff s')).
  { intros Q. unfold w_particle. cbn [wo_wulff wo_energies wo_atoms wo_natoms wo_gen]. destruct p as [p|].
    - cbn. repeat split; auto. apply rem_keep. exact M.
    - destruct (wp_single wp e a n) eqn:X; cbn; repeat split; auto; [eapply rem_compute|eapply rem_fail]; eauto. }
  assert (NW : ~ wants_particle o -> (o <> WConstruct /\ o <> WConstructAreas)) by (unfold wants_particle; tauto).
  destruct o as [[g'|]|v|v|g'|l| | | |i x]; cbn [w_step fst].
  - cbn. repeat split; [eapply latest_set; eauto; constructor|eapply latest_set; eauto; constructor| | |apply QM; intros [|]; discriminate];
      eapply latest_keep; eauto; intros y Q; inversion Q.
  - cbn. repeat split; [| | | |apply QM; intros [|]; discriminate]; eapply latest_keep; eauto; intros y Q; inversion Q.
  - destruct (set_natoms v) as [n'|x] eqn:X; cbn; repeat split; try (apply QM; intros [|]; discriminate);
      try (eapply latest_keep; eauto; intros y Q; solve [inversion Q | apply set_natoms_iff in Q; congruence]).
    eapply latest_set; eauto. apply set_natoms_iff. exact X.
  - destruct (set_energies v) as [n'|x] eqn:X; cbn; repeat split; try (apply QM; intros [|]; discriminate);
      try (eapply latest_keep; eauto; intros y Q; solve [inversion Q | apply names_energies_iff in Q; congruence]).
    eapply latest_set; eauto. apply names_energies_iff. exact X.
  - cbn. repeat split; [eapply latest_set; eauto; constructor| | | |apply QM; intros [|]; discriminate]; eapply latest_keep; eauto; intros y Q; inversion Q.
  - cbn. repeat split; [| | |eapply latest_set; eauto; constructor|apply QM; intros [|]; discriminate]; eapply latest_keep; eauto; intros y Q; inversion Q.
  - destruct (QW (or_introl eq_refl)) as (Q1 & Q2 & Q3 & Q4 & Q5). destruct (w_particle wp (mkWO g a n e p)) as [s' r]. cbn [fst] in *.
    rewrite Q1, Q2, Q3, Q4. repeat split; [| | | |exact Q5]; eapply latest_keep; eauto; intros y Q; inversion Q.
  - destruct (QW (or_intror eq_refl)) as (Q1 & Q2 & Q3 & Q4 & Q5). destruct (w_particle wp (mkWO g a n e p)) as [s' r]. cbn [fst] in *.
    rewrite Q1, Q2, Q3, Q4. repeat split; [| | | |exact Q5]; eapply latest_keep; eauto; intros y Q; inversion Q.
  - cbn. repeat split; [| | | |apply QM; intros [|]; discriminate]; eapply latest_keep; eauto; intros y Q; inversion Q.
  - cbn. repeat split; [| | | |apply QM; intros [|]; discriminate]; eapply latest_keep; eauto; intros y Q; inversion Q.
Qed.

(** C137.  After any history, get_construction returns the particle remembered from the first
    successful computation, or computes it from the settings in force now; it is filled with
    the generator in force now; get_areas reports the fractions of the remembered particle and
    raises if there is none; winterbottom follows the settings in force now. *)
Theorem C137_any_history : forall w wp g0 E N n0 e0 h,
  names_size (WNatoms N) n0 -> names_energies (WEnergies E) e0 ->
  exists s0 g a n e r, new_wobj g0 E N = Ok s0 /\
    latest names_gen g0 h g /\ latest names_atoms (g_structure g0) h a /\
    latest names_size n0 h n /\ latest names_energies e0 h e /\
    remembered wp (g_structure g0) n0 e0 h r /\
    let s := w_run w wp s0 h in
    wo_gen s = g /\ wo_natoms s = n /\ wo_energies s = e /\
    (forall p, r = Some p \/ (r = None /\ wp_single wp e a n = Ok p) -> unit_facets (concat (pa_forms p)) ->
      exists V, snd (w_step w wp s WConstruct) = Ok (OVolume V) /\
        snd (w_step w wp s WConstructAreas) = Ok (OBoth V (pa_fractions p)) /\
        wulff_shape w V g (concat (pa_forms p))) /\
    (forall x, r = None -> wp_single wp e a n = Err x ->
      snd (w_step w wp s WConstruct) = Err x /\ snd (w_step w wp s WConstructAreas) = Err x) /\
    snd (w_step w wp s WAreas) = match r with Some p => Ok (OAreas (pa_fractions p)) | None => Err AttributeError end /\
    (forall i y p, wp_winterbottom wp e i y a n = Ok p -> unit_facets (concat (pa_forms p)) ->
      exists V, snd (w_step w wp s (WWinterbottom i y)) = Ok (OVolume V) /\ wulff_shape w V g (concat (pa_forms p))) /\
    (forall i y x, wp_winterbottom wp e i y a n = Err x -> snd (w_step w wp s (WWinterbottom i y)) = Err x).
Proof.
  intros w wp g0 E N n0 e0 h HN HE. apply set_natoms_iff in HN. apply names_energies_iff in HE.
  pose proof (wulff_state w wp g0 (g_structure g0) n0 e0 h) as H. cbn zeta in H.
  set (s0 := mkWO g0 (g_structure g0) n0 e0 None) in *. exists s0.
  exists (wo_gen (w_run w wp s0 h)), (wo_atoms (w_run w wp s0 h)), (wo_natoms (w_run w wp s0 h)), (wo_energies (w_run w wp s0 h)), (wo_wulff (w_run w wp s0 h)).
  split; [unfold new_wobj; rewrite HN; cbn [bind]; rewrite HE; reflexivity|].
  destruct H as (H1 & H2 & H3 & H4 & H5). do 5 (split; [assumption|]). cbn zeta.
  destruct (w_run w wp s0 h) as [g a n e p]. cbn [wo_gen wo_atoms wo_natoms wo_energies wo_wulff].
  do 3 (split; [reflexivity|]). repeat split.
  - intros q Hq U. destruct (particle_volume_shape w g q U) as (V & EV & SV). exists V.
    cbn [w_step]. unfold w_particle. cbn [wo_gen wo_atoms wo_natoms wo_energies wo_wulff].
    destruct Hq as [->|[-> Hq]]; [|rewrite Hq]; cbn [wo_gen snd bind]; rewrite EV; cbn [bind]; auto.
  - subst p. cbn [w_step]. unfold w_particle. cbn [wo_gen wo_atoms wo_natoms wo_energies wo_wulff]. rewrite H0. reflexivity.
  - subst p. cbn [w_step]. unfold w_particle. cbn [wo_gen wo_atoms wo_natoms wo_energies wo_wulff]. rewrite H0. reflexivity.
  - intros i y q Hq U. destruct (particle_volume_shape w g q U) as (V & EV & SV). exists V. cbn [w_step snd]. rewrite Hq. cbn [bind]. rewrite EV. cbn [bind]. auto.
  - intros i y x Hq. cbn [w_step snd]. rewrite Hq. reflexivity.
Qed.

(** the specification determines the remembered particle and the settings *)
Lemma app_one_inv {A} (h k : list A) a b : h ++ [a] = k ++ [b] -> h = k /\ a = b.
Proof. apply app_inj_tail. Qed.
Lemma latest_unique {A B} (P : A -> B -> Prop) (D : forall o x y, P o x -> P o y -> x = y) b h x : latest P b h x -> forall y, latest P b h y -> x = y.
Proof.
  induction 1 as [b|b h o x y L IH Q|b h o x L IH Q]; intros z Hz.
  - inversion Hz as [?|? ? ? ? ? ? ? E|? ? ? ? ? ? E]; auto; destruct h; discriminate.
  - inversion Hz as [? E|? h' o' ? ? ? Q' E|? h' o' ? ? Q' E]; [destruct h; discriminate| |]; subst;
      match goal with E : _ ++ [_] = _ ++ [_] |- _ => apply app_one_inv in E as [-> ->] end; [eauto|exfalso; eapply Q'; eauto].
  - inversion Hz as [? E|? h' o' ? ? ? Q' E|? h' o' ? ? Q' E]; [destruct h; discriminate| |]; subst;
      match goal with E : _ ++ [_] = _ ++ [_] |- _ => apply app_one_inv in E as [-> ->] end; [exfalso; eapply Q; eauto|auto].
Qed.
Lemma dict_inj l l' : map (fun kv : list Z * R => (KTuple (fst kv), VFloat (snd kv))) l = map (fun kv => (KTuple (fst kv), VFloat (snd kv))) l' -> l = l'.
Proof.
  revert l'. induction l as [|[k x] l IH]; intros [|[k' x'] l']; cbn; try discriminate; [reflexivity|]. intros [= -> -> E]. f_equal. auto.
Qed.
Theorem C137_determined : forall wp g0 a0 n0 e0 h,
  (forall g g', latest names_gen g0 h g -> latest names_gen g0 h g' -> g = g') /\
  (forall a a', latest names_atoms a0 h a -> latest names_atoms a0 h a' -> a = a') /\
  (forall n n', latest names_size n0 h n -> latest names_size n0 h n' -> n = n') /\
  (forall e e', latest names_energies e0 h e -> latest names_energies e0 h e' -> e = e') /\
  (forall r r', remembered wp a0 n0 e0 h r -> remembered wp a0 n0 e0 h r' -> r = r').
Proof.
  intros wp g0 a0 n0 e0 h.
  assert (DG : forall o x y, names_gen o x -> names_gen o y -> x = y) by (intros o x y A B; inversion A; subst; inversion B; auto).
  assert (DA : forall o x y, names_atoms o x -> names_atoms o y -> x = y) by (intros o x y A B; inversion A; subst; inversion B; auto).
  assert (DN : forall o x y, names_size o x -> names_size o y -> x = y) by (intros o x y A B; inversion A; subst; inversion B; auto).
  assert (DE : forall o x y, names_energies o x -> names_energies o y -> x = y).
  { intros o x y A B. destruct A; inversion B as [l' E1 E2|l' E1 E2]; auto; apply dict_inj; congruence. }
  repeat split; intros x y A B.
  - exact (latest_unique _ DG _ _ _ A _ B).
  - exact (latest_unique _ DA _ _ _ A _ B).
  - exact (latest_unique _ DN _ _ _ A _ B).
  - exact (latest_unique _ DE _ _ _ A _ B).
  - revert y B. induction A as [|h o a n e p A IH W L1 L2 L3 C|h o a n e z A IH W L1 L2 L3 C|h o A IH W|h o p A IH]; intros y B;
      inversion B as [E|h' o' a' n' e' p' B' W' M1 M2 M3 C' E|h' o' a' n' e' z' B' W' M1 M2 M3 C' E|h' o' B' W' E|h' o' p' B' E];
      try (destruct h; discriminate); auto; try (destruct h'; discriminate); apply app_one_inv in E as [-> ->]; auto;
      try (rewrite <- (latest_unique _ DA _ _ _ L1 _ M1), <- (latest_unique _ DN _ _ _ L2 _ M2), <- (latest_unique _ DE _ _ _ L3 _ M3) in C'; congruence);
      try contradiction; try (apply IH in B'; congruence).
Qed.

(** constructed at size 10, then enlarged and given other energies by editing the dictionary:
    the construction stays at 10, winterbottom follows *)
Example C137_nonvacuous :
  let h := [WNatoms (VFloat (19 / 2)); WNatoms VOther; WNatoms (VInt 10); WConstruct; WNatoms (VInt 20); WEditEnergies cube_energies] in
  names_size (WNatoms (VInt 5)) 5 /\ names_energies (WEnergies (dict_of cube_energies)) cube_energies /\
  remembered cube_pack (g_structure cube_crystal) 5 cube_energies h (Some (cube_particle 10)) /\
  latest names_size 5%Z h 20%Z /\ unit_facets (concat (pa_forms (cube_particle 10))).
Proof.
  cbn zeta.
  assert (A : forall h, (forall o, In o h -> forall y, ~ names_atoms o y) -> latest names_atoms (g_structure cube_crystal) h (g_structure cube_crystal)).
  { induction h as [|o h IH] using rev_ind; intros Q; [constructor|]. apply latest_keep; [apply IH; intros; apply Q, in_or_app; auto|apply Q, in_or_app; right; left; reflexivity]. }
  assert (E : forall h, (forall o, In o h -> forall y, ~ names_energies o y) -> latest names_energies cube_energies h cube_energies).
  { induction h as [|o h IH] using rev_ind; intros Q; [constructor|]. apply latest_keep; [apply IH; intros; apply Q, in_or_app; auto|apply Q, in_or_app; right; left; reflexivity]. }
  assert (N1 : latest names_size 5%Z [WNatoms (VFloat (19 / 2)); WNatoms VOther; WNatoms (VInt 10)] 10%Z).
  { apply (latest_set names_size 5%Z [_; _] _ (Ztrunc (19 / 2))); [|constructor]. apply (latest_keep names_size 5%Z [_]); [|intros y Q; inversion Q].
    apply (latest_set names_size 5%Z [] _ 5%Z); constructor. }
  split; [constructor|]. split; [apply names_energies_iff, set_energies_iff; reflexivity|]. split; [|split].
  - apply (rem_keep _ _ _ _ [_; _; _; _; _]). apply (rem_keep _ _ _ _ [_; _; _; _]). 
    apply (rem_compute _ _ _ _ [_; _; _] _ (g_structure cube_crystal) 10 cube_energies).
    + assert (K : forall v, ~ wants_particle (WNatoms v)) by (intros v [|]; discriminate).
      apply (rem_other _ _ _ _ [_; _]); [|apply K]. apply (rem_other _ _ _ _ [_]); [|apply K]. apply (rem_other _ _ _ _ []); [constructor|apply K].
    + left. reflexivity.
    + apply A. intros o [<-|[<-|[<-|[]]]] y Q; inversion Q.
    + exact N1.
    + apply E. intros o [<-|[<-|[<-|[]]]] y Q; inversion Q.
    + reflexivity.
  - apply (latest_keep names_size 5%Z [_; _; _; _; _]); [|intros y Q; inversion Q]. apply (latest_set names_size 5%Z [_; _; _; _] _ 10%Z); [|constructor].
    apply (latest_keep names_size 5%Z [_; _; _]); [exact N1|intros y Q; inversion Q].
  - cbn [pa_forms cube_particle concat]. rewrite app_nil_r. apply cube_unit.
Qed.
