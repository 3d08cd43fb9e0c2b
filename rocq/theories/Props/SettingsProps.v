(** Priorities, tolerances and warnings (C131). *)
From Coq Require Import Reals List Bool ZArith Lra Lia.
From Verif.Model Require Import Base Vec Settings Molecule.
From Verif.Spec Require Import GenObjSpec SettingsSpec.
From Verif.Props Require Import MoleculeProps.
Import ListNotations.
Open Scope R_scope.

Lemma s_run_snoc s h o : s_run s (h ++ [o]) = fst (s_step (s_run s h) o).
Proof. unfold s_run. rewrite fold_left_app. reflexivity. Qed.
Lemma s_kind h : forall s, se_kind (s_run s h) = se_kind s.
Proof.
  induction h as [|o h IH] using rev_ind; intros s; [reflexivity|]. rewrite s_run_snoc, <- (IH s). destruct (s_run s h) as [k p t w].
  destruct o as [v|v|v], k; cbn; try destruct (is_int v); try destruct (is_np_integer v); try destruct (is_float v); try destruct (is_bool v); reflexivity.
Qed.

(** C131, first part.  After any history each setting is the last value it accepted. *)
Theorem C131_settings : forall h s, let s' := s_run s h in
  latest (priority_given (se_kind s)) (se_priority s) h (se_priority s') /\
  (se_kind s = KVolume -> latest tolerance_given (se_tolerance s) h (se_tolerance s')) /\
  (se_kind s = KMolecule -> latest warn_given (se_warn s) h (se_warn s')).
Proof.
  intros h s. cbv zeta. induction h as [|o h IH] using rev_ind.
  - repeat split; intros; constructor.
  - destruct IH as (I1 & I2 & I3). assert (K := s_kind h s). rewrite s_run_snoc. set (q := s_run s h) in *. clearbody q. destruct q as [k p t w].
    cbn [se_kind se_priority se_tolerance se_warn] in *. rewrite <- K in *. clear K.
    assert (NO : forall (P : set_op -> pyval -> Prop) b x, latest P b h x -> (forall y, ~ P o y) -> latest P b (h ++ [o]) x) by (intros; eapply latest_keep; eauto).
    destruct o as [v|v|v].
    + split; [|split; intros E; apply I2 in E || apply I3 in E].
      * destruct k; cbn.
        -- destruct v; cbn; try (eapply latest_set; [exact I1|constructor; cbn; eauto]); apply NO; auto; intros y Q; inversion Q as [? T]; subst; destruct T as [[? T]|[? T]]; discriminate.
        -- destruct v; cbn; try (eapply latest_set; [exact I1|constructor; cbn; eauto]); apply NO; auto; intros y Q; inversion Q as [? T]; subst; destruct T as [[? T]|[? T]]; discriminate.
        -- destruct v; cbn; try (eapply latest_set; [exact I1|constructor; cbn; eauto]); apply NO; auto; intros y Q; inversion Q as [? T]; subst; destruct T as [? [T|T]]; discriminate.
      * apply NO; [|intros y Q; inversion Q]. destruct k, v; exact E.
      * apply NO; [|intros y Q; inversion Q]. destruct k, v; exact E.
    + split; [|split; intros E].
      * apply NO; [|intros y Q; inversion Q]. destruct k, v; exact I1.
      * subst k. specialize (I2 eq_refl). destruct v; cbn; try (apply NO; [exact I2|intros y Q; inversion Q]). eapply latest_set; [exact I2|constructor].
      * apply NO; [|intros y Q; inversion Q]. subst k. exact (I3 eq_refl).
    + split; [|split; intros E].
      * apply NO; [|intros y Q; inversion Q]. destruct k, v; exact I1.
      * apply NO; [|intros y Q; inversion Q]. subst k. exact (I2 eq_refl).
      * subst k. specialize (I3 eq_refl). destruct v; cbn; try (apply NO; [exact I3|intros y Q; inversion Q]). eapply latest_set; [exact I3|constructor].
Qed.
(** what is refused, with which exception; a refused value changes nothing *)
Theorem C131_refused : forall s o,
  (match o, se_kind s with
   | SPriority v, k => (takes_priority k v -> snd (s_step s o) = Ok tt) /\ (~ takes_priority k v -> s_step s o = (s, Err TypeError))
   | STolerance v, KVolume => (forall r, v = VFloat r -> snd (s_step s o) = Ok tt) /\ ((forall r, v <> VFloat r) -> s_step s o = (s, Err AssertionError))
   | SWarn v, KMolecule => (forall b, v = VBool b -> snd (s_step s o) = Ok tt) /\ ((forall b, v <> VBool b) -> s_step s o = (s, Err TypeError))
   | _, _ => True
   end).
Proof.
  intros [k p t w] o. cbn [se_kind]. destruct o as [v|v|v].
  - split.
    + intros T. destruct k; cbn in T; [destruct T as [[z ->]|[z ->]]|destruct T as [[z ->]|[z ->]]|destruct T as (z & [-> | ->])]; reflexivity.
    + intros T. destruct k, v; try reflexivity; exfalso; apply T; cbn; eauto.
  - destruct k; try exact I. split; [intros r ->; reflexivity|]. intros N. destruct v; try reflexivity. exfalso. eapply N. reflexivity.
  - destruct k; try exact I. split; [intros r ->; reflexivity|]. intros N. destruct v; try reflexivity. exfalso. eapply N. reflexivity.
Qed.
(** every kind of object takes every Python int as its priority *)
Theorem C131_ints : forall s z, snd (s_step s (SPriority (VInt z))) = Ok tt /\ se_priority (fst (s_step s (SPriority (VInt z)))) = VInt z.
Proof. intros [k p t w] z. destruct k; split; reflexivity. Qed.
(** C131 fails: whole numbers taken from an array are a priority for a molecule but not for a
    volume, and truth values the other way round *)
Theorem C131_priority_refuted : forall vol mol z b, se_kind vol <> KMolecule -> se_kind mol = KMolecule ->
  s_step vol (SPriority (VNpInt z)) = (vol, Err TypeError) /\ snd (s_step mol (SPriority (VNpInt z))) = Ok tt /\
  snd (s_step vol (SPriority (VBool b))) = Ok tt /\ s_step mol (SPriority (VBool b)) = (mol, Err TypeError).
Proof. intros [k p t w] [k' p' t' w'] z b N E. cbn in *. subst k'. destruct k; try contradiction; repeat split; reflexivity. Qed.
(** and a tolerance that the constructor takes is refused by the setter *)
Theorem C131_tolerance_refuted : forall x v, real_number v x -> (forall r, v <> VFloat r) ->
  exists s, init_volume (VInt 0) v = Ok s /\ se_tolerance s = v /\ s_step s (STolerance v) = (s, Err AssertionError).
Proof. intros x v H N. eexists. split; [reflexivity|]. split; [reflexivity|]. destruct H; try reflexivity. exfalso. eapply N. reflexivity. Qed.
(** the constructors: priority 0 unless one is given, which must pass the same test *)
Theorem C131_made : forall p t,
  (takes_priority KVolume p -> init_volume p t = Ok (mkSet KVolume p t (VBool true))) /\ (~ takes_priority KVolume p -> init_volume p t = Err TypeError) /\
  init_multi None = init_multi (Some (VInt 0)) /\
  (forall s, init_multi (Some p) = Ok s <-> takes_priority KMulti p /\ s = mkSet KMulti p (VFloat 0) (VBool true)) /\
  se_priority init_molecule = VInt 0 /\ se_warn init_molecule = VBool true.
Proof.
  intros p t. split; [|split; [|split; [reflexivity|split; [|split; reflexivity]]]].
  - intros [[z ->]|[z ->]]; reflexivity.
  - intros N. destruct p; try reflexivity; exfalso; apply N; cbn; eauto.
  - intros s. split.
    + intros H. destruct p; cbn in H; try discriminate; injection H as <-; split; cbn; eauto.
    + intros [[[z ->]|[z ->]] ->]; reflexivity.
Qed.
Example C131_nonvacuous : exists s, init_volume (VInt 3) (VFloat (1/10)) = Ok s /\ se_kind s = KVolume /\
  s_run s [SPriority (VInt 5); STolerance (VFloat 2); SPriority (VNpInt 7); STolerance (VInt 1)] = mkSet KVolume (VInt 5) (VFloat 2) (VBool true) /\
  real_number (VInt 1) 1 /\ (forall r, VInt 1 <> VFloat r).
Proof. eexists. split; [reflexivity|]. split; [reflexivity|]. split; [reflexivity|]. split; [constructor|]. intros r H. discriminate. Qed.

(** In the model of molecules with all their calls: after any history the priority is the last
    integer assigned, whatever else was called, and other values are refused. *)
Inductive asks_prio : mol_op -> Z -> Prop := ask_prio z : asks_prio (OPriority (PInt z)) z.
Theorem C131_molecule_ever : forall (m : molecule) ops, latest asks_prio (m_prio m) ops (m_prio (history m ops)) /\
  mol_step m (OPriority POther) = (m, Err TypeError).
Proof.
  intros m ops. split; [|reflexivity]. induction ops as [|o ops IH] using rev_ind; [constructor|]. unfold history in *. rewrite fold_left_app. cbn [fold_left].
  set (q := fold_left _ ops m) in *. clearbody q.
  assert (SA : forall q s p q', set_atoms q s p = Ok q' -> m_prio q' = m_prio q).
  { clear. intros q s p q' H. unfold set_atoms in H. destruct (_ =? _)%nat; [|discriminate]. injection H as <-. reflexivity. }
  assert (SO : forall q r q', set_orientation q r = Ok q' -> m_prio q' = m_prio q).
  { clear. intros q r q' H. unfold set_orientation in H. destruct (Rltb _ _); [discriminate|]. destruct (Rltb _ _); [discriminate|]. injection H as <-. reflexivity. }
  assert (K : (forall y, ~ asks_prio o y) -> m_prio (fst (mol_step q o)) = m_prio q -> latest asks_prio (m_prio m) (ops ++ [o]) (m_prio (fst (mol_step q o)))) by (intros N ->; eapply latest_keep; eauto).
  destruct o as [s p|p|s|ix n|t b|p|i|r| |[z|]];
    try (apply K; [solve [intros y Q; inversion Q]|]; cbn [mol_step]; unfold keep_on_err).
  - destruct (set_atoms q s p) eqn:E; cbn; eauto.
  - unfold update_positions. match goal with |- context [match ?x with Ok _ => _ | Err _ => _ end] => destruct x eqn:E end; cbn; [|reflexivity].
    repeat match type of E with context [if ?b then _ else _] => destruct b; [|try discriminate E] end; try discriminate E; injection E as <-; reflexivity.
  - unfold update_species. match goal with |- context [match ?x with Ok _ => _ | Err _ => _ end] => destruct x eqn:E end; cbn; [|reflexivity].
    repeat match type of E with context [if ?b then _ else _] => destruct b; [|try discriminate E] end; try discriminate E; injection E as <-; reflexivity.
  - unfold remove_atoms_st. destruct (bind _ _); [|reflexivity]. destruct (np_delete (m_species q) ix); [|reflexivity]. cbn. destruct (np_delete (m_atoms q) ix); reflexivity.
  - unfold mol_transform_st. destruct (set_atoms q _ _) eqn:E; cbn; [|reflexivity]. destruct b; [|cbn; eauto]. destruct (m_tracking _); [cbn; eauto|]. destruct (mol_origin _); cbn; eauto.
  - reflexivity.
  - unfold set_origin_idx. destruct i; [destruct (_ <? _)%Z|]; reflexivity.
  - destruct (set_orientation q r) eqn:E; cbn; eauto.
  - unfold reset_orientation. destruct (set_orientation q mI) eqn:E; cbn; eauto.
  - eapply latest_set; [exact IH|constructor].
  - reflexivity.
Qed.
