(** Adsorbates: C65, C66, C67, C81. *)
From Coq Require Import String Reals List ZArith Bool Lra Lia.
From Verif.Model Require Import Base Vec Transform Volume Molecule AlphaShape Adsorbate.
From Verif.Spec Require Import Geometry.
From Verif.Proofs Require Import VecFacts AlgFacts VolumeFacts.
From Verif.Props Require Import TransformProps MoleculeProps.
Import ListNotations.
Open Scope R_scope.

(* ---------------- C66 ---------------- *)
Section NormalFacts.
Variables (points : list vec) (decay tol margin : R).
Notation upd := (normal_update decay margin).
Notation loop := (normal_loop points decay tol margin).
Lemma w_init_norm : 0 < norm w_init.
Proof.
  pose proof (norm_pos w_init). destruct (Req_EM_T (norm w_init) 0) as [E|]; [|lra]. apply norm_zero in E. unfold w_init, v0 in E. inversion E. lra.
Qed.
Lemma stop_nil : stop_now tol [] = false. Proof. reflexivity. Qed.
(** With vectors inside the unit ball and a decay below 1 the update never divides by
    zero once the guess is a unit vector. *)
Lemma upd_unit w x j : 0 < decay < 1 -> norm x <= 1 -> norm w = 1 -> (1 <= j)%nat ->
  upd (Some w) x j = None \/ exists w' d, upd (Some w) x j = Some (Some w', d) /\ norm w' = 1.
Proof.
  intros D X W J. unfold normal_update. destruct (Rleb margin (dot w x)); auto. right.
  destruct (Reqb (norm (vsub w (vscale (decay ^ j) x))) 0) eqn:E.
  - exfalso. apply Reqb_iff in E. apply norm_zero in E. assert (EW : w = vscale (decay ^ j) x).
    { apply vec_eq; [apply (f_equal vx) in E|apply (f_equal vy) in E|apply (f_equal vz) in E]; cbn in *; lra. }
    assert (N : norm w = decay ^ j * norm x). { rewrite EW, norm_scale, Rabs_pos_eq; auto. apply pow_le; lra. }
    assert (P : decay ^ j < 1). { apply pow_lt_1_compat; [lra|lia]. }
    assert (0 < decay ^ j) by (apply pow_lt; lra). pose proof (norm_pos x). nra.
  - apply Reqb_false in E. eexists. eexists. split; [reflexivity|]. pose proof (norm_pos (vsub w (vscale (decay ^ j) x))) as P.
    rewrite norm_scale, Rabs_pos_eq; [apply Rinv_l; auto|]. left. apply Rinv_0_lt_compat. lra.
Qed.
Lemma loop_unit seq : forall w j wl, 0 < decay < 1 -> Forall (fun x => norm x <= 1) points ->
  Forall (fun k => (k < length points)%nat) seq -> seq <> [] -> norm w = 1 -> (1 <= j)%nat ->
  exists w', loop seq (Some w) j wl = Ok (Some w') /\ norm w' = 1.
Proof.
  induction seq as [|k seq IH]; intros w j wl D P S NE W J; [congruence|]. inversion S as [|? ? Hk S']; subst.
  assert (X : norm (nth k points v0) <= 1) by (rewrite Forall_forall in P; apply P, nth_In; auto).
  cbn [normal_loop]. destruct (upd_unit w (nth k points v0) j D X W J) as [E|(w' & d & E & W')]; rewrite E.
  - destruct (stop_now tol wl); [eauto|]. destruct seq as [|k' seq]; [eauto|]. apply IH; auto; discriminate.
  - destruct (stop_now tol (d :: wl)); [eauto|]. destruct seq as [|k' seq]; [eauto|]. apply IH; auto; discriminate.
Qed.
(** Until a drawn point has guess @ x >= margin nothing happens. *)
Lemma loop_idle seq : seq <> [] -> Forall (fun k => dot w_init (nth k points v0) < margin) seq ->
  loop seq (Some w_init) 0 [] = Ok (Some w_init).
Proof.
  induction seq as [|k seq IH]; intros NE F; [congruence|]. inversion F as [|? ? H F']; subst.
  cbn [normal_loop normal_update]. rewrite (proj2 (Rleb_false _ _) H). cbn [stop_now length Nat.ltb andb].
  destruct seq; [reflexivity|]. apply IH; auto; discriminate.
Qed.
Lemma loop_first seq : 0 < decay < 1 -> Forall (fun x => norm x <= 1 /\ x <> w_init) points ->
  Forall (fun k => (k < length points)%nat) seq -> Exists (fun k => margin <= dot w_init (nth k points v0)) seq ->
  exists w', loop seq (Some w_init) 0 [] = Ok (Some w') /\ norm w' = 1.
Proof.
  intros D P S. induction seq as [|k seq IH]; intros H; [inversion H|]. inversion S as [|? ? Hk S']; subst.
  assert (P1 : Forall (fun x => norm x <= 1) points) by (eapply Forall_impl; [|exact P]; cbn; tauto).
  destruct (Rle_dec margin (dot w_init (nth k points v0))) as [M|M].
  - cbn [normal_loop normal_update]. rewrite (proj2 (Rleb_iff _ _) M).
    destruct (Reqb (norm (vsub w_init (vscale (decay ^ 0) (nth k points v0)))) 0) eqn:E.
    + exfalso. apply Reqb_iff in E. apply norm_zero in E. rewrite Forall_forall in P. apply (P (nth k points v0)); [apply nth_In; auto|].
      apply vec_eq; [apply (f_equal vx) in E|apply (f_equal vy) in E|apply (f_equal vz) in E]; cbn in *; lra.
    + apply Reqb_false in E. set (w1 := vsub w_init _) in *. pose proof (norm_pos w1).
      assert (U : norm (vscale (/ norm w1) w1) = 1) by (rewrite norm_scale, Rabs_pos_eq; [apply Rinv_l; auto|left; apply Rinv_0_lt_compat; lra]).
      destruct (stop_now tol _); [eauto|]. destruct seq as [|k' seq]; [eauto|]. apply loop_unit; auto; discriminate.
  - inversion H as [? ? H1|? ? H1]; subst; [contradiction|]. cbn [normal_loop normal_update]. rewrite (proj2 (Rleb_false _ _)) by lra.
    rewrite stop_nil. destruct seq as [|k' seq]; [inversion H1|]. apply IH; auto.
Qed.
End NormalFacts.

(** Refuted: when the starting guess is already on the right side of every point, it
    is returned as it is, of length about 1.7e-10. *)
Theorem C66_unit_normal_refuted : exists points sequence w,
  points <> [] /\ Forall (fun k => (k < length points)%nat) sequence /\ length sequence = 1000%nat /\
  find_approximate_normal points (99/100) (/ 10^5) 0 sequence = Ok (Some w) /\ norm w <> 1.
Proof.
  exists [mkV 0 0 (-1)], (repeat 0%nat 1000), w_init. split; [discriminate|]. split; [apply Forall_forall; intros k Hk; apply repeat_spec in Hk; subst; cbn; lia|].
  split; [apply repeat_length|]. split.
  - apply loop_idle; [discriminate|]. apply Forall_forall. intros k Hk. apply repeat_spec in Hk. subst. unfold w_init. vunfold. cbn [nth vx vy vz]. lra.
  - intros E. assert (N : norm w_init * norm w_init = 1) by (rewrite E; ring). rewrite norm_sq in N. revert N. unfold w_init. vunfold. lra.
Qed.
(** It stops for every sequence of at least one draw; for points inside the unit ball
    (as add_adsorbate passes them) the result is a unit vector exactly when some drawn
    point has guess @ x >= margin, and the untouched guess otherwise. *)
(** the starting guess 1e-10 (1,1,1) *)
Definition guess : vec := mkV (/ 10 ^ 10) (/ 10 ^ 10) (/ 10 ^ 10).
Theorem C66_unit_normal_partial points decay tol margin sequence :
  0 < decay < 1 -> Forall (fun x => norm x <= 1 /\ x <> guess) points ->
  Forall (fun k => (k < length points)%nat) sequence -> sequence <> [] ->
  exists w, find_approximate_normal points decay tol margin sequence = Ok (Some w) /\
    (Exists (fun k => margin <= dot guess (nth k points v0)) sequence -> norm w = 1) /\
    (Forall (fun k => dot guess (nth k points v0) < margin) sequence -> w = guess).
Proof.
  change guess with w_init.
  intros D P S NE. unfold find_approximate_normal.
  destruct (Exists_dec (fun k => margin <= dot w_init (nth k points v0)) sequence) as [H|H]; [intros k; apply Rle_dec| |].
  - destruct (loop_first points decay tol margin sequence D P S H) as (w & E & U). exists w. split; [exact E|]. split; auto.
    intros F. exfalso. apply Exists_exists in H as (k & Hk & H). rewrite Forall_forall in F. specialize (F k Hk). cbn in F. lra.
  - assert (F : Forall (fun k => dot w_init (nth k points v0) < margin) sequence).
    { apply Forall_forall. intros k Hk. apply Rnot_le_lt. intros L. apply H. apply Exists_exists. eauto. }
    exists w_init. split; [apply loop_idle; auto|]. split; [contradiction|auto].
Qed.
(** it stops for any input *)
Theorem C66_terminates points decay tol margin sequence : sequence <> [] ->
  exists w, find_approximate_normal points decay tol margin sequence = Ok w.
Proof.
  unfold find_approximate_normal. generalize (Some w_init) 0%nat (@nil (option R)).
  induction sequence as [|k seq IH]; intros w j wl NE; [congruence|]. cbn [normal_loop].
  destruct (match normal_update decay margin w (nth k points v0) j with Some (w', d) => (w', S j, d :: wl) | None => (w, j, wl) end) as [[w1 j1] wl1].
  destruct (stop_now tol wl1); [eauto|]. destruct seq as [|k' seq]; [eauto|]. apply IH. discriminate.
Qed.
Example C66_nonvacuous : Forall (fun x => norm x <= 1 /\ x <> guess) [mkV 0 0 1] /\ 0 <= dot guess (mkV 0 0 1).
Proof.
  change guess with w_init.
  split; [constructor; [split|constructor]|].
  - unfold norm. replace (dot (mkV 0 0 1) (mkV 0 0 1)) with 1 by vring. rewrite sqrt_1. lra.
  - unfold w_init. intros E. inversion E. lra.
  - unfold w_init. vunfold. cbn. lra.
Qed.

(* ---------------- C67 ---------------- *)
Inductive filter_kind := KElement | KMask | KIndices | KSpatial | KUnknown.
(** Which filter a key selects: the first of the four words it contains. *)
Definition kind_of (key : string) : filter_kind :=
  if str_in "element" key then KElement else if str_in "mask" key then KMask
  else if str_in "indices" key then KIndices else if str_in "spatial" key then KSpatial else KUnknown.
(** atom i meets the filter *)
Definition meets (atoms : list vec) (species : list Z) (kv : string * filter_val) (i : nat) : Prop :=
  match kind_of (fst kv), snd kv with
  | KElement, FNumbers zs => exists z, nth_error species i = Some z /\ In z zs
  | KMask, FMask m => nth_error m i = Some true
  | KIndices, FNumbers zs => exists z, In z zs /\ denotes (length atoms) z i
  | KSpatial, FFun f => nth_error (f atoms) i = Some true
  | KUnknown, _ => True
  | _, _ => False
  end.
Lemma mask_and_nth' a b i : length a = length b -> (nth_error (mask_and a b) i = Some true <-> nth_error a i = Some true /\ nth_error b i = Some true).
Proof.
  unfold mask_and. revert b i. induction a as [|x a IH]; intros [|y b] [|i] L; cbn in *; try lia; try (split; [discriminate|intros [? ?]; discriminate]).
  - split; [intros H; inversion H as [H1]; apply andb_true_iff in H1 as [-> ->]; auto|intros [H1 H2]; inversion H1; inversion H2; reflexivity].
  - apply IH. lia.
Qed.
Lemma mask_and_chk_spec a b r : mask_and_chk a b = Ok r -> length r = length a /\ forall i, nth_error r i = Some true <-> nth_error a i = Some true /\ nth_error b i = Some true.
Proof.
  unfold mask_and_chk. destruct (Nat.eqb_spec (length a) (length b)) as [E|]; [|discriminate]. intros H. inversion H; subst. split.
  - unfold mask_and. rewrite map_length, combine_length. lia.
  - intros i. apply mask_and_nth'; auto.
Qed.
Lemma apply_filter_spec atoms species valid kv r : length species = length atoms -> length valid = length atoms ->
  apply_filter atoms species valid kv = Ok r ->
  length r = length atoms /\ forall i, nth_error r i = Some true <-> nth_error valid i = Some true /\ meets atoms species kv i.
Proof.
  intros LS L H. destruct kv as [key val]. unfold apply_filter in H. unfold meets, kind_of. cbn [fst snd].
  destruct (str_in "element" key).
  { destruct val as [[|z zs]|m|f]; try discriminate. apply mask_and_chk_spec in H as [H1 H2]. split; [lia|]. intros i. rewrite H2.
    assert (G : nth_error (map (fun s => existsb (Z.eqb s) (z :: zs)) species) i = Some true <-> exists z0, nth_error species i = Some z0 /\ In z0 (z :: zs)).
    { rewrite nth_error_map. destruct (nth_error species i) as [s|]; cbn [option_map]; [|split; [discriminate|intros (? & ? & _); discriminate]].
      split.
      - intros E. injection E as E. change (existsb (Z.eqb s) (z :: zs) = true) in E. apply existsb_exists in E as (y & Hy & E). apply Z.eqb_eq in E. subst. eauto.
      - intros (z0 & E & HI). injection E as ->. f_equal. apply existsb_exists. exists z0. rewrite Z.eqb_refl. auto. }
    rewrite G. tauto. }
  destruct (str_in "mask" key).
  { destruct val as [|m|]; try discriminate. apply mask_and_chk_spec in H as [H1 H2]. split; [lia|exact H2]. }
  destruct (str_in "indices" key).
  { destruct val as [zs| |]; try discriminate. inv_bind H. apply mask_and_chk_spec in H as [H1 H2]. split; [lia|]. intros i. rewrite H2.
    assert (V : Forall (valid_index (length atoms)) zs).
    { destruct (Forall_dec (valid_index (length atoms)) ltac:(intros z; unfold valid_index; destruct (Z_le_dec (- Z.of_nat (length atoms)) z), (Z_lt_dec z (Z.of_nat (length atoms))); [left; lia|right; lia..]) zs) as [V|V]; auto.
      rewrite (proj2 (mapM_index _ _) V) in Ha. discriminate. }
    destruct (proj1 (mapM_index _ _) V) as (js & EJ & J). rewrite EJ in Ha. injection Ha as <-.
    assert (G : (nth_error valid i = Some true -> (nth_error (map (fun i => existsb (Nat.eqb i) js) (seq 0 (length atoms))) i = Some true <-> exists z, In z zs /\ denotes (length atoms) z i))).
    { intros HV. assert (LI : (i < length atoms)%nat) by (rewrite <- L; apply nth_error_Some; congruence).
      rewrite nth_error_map, (nth_error_nth' _ 0%nat) by (rewrite seq_length; auto). rewrite seq_nth by auto. cbn [option_map Nat.add]. rewrite <- (J i LI). split.
      - intros E. injection E as E. apply existsb_exists in E as (y & Hy & E). apply Nat.eqb_eq in E. subst. auto.
      - intros HI. f_equal. apply existsb_exists. exists i. rewrite Nat.eqb_refl. auto. }
    split; intros [A B]; (split; [auto|]); apply G; auto. }
  destruct (str_in "spatial" key).
  { destruct val as [| |f]; try discriminate. apply mask_and_chk_spec in H as [H1 H2]. split; [lia|exact H2]. }
  injection H as <-. split; auto. tauto.
Qed.
Lemma compress_in' {A} m (a : list A) x : length m = length a -> (In x (compress m a) <-> exists k, nth_error m k = Some true /\ nth_error a k = Some x).
Proof.
  revert a. induction m as [|c m IH]; intros [|p a] L; cbn in *; try lia.
  - split; [contradiction|intros ([|k] & H & _); discriminate].
  - destruct c; cbn; rewrite IH by lia.
    + split; [intros [->|(k & H)]; [exists 0%nat; auto|exists (S k); auto]|intros ([|k] & H1 & H2); [cbn in *; left; congruence|right; exists k; auto]].
    + split; [intros (k & H); exists (S k); auto|intros ([|k] & H1 & H2); [discriminate|exists k; auto]].
Qed.
Lemma filters_spec atoms species filters : length species = length atoms -> forall valid r, length valid = length atoms ->
  foldM (apply_filter atoms species) filters valid = Ok r ->
  length r = length atoms /\ forall i, nth_error r i = Some true <-> nth_error valid i = Some true /\ Forall (fun kv => meets atoms species kv i) filters.
Proof.
  intros LS. induction filters as [|kv fs IH]; intros valid r L H; cbn [foldM] in H.
  - injection H as <-. split; auto. intros i. split; [auto|tauto].
  - inv_bind H. destruct (apply_filter_spec _ _ _ _ _ LS L Ha) as [A1 A2]. destruct (IH a r A1 H) as [B1 B2]. split; auto. intros i. rewrite B2, A2.
    split; [intros [[X Y] Z]; auto|intros [X Y]; inversion Y; auto].
Qed.
(** The candidates are exactly the surface atoms meeting every filter. *)
Theorem C67_candidates atoms species surface_ind filters l : length species = length atoms ->
  candidates atoms species surface_ind filters = Ok l ->
  forall i, In i l <-> (i < length atoms)%nat /\ In i surface_ind /\ Forall (fun kv => meets atoms species kv i) filters.
Proof.
  intros LS H i. unfold candidates in H. inv_bind H. injection H as <-.
  set (v0 := map _ _) in Ha. assert (L : length v0 = length atoms) by (unfold v0; rewrite map_length, seq_length; auto).
  destruct (filters_spec atoms species filters LS v0 a L Ha) as [A1 A2]. rewrite compress_in' by (rewrite seq_length; auto).
  assert (V : forall k, nth_error v0 k = Some true <-> (k < length atoms)%nat /\ In k surface_ind).
  { intros k. unfold v0. rewrite nth_error_map. destruct (Nat.lt_ge_cases k (length atoms)) as [LK|LK].
    - rewrite (nth_error_nth' _ 0%nat) by (rewrite seq_length; auto). rewrite seq_nth by auto. cbn [option_map Nat.add]. split.
      + intros E. injection E as E. apply existsb_exists in E as (y & Hy & E). apply Nat.eqb_eq in E. subst. auto.
      + intros [_ HI]. f_equal. apply existsb_exists. exists k. rewrite Nat.eqb_refl. auto.
    - rewrite (proj2 (nth_error_None _ _)) by (rewrite seq_length; auto). cbn. split; [discriminate|lia]. }
  split.
  - intros (k & K1 & K2). assert (k < length atoms)%nat by (rewrite <- A1; apply nth_error_Some; congruence).
    rewrite (nth_error_nth' _ 0%nat) in K2 by (rewrite seq_length; auto). rewrite seq_nth in K2 by auto. injection K2 as <-. cbn [Nat.add].
    apply A2 in K1 as [K1 K3]. apply V in K1. tauto.
  - intros (LI & HI & F). exists i. split; [apply A2; split; [apply V; auto|auto]|].
    rewrite (nth_error_nth' _ 0%nat) by (rewrite seq_length; auto). rewrite seq_nth by auto. reflexivity.
Qed.
(** Hence the target chosen by add_adsorbate satisfies them. *)
Theorem C67_target wd vol sh pick seqs mol ai bl mvec rot filters N so t r :
  length (vol_species vol) = length (vol_atoms vol) ->
  add_adsorbate wd vol sh pick seqs mol ai bl mvec rot filters N so = Ok (t, r) ->
  (t < length (vol_atoms vol))%nat /\ In t (sh_points sh) /\ Forall (fun kv => meets (vol_atoms vol) (vol_species vol) kv t) filters.
Proof.
  intros LS H. unfold add_adsorbate in H. inv_bind H. inv_bind H. inv_bind H. inv_bind H. inv_bind H. inv_bind H. injection H as <- _.
  destruct (nth_error a pick) as [t|] eqn:E; [|discriminate]. injection Ha0 as <-.
  apply (C67_candidates _ _ _ _ _ LS Ha). eapply nth_error_In; eauto.
Qed.
(** A key containing none of the four words changes nothing. *)
Theorem C67_unknown_key atoms species surface_ind fs gs key val : kind_of key = KUnknown ->
  candidates atoms species surface_ind (fs ++ (key, val) :: gs) = candidates atoms species surface_ind (fs ++ gs).
Proof.
  intros K. unfold candidates. f_equal.
  assert (G : forall v, foldM (apply_filter atoms species) (fs ++ (key, val) :: gs) v = foldM (apply_filter atoms species) (fs ++ gs) v); [|rewrite G; reflexivity].
  induction fs as [|f fs IH]; intros v; cbn [app foldM].
  - unfold apply_filter at 1. unfold kind_of in K. destruct (str_in "element" key); [discriminate|]. destruct (str_in "mask" key); [discriminate|].
    destruct (str_in "indices" key); [discriminate|]. destruct (str_in "spatial" key); [discriminate|]. reflexivity.
  - destruct (apply_filter atoms species v f); cbn [bind]; auto.
Qed.
Example C67_nonvacuous : candidates [v0; v0; v0] [6; 8; 6]%Z [0%nat; 2%nat] [("element1"%string, FNumbers [6%Z]); ("indices"%string, FNumbers [-1; 1]%Z); ("colour"%string, FMask [])] = Ok [2%nat] /\
  kind_of "colour" = KUnknown.
Proof. split; vm_compute; reflexivity. Qed.

(* ---------------- C65, C81 ---------------- *)
Lemma new_rotation_inv m o lk bo t : new_rotation m o lk bo = Ok t -> t = TMatrix m o lk bo.
Proof. unfold new_rotation. destruct (rotation_ok m); congruence. Qed.
Lemma rot_v_rotation v th M : rot_v v th = Some M -> rotation M /\ mv M v = v.
Proof.
  unfold rot_v. destruct (Reqb (norm v) 0) eqn:E; [discriminate|]. apply Reqb_false in E. intros H. injection H as <-. split; [apply rodrigues_rotation, unit_scale, E|].
  generalize (/ norm v). intros s. unfold rodrigues, skew. generalize (sin th) (cos th). vring.
Qed.
Lemma mol_transform_true m t m' : mol_transform m t true = Ok m' -> m_tracking m = true ->
  m_atoms m' = map (apply_pt t) (m_atoms m) /\ m_species m' = m_species m /\ m_tracking m' = true /\ m_oidx m' = m_oidx m /\ m_orient m' = m_orient m.
Proof.
  unfold mol_transform, set_atoms. destruct (_ =? _)%nat; [|discriminate]. cbn [bind m_tracking]. intros H T. rewrite T in H. cbn [m_oidx] in H. destruct (m_oidx m) eqn:OI; [|discriminate]. injection H as <-. cbn. rewrite ?OI. auto.
Qed.
Lemma origin_at m z o : m_tracking m = true -> m_oidx m = Some z -> mol_origin m = Ok o ->
  exists i, denotes (length (m_atoms m)) z i /\ nth_error (m_atoms m) i = Some o.
Proof.
  intros T I H. unfold mol_origin in H. rewrite T, I in H. inv_bind H. injection H as <-.
  destruct (py_index_spec (length (m_atoms m)) z) as [A B].
  assert (V : valid_index (length (m_atoms m)) z \/ ~ valid_index (length (m_atoms m)) z) by (unfold valid_index; lia).
  destruct V as [V|V]; [|rewrite (B V) in Ha; discriminate]. destruct (A V) as (i & E & L & D). rewrite E in Ha. injection Ha as <-.
  exists i. split; auto. apply nth_error_nth'. auto.
Qed.
Lemma place_inv wd vol mol z bond mvec rot target normal m' ok :
  paired mol -> place_adsorbate wd vol mol (PInt z) bond mvec rot target normal = Ok (m', ok) ->
  exists nv R1 R2 o, normal = Some nv /\ rot_vtv (mv (m_orient mol) mvec) nv = Some R1 /\ rot_v nv rot = Some R2 /\
    m_atoms m' = map (fun p => vadd (mv (mm R2 R1) (vsub p o)) (vadd target (vscale bond nv))) (m_atoms mol) /\
    m_species m' = m_species mol /\ ok = forallb negb (vol_check wd vol (m_atoms m')) /\
    exists i, denotes (length (m_atoms mol)) z i /\ nth_error (m_atoms mol) i = Some o.
Proof.
  intros P H. unfold place_adsorbate, set_origin_idx in H. destruct (_ <? _)%Z; [|discriminate]. cbn [bind] in H.
  destruct normal as [nv|]; [|discriminate]. set (m0 := mkMol _ _ _ _ _ _ _) in H. inv_bind H.
  change (m_orient m0) with (m_orient mol) in H.
  destruct (rot_vtv (mv (m_orient mol) mvec) nv) as [R1|] eqn:E1; [|discriminate]. inv_bind H. apply new_rotation_inv in Ha0. subst a0. inv_bind H. inv_bind H.
  destruct (rot_v nv rot) as [R2|] eqn:E2; [|discriminate]. inv_bind H. apply new_rotation_inv in Ha2. subst a2. inv_bind H. inv_bind H. inv_bind H. injection H as -> <-.
  assert (P0 : paired m0) by exact P.
  destruct (mol_transform_origin m0 (TMatrix R1 (Some a) true false) a Ha P0) as (x1 & X1 & O1 & P1 & T1). rewrite Ha0 in X1. injection X1 as <-.
  rewrite Ha1 in O1. injection O1 as E3.
  destruct (mol_transform_origin a0 (TMatrix R2 (Some a1) true false) a1 Ha1 P1) as (x2 & X2 & O2 & P2 & T2). rewrite Ha2 in X2. injection X2 as <-.
  rewrite Ha3 in O2. injection O2 as E4.
  destruct (mol_transform_true _ _ _ Ha0 eq_refl) as (A1 & S1 & _ & I1 & _).
  destruct (mol_transform_true _ _ _ Ha2 T1) as (A2 & S2 & TT2 & I2 & _).
  destruct (mol_transform_true _ _ _ Ha4 TT2) as (A3 & S3 & _ & I3 & _).
  exists nv, R1, R2, a. split; auto. split; auto. split; auto. split.
  - rewrite A3, A2, A1, !map_map. apply map_ext. intros p. rewrite E4, E3. cbn [apply_pt matrix_pt]. vring.
  - split; [rewrite S3, S2, S1; reflexivity|]. split; [reflexivity|]. exact (origin_at m0 z a eq_refl eq_refl Ha).
Qed.
Lemma rotation_mm a b : rotation a -> rotation b -> rotation (mm a b).
Proof.
  intros [A1 A2] [B1 B2]. split.
  - unfold orthogonal in *. replace (mm (mm a b) (mt (mm a b))) with (mm a (mm (mm b (mt b)) (mt a))) by vring. rewrite B1. rewrite <- A1 at 2. vring.
  - replace (det (mm a b)) with (det a * det b) by vring. rewrite A2, B2. ring.
Qed.
(** The placement: f is the rigid motion applied. *)
Theorem C65_rigid_placement wd vol mol z bond mvec rot target normal m' ok :
  paired mol -> place_adsorbate wd vol mol (PInt z) bond mvec rot target (Some normal) = Ok (m', ok) ->
  exists Q s i, rotation Q /\
    let f := fun p => vadd (mv Q p) s in
    isometry f /\ m_atoms m' = map f (m_atoms mol) /\ m_species m' = m_species mol /\
    denotes (length (m_atoms mol)) z i /\
    nth_error (m_atoms m') i = Some (vadd target (vscale bond normal)) /\
    (ok = true <-> forall p, In p (m_atoms m') -> vol_inside wd vol p = false).
Proof.
  intros P H. destruct (place_inv _ _ _ _ _ _ _ _ _ _ _ P H) as (nv & R1 & R2 & o & EN & E1 & E2 & A & S & K & i & D & O). injection EN as <-.
  pose proof (C30_always_rotation _ _ _ E1) as Q1. destruct (rot_v_rotation _ _ _ E2) as [Q2 _].
  exists (mm R2 R1), (vsub (vadd target (vscale bond normal)) (mv (mm R2 R1) o)), i. split; [apply rotation_mm; auto|]. cbv zeta.
  assert (AE : m_atoms m' = map (fun p => vadd (mv (mm R2 R1) p) (vsub (vadd target (vscale bond normal)) (mv (mm R2 R1) o))) (m_atoms mol)) by (rewrite A; apply map_ext; vring).
  split.
  { intros p q. unfold dist. rewrite <- (orth_norm (mm R2 R1) (vsub p q)) by (apply rotation_mm; auto). f_equal. vring. }
  split; [exact AE|]. split; [exact S|]. split; [exact D|]. split.
  { rewrite A, nth_error_map, O. cbn. f_equal. vring. }
  rewrite K, vol_check_map, forallb_forall. split.
  - intros X p Hp. specialize (X (vol_inside wd vol p) (in_map _ _ _ Hp)). apply negb_true_iff in X. exact X.
  - intros X x Hx. apply in_map_iff in Hx as (p & <- & Hp). apply negb_true_iff. auto.
Qed.
(** add_adsorbate hands exactly these arguments over. *)
Theorem C65_add_adsorbate wd vol sh pick seqs mol z bl mvec rot filters N so t m' ok : paired mol ->
  add_adsorbate wd vol sh pick seqs mol (PInt z) bl mvec rot filters N so = Ok (t, (m', ok)) ->
  exists normal, place_adsorbate wd vol mol (PInt z) bl mvec rot (nth t (vol_atoms vol) v0) (Some normal) = Ok (m', ok) /\
    exists i, denotes (length (m_atoms mol)) z i /\ nth_error (m_atoms m') i = Some (vadd (nth t (vol_atoms vol) v0) (vscale bl normal)).
Proof.
  intros P H. unfold add_adsorbate in H. inv_bind H. inv_bind H. inv_bind H. inv_bind H. inv_bind H. inv_bind H. injection H as -> ->.
  destruct a3 as [normal|]; [|unfold place_adsorbate in Ha4; destruct (set_origin_idx mol (PInt z)) as [? [|]]; discriminate].
  exists normal. split; [exact Ha4|]. destruct (C65_rigid_placement _ _ _ _ _ _ _ _ _ _ _ P Ha4) as (Q & s & i & _ & _ & _ & _ & D & B & _). eauto.
Qed.

(** C81: in the general position the molecule's vector ends up along the normal. *)
Theorem C81_orientation_partial wd vol mol z bond mvec rot target normal m' ok :
  paired mol -> place_adsorbate wd vol mol (PInt z) bond mvec rot target (Some normal) = Ok (m', ok) ->
  let v := mv (m_orient mol) mvec in
  norm v <> 0 -> norm normal <> 0 -> eps <= acos (dot v normal / (norm v * norm normal)) <= PI - eps ->
  exists Q s, rotation Q /\ m_atoms m' = map (fun p => vadd (mv Q p) s) (m_atoms mol) /\ mv Q (unit_vec v) = unit_vec normal.
Proof.
  intros P H v NV NN ANG. destruct (place_inv _ _ _ _ _ _ _ _ _ _ _ P H) as (nv & R1 & R2 & o & EN & E1 & E2 & A & S & _). injection EN as <-.
  pose proof (C30_always_rotation _ _ _ E1) as Q1. destruct (rot_v_rotation _ _ _ E2) as [Q2 F2].
  exists (mm R2 R1), (vsub (vadd target (vscale bond normal)) (mv (mm R2 R1) o)). split; [apply rotation_mm; auto|]. split; [rewrite A; apply map_ext; vring|].
  destruct (C30_aligns_partial v normal NV NN ANG) as (M & E & _ & AL). fold v in E1. rewrite E1 in E. injection E as <-.
  replace (mv (mm R2 R1) (unit_vec v)) with (mv R2 (mv R1 (unit_vec v))) by vring. rewrite AL. unfold unit_vec.
  replace (mv R2 (vscale (/ norm normal) normal)) with (vscale (/ norm normal) (mv R2 normal)) by (generalize (/ norm normal); vring). rewrite F2. reflexivity.
Qed.

(** and the call succeeds in general position *)
Theorem C65_placement_succeeds wd vol mol z bond mvec rot target normal :
  paired mol -> (Z.abs z < Z.of_nat (length (m_atoms mol)))%Z ->
  let v := mv (m_orient mol) mvec in
  norm v <> 0 -> norm normal <> 0 -> eps <= acos (dot v normal / (norm v * norm normal)) <= PI - eps ->
  exists r, place_adsorbate wd vol mol (PInt z) bond mvec rot target (Some normal) = Ok r.
Proof.
  intros P Z v NV NN ANG. unfold place_adsorbate, set_origin_idx. rewrite (proj2 (Z.ltb_lt _ _) Z). cbn [bind]. set (m0 := mkMol _ _ _ _ _ _ _).
  assert (P0 : paired m0) by exact P. change (m_orient m0) with (m_orient mol). fold v.
  assert (O : exists o, mol_origin m0 = Ok o).
  { unfold mol_origin. cbn [m_tracking m_oidx m0]. change (m_atoms m0) with (m_atoms mol). destruct (proj1 (py_index_spec (length (m_atoms mol)) z)) as (i & E & _); [unfold valid_index; lia|].
    rewrite E. cbn. eauto. }
  destruct O as [o O]. rewrite O. cbn [bind].
  destruct (C30_aligns_partial v normal NV NN ANG) as (M & E & RM & _). rewrite E. rewrite (C33_exact_rotations_accepted _ _ _ _ RM). cbn [bind].
  destruct (mol_transform_origin m0 (TMatrix M (Some o) true false) o O P0) as (m1 & E1 & O1 & P1 & _). rewrite E1. cbn [bind]. rewrite O1. cbn [bind].
  assert (RV : exists M2, rot_v normal rot = Some M2) by (unfold rot_v; rewrite (proj2 (Reqb_false _ _) NN); eauto). destruct RV as [M2 RV]. rewrite RV.
  rewrite (C33_exact_rotations_accepted _ _ _ _ (proj1 (rot_v_rotation _ _ _ RV))). cbn [bind].
  destruct (mol_transform_origin m1 (TMatrix M2 (Some (apply_pt (TMatrix M (Some o) true false) o)) true false) _ O1 P1) as (m2 & E2 & O2 & P2 & _). rewrite E2. cbn [bind]. rewrite O2. cbn [bind].
  destruct (mol_transform_origin m2 (TTranslation (vsub (vadd target (vscale bond normal)) (apply_pt (TMatrix M2 (Some (apply_pt (TMatrix M (Some o) true false) o)) true false) (apply_pt (TMatrix M (Some o) true false) o))) true false) _ O2 P2) as (m3 & E3 & _).
  rewrite E3. cbn [bind]. eauto.
Qed.
Example C65_nonvacuous : paired ex_mol /\ (Z.abs 1 < Z.of_nat (length (m_atoms ex_mol)))%Z /\
  let v := mv (m_orient ex_mol) (mkV 0 0 1) in let normal := mkV 1 0 0 in
  norm v <> 0 /\ norm normal <> 0 /\ eps <= acos (dot v normal / (norm v * norm normal)) <= PI - eps.
Proof.
  split; [reflexivity|]. split; [cbn; lia|]. cbv zeta.
  assert (N1 : norm (mv (m_orient ex_mol) (mkV 0 0 1)) = 1). { unfold norm. replace (dot _ _) with 1; [apply sqrt_1|]. cbn. vring. }
  assert (N2 : norm (mkV 1 0 0) = 1). { unfold norm. replace (dot (mkV 1 0 0) (mkV 1 0 0)) with 1 by vring. apply sqrt_1. }
  rewrite N1, N2. split; [lra|]. split; [lra|]. replace (dot _ _ / _) with 0 by (cbn; vunfold; field). rewrite acos_0.
  pose proof PI2_1. pose proof eps_pos. pose proof eps_small. lra.
Qed.
(** the same case meets the hypotheses of C81_orientation_partial *)
Example C81_nonvacuous : forall wd vol bond rot target, exists r,
  place_adsorbate wd vol ex_mol (PInt 1) bond (mkV 0 0 1) rot target (Some (mkV 1 0 0)) = Ok r /\
  let v := mv (m_orient ex_mol) (mkV 0 0 1) in let normal := mkV 1 0 0 in
  norm v <> 0 /\ norm normal <> 0 /\ eps <= acos (dot v normal / (norm v * norm normal)) <= PI - eps.
Proof.
  intros. destruct C65_nonvacuous as (P & Z & A & B & C). destruct (C65_placement_succeeds wd vol ex_mol 1 bond (mkV 0 0 1) rot target (mkV 1 0 0) P Z A B C) as [r E].
  exists r. split; [exact E|]. auto.
Qed.

(** C81 refuted: opposite directions can make the call fail (see C30). *)
Theorem C81_orientation_refuted : forall wd vol bond rot target,
  paired ex_mol /\ norm (mkV (-1) 0 0) <> 0 /\ norm (mkV 1 0 0) <> 0 /\
  place_adsorbate wd vol ex_mol (PInt 1) bond (mkV (-1) 0 0) rot target (Some (mkV 1 0 0)) = Err AssertionError.
Proof.
  intros. destruct C30_rot_vtv_refuted as (A & B & C). split; [reflexivity|]. split; [exact A|]. split; [exact B|].
  unfold place_adsorbate. cbn -[rot_vtv rot_v mv mol_transform new_rotation]. replace (mv mI (mkV (-1) 0 0)) with (mkV (-1) 0 0) by vring. rewrite C. reflexivity.
Qed.
(** C82 refuted: no transformation ever changes the stored orientation ... *)
Theorem C82_orientation_follows_refuted : forall m t b m', mol_transform m t b = Ok m' -> m_orient m' = m_orient m.
Proof.
  intros m t b m' H. unfold mol_transform, set_atoms in H. destruct (_ =? _)%nat; [|discriminate]. cbn [bind] in H.
  destruct b; [|injection H as <-; reflexivity]. cbn [m_tracking] in H. destruct (m_tracking m); [cbn [m_oidx] in H; destruct (m_oidx m); [|discriminate]; injection H as <-; reflexivity|]. inv_bind H. injection H as <-. reflexivity.
Qed.
(** ... so after a quarter turn about z the molecule's x direction is reported wrongly. *)
Theorem C82_quarter_turn_refuted : exists t m', new_rotation (mkM (mkV 0 (-1) 0) (mkV 1 0 0) (mkV 0 0 1)) None true false = Ok t /\
  mol_transform ex_mol t true = Ok m' /\
  mv (m_orient m') (mkV 1 0 0) <> apply_pt t (mv (m_orient ex_mol) (mkV 1 0 0)).
Proof.
  assert (RR : rotation (mkM (mkV 0 (-1) 0) (mkV 1 0 0) (mkV 0 0 1))). { split; [unfold orthogonal|]; [apply mat_eq; apply vec_eq|]; vunfold; lra. }
  eexists. eexists. split; [apply C33_exact_rotations_accepted; exact RR|]. split; [reflexivity|]. cbn. vunfold. intros E. inversion E. lra.
Qed.
(** The true part: a direction between two atoms keeps its coordinates c in the molecule's
    frame exactly when the transformation does not turn that direction. *)
Theorem C82_unturned_partial : forall m t b m' i j p q p' q', det (m_orient m) <> 0 -> mol_transform m t b = Ok m' ->
  nth_error (m_atoms m) i = Some p -> nth_error (m_atoms m) j = Some q -> nth_error (m_atoms m') i = Some p' -> nth_error (m_atoms m') j = Some q' ->
  ((exists c, vsub q p = mv (m_orient m) c /\ vsub q' p' = mv (m_orient m') c) <-> vsub (apply_pt t q) (apply_pt t p) = vsub q p) /\
  (forall s, t = TTranslation s true false -> exists c, vsub q p = mv (m_orient m) c /\ vsub q' p' = mv (m_orient m') c).
Proof.
  intros m t b m' i j p q p' q' D H Hp Hq Hp' Hq'. pose proof (C82_orientation_follows_refuted _ _ _ _ H) as O.
  assert (A : m_atoms m' = map (apply_pt t) (m_atoms m)).
  { unfold mol_transform, set_atoms in H. destruct (_ =? _)%nat; [|discriminate]. cbn [bind] in H.
    destruct b; [|injection H as <-; reflexivity]. cbn [m_tracking] in H. destruct (m_tracking m); [cbn [m_oidx] in H; destruct (m_oidx m); [|discriminate]; injection H as <-; reflexivity|]. inv_bind H. injection H as <-. reflexivity. }
  rewrite A, (map_nth_error _ _ _ Hp) in Hp'. rewrite A, (map_nth_error _ _ _ Hq) in Hq'. injection Hp' as <-. injection Hq' as <-.
  assert (I : (exists c, vsub q p = mv (m_orient m) c /\ vsub (apply_pt t q) (apply_pt t p) = mv (m_orient m') c) <-> vsub (apply_pt t q) (apply_pt t p) = vsub q p).
  { rewrite O. split; [intros (c & E1 & E2); congruence|]. intros E. exists (mv (minv (m_orient m)) (vsub q p)). rewrite E, mv_minv_r by auto. auto. }
  split; [exact I|]. intros s ->. apply I. cbn. unfold vsub, vadd. apply vec_eq; cbn; ring.
Qed.
Example C82_nonvacuous : exists m', mol_transform ex_mol (TTranslation (mkV 1 2 3) true false) true = Ok m' /\
  nth_error (m_atoms ex_mol) 0 <> nth_error (m_atoms ex_mol) 1 /\ (1 < length (m_atoms m'))%nat.
Proof. eexists. split; [reflexivity|]. split; [cbn; intros E; inversion E; lra|cbn; lia]. Qed.
