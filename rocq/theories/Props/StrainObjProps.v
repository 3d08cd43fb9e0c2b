(** Strain fields under any history of assignments and uses (C134). *)
From Coq Require Import Reals List Bool ZArith Arith Lra Lia String.
From Verif.Model Require Import Base Vec Voxel Strain Post Generator TransformObj StrainObj.
From Verif.Spec Require Import Geometry StrainSpec GenObjSpec StrainObjSpec.
From Verif.Proofs Require Import VecFacts.
From Verif.Props Require Import BoxProps GeneratorProps StrainProps.
Import ListNotations.
Open Scope R_scope.

Lemma h_run_snoc h l o : h_run h (l ++ [o]) = fst (h_step (h_run h l) o).
Proof. unfold h_run. rewrite fold_left_app. reflexivity. Qed.
Lemma vector_read a : List.length (a_data a) = fold_right Nat.mul 1%nat (a_shape a) ->
  vector_array a (arr_vec a) \/ (a_shape a <> [3%nat] /\ forall x, ~ vector_array a x).
Proof.
  intros L. destruct (list_eq_dec Nat.eq_dec (a_shape a) [3%nat]) as [D|D].
  - left. split; [exact D|]. rewrite D in L. cbn in L. unfold arr_vec, at_. destruct (a_data a) as [|x [|y [|z [|w l]]]]; cbn in *; try lia. reflexivity.
  - right. split; [exact D|]. intros x [E _]. contradiction.
Qed.
Lemma vector_val a x : vector_array a x -> arr_vec a = x.
Proof. intros [S D]. unfold arr_vec, at_. rewrite D. destruct x; reflexivity. Qed.
Lemma origin_step h a : List.length (a_data a) = fold_right Nat.mul 1%nat (a_shape a) ->
  (vector_array a (arr_vec a) /\ h_step h (HOrigin (Some a)) = (mkH (hs_matrix h) (arr_vec a) (hs_generator_origin h) (hs_mode h) (hs_bases h), Ok [])) \/
  ((forall x, ~ vector_array a x) /\ h_step h (HOrigin (Some a)) = (h, Err AssertionError)).
Proof.
  intros L. destruct (vector_read a L) as [V|[N V]]; [left|right]; (split; [exact V|]); cbn [h_step].
  - destruct V as [S _]. rewrite S. reflexivity.
  - destruct (a_shape a) as [|[|[|[|[|n]]]] [|m s]]; try reflexivity. contradiction.
Qed.
Lemma set_mode_any h m : set_mode h m = Ok (mkH (hs_matrix h) (hs_origin h) (hs_generator_origin h) m (hs_bases h)).
Proof. unfold set_mode. rewrite orb_true_r. reflexivity. Qed.
Lemma matrix_step h a :
  (exists t M, asks_tensor (HMatrix a) t /\ (forall i j, (i < 3)%nat -> (j < 3)%nat -> coord (match i with 0%nat => r0 M | 1%nat => r1 M | _ => r2 M end) j = t i j) /\
     h_step h (HMatrix a) = (mkH M (hs_origin h) (hs_generator_origin h) (hs_mode h) (hs_bases h), Ok [])) \/
  ((forall t, ~ asks_tensor (HMatrix a) t) /\ h_step h (HMatrix a) = (h, Err ValueError)).
Proof.
  assert (D : (exists t, tensor (at_ a) (squeeze (a_shape a)) t) \/ forall t, ~ tensor (at_ a) (squeeze (a_shape a)) t).
  { destruct (squeeze (a_shape a)) as [|n [|m [|]]]; try (right; intros t H; inversion H; fail).
    - destruct n as [|[|[|[|[|[|[|[|[|[|]]]]]]]]]]; try (right; intros t H; inversion H; fail); left; eexists; constructor.
    - destruct n as [|[|[|[|]]]]; try (right; intros t H; inversion H; fail).
      destruct m as [|[|[|[|]]]]; try (right; intros t H; inversion H; fail). left; eexists; constructor. }
  destruct D as [[t T]|N].
  - left. cbn [h_step]. unfold set_strain_matrix, strain_arg_of. pose proof (squeeze_axes (a_shape a)) as L. inversion T as [E ET|E ET|E ET|E ET]; rewrite <- E in L; cbn [strain_matrix rmap];
      (exists t; eexists; split; [rewrite <- ET; econstructor; [exact L|rewrite ET, E; exact T]|]); (split; [|reflexivity]); intros i j Hi Hj;
      (destruct i as [|[|[|i]]]; [| | |lia]); (destruct j as [|[|[|j]]]; [| | |lia]); rewrite <- ET; reflexivity.
  - right. assert (N' : forall t, ~ asks_tensor (HMatrix a) t).
    { intros t H. inversion H as [? axes ? L T]; subst. rewrite (long_axes_det _ _ _ L (squeeze_axes (a_shape a))) in T. exact (N t T). }
    split; [exact N'|]. cbn [h_step]. rewrite (proj1 (C107_refused h a _ (squeeze_axes _) N)). reflexivity.
Qed.

(** after each step: mode and kind of origin *)
Theorem C134_settings : forall h l, Forall sized l -> let h' := h_run h l in
  latest asks_mode (hs_mode h) l (hs_mode h') /\
  (forall s0, hs_generator_origin h = String.eqb s0 "generator" -> exists s, latest asks_type s0 l s /\ (hs_generator_origin h' = true <-> s = "generator"%string)).
Proof.
  intros h l HS. cbv zeta. induction l as [|o l IH] using rev_ind.
  - split; [constructor|]. intros s0 E. exists s0. split; [constructor|]. cbn. rewrite E. apply String.eqb_eq.
  - apply Forall_app in HS as [HS HO]. inversion HO as [|? ? SO _]; subst. destruct (IH HS) as [I1 I2]. rewrite h_run_snoc. set (q := h_run h l) in *. clearbody q.
    assert (KM : (forall y, ~ asks_mode o y) -> hs_mode (fst (h_step q o)) = hs_mode q -> latest asks_mode (hs_mode h) (l ++ [o]) (hs_mode (fst (h_step q o)))) by (intros N ->; eapply latest_keep; eauto).
    assert (KT : (forall y, ~ asks_type o y) -> hs_generator_origin (fst (h_step q o)) = hs_generator_origin q -> forall s0, hs_generator_origin h = String.eqb s0 "generator" ->
      exists s, latest asks_type s0 (l ++ [o]) s /\ (hs_generator_origin (fst (h_step q o)) = true <-> s = "generator"%string)).
    { intros N -> s0 E. destruct (I2 s0 E) as (s & L & X). exists s. split; [eapply latest_keep; eauto|exact X]. }
    destruct o as [[a|]|s|m|a|v atoms].
    + cbn [sized] in SO. split; [apply KM|apply KT]; try (intros y Q; inversion Q); destruct (origin_step q a SO) as [[_ ->]|[_ ->]]; reflexivity.
    + split; [apply KM|apply KT]; try (intros y Q; inversion Q); reflexivity.
    + split; [apply KM; [intros y Q; inversion Q|reflexivity]|]. intros s0 E. destruct (I2 s0 E) as (s' & L & X). exists s. split; [eapply latest_set; [exact L|constructor]|]. cbn. apply String.eqb_eq.
    + cbn [h_step]. rewrite set_mode_any. cbn [fst hs_mode hs_generator_origin]. split; [eapply latest_set; [exact I1|constructor]|].
      intros s0 E. destruct (I2 s0 E) as (s' & L & X). exists s'. split; [eapply latest_keep; [exact L|intros y Q; inversion Q]|exact X].
    + split; [apply KM|apply KT]; try (intros y Q; inversion Q); destruct (matrix_step q a) as [(t & M & _ & _ & ->)|[_ ->]]; reflexivity.
    + split; [apply KM|apply KT]; try (intros y Q; inversion Q); reflexivity.
Qed.

(** The matrix: the last tensor given in an accepted notation *)
Definition is_tensor (M : mat) (t : nat -> nat -> R) : Prop := forall i j, (i < 3)%nat -> (j < 3)%nat ->
  coord (match i with 0%nat => r0 M | 1%nat => r1 M | _ => r2 M end) j = t i j.
Lemma tensor_ever h t0 l : is_tensor (hs_matrix h) t0 -> Forall sized l -> exists t, latest asks_tensor t0 l t /\ is_tensor (hs_matrix (h_run h l)) t.
Proof.
  intros H0 HS. induction l as [|o l IH] using rev_ind; [exists t0; split; [constructor|exact H0]|].
  apply Forall_app in HS as [HS HO]. inversion HO as [|? ? SO _]; subst. destruct (IH HS) as (t & L & T). rewrite h_run_snoc. set (q := h_run h l) in *. clearbody q.
  assert (K : (forall y, ~ asks_tensor o y) -> hs_matrix (fst (h_step q o)) = hs_matrix q -> exists t, latest asks_tensor t0 (l ++ [o]) t /\ is_tensor (hs_matrix (fst (h_step q o))) t).
  { intros N ->. exists t. split; [eapply latest_keep; eauto|exact T]. }
  destruct o as [[a|]|s|m|a|v atoms]; try (apply K; [solve [intros y Q; inversion Q]|]).
  - cbn [sized] in SO. destruct (origin_step q a SO) as [[_ ->]|[_ ->]]; reflexivity.
  - reflexivity.
  - reflexivity.
  - cbn [h_step]. rewrite set_mode_any. reflexivity.
  - destruct (matrix_step q a) as [(t' & M & A & HM & ->)|[N ->]]; [exists t'; split; [eapply latest_set; eauto|exact HM]|].
    exists t. split; [eapply latest_keep; eauto|exact T].
  - reflexivity.
Qed.
(** The origin of a field whose origin_type is never "generator": the last one assigned *)
Definition not_generator (o : h_op) : Prop := o <> HType "generator".
Lemma type_kept h l : hs_generator_origin h = false -> Forall sized l -> Forall not_generator l -> hs_generator_origin (h_run h l) = false.
Proof.
  intros H0 HS HN. induction l as [|o l IH] using rev_ind; [exact H0|].
  apply Forall_app in HS as [HS HO]. inversion HO as [|? ? SO _]; subst. apply Forall_app in HN as [HN HO']. inversion HO' as [|? ? NO _]; subst. rewrite h_run_snoc.
  specialize (IH HS HN). set (q := h_run h l) in *. clearbody q. destruct o as [[a|]|s|m|a|v atoms].
  - cbn [sized] in SO. destruct (origin_step q a SO) as [[_ ->]|[_ ->]]; exact IH.
  - exact IH.
  - cbn. apply String.eqb_neq. intros ->. apply NO. reflexivity.
  - cbn [h_step]. rewrite set_mode_any. exact IH.
  - destruct (matrix_step q a) as [(t & M & _ & _ & ->)|[_ ->]]; exact IH.
  - exact IH.
Qed.
Lemma origin_ever h l : hs_generator_origin h = false -> Forall sized l -> Forall not_generator l -> latest asks_origin (hs_origin h) l (hs_origin (h_run h l)).
Proof.
  intros H0 HS HN. induction l as [|o l IH] using rev_ind; [constructor|].
  apply Forall_app in HS as [HS HO]. inversion HO as [|? ? SO _]; subst. apply Forall_app in HN as [HN HO']. inversion HO' as [|? ? NO _]; subst. rewrite h_run_snoc.
  assert (G := type_kept h l H0 HS HN). specialize (IH HS HN). set (q := h_run h l) in *. clearbody q.
  assert (K : (forall y, ~ asks_origin o y) -> hs_origin (fst (h_step q o)) = hs_origin q -> latest asks_origin (hs_origin h) (l ++ [o]) (hs_origin (fst (h_step q o)))) by (intros N ->; eapply latest_keep; eauto).
  destruct o as [[a|]|s|m|a|v atoms]; try (apply K; [solve [intros y Q; inversion Q]|]).
  - cbn [sized] in SO. destruct (origin_step q a SO) as [[V ->]|[N ->]]; cbn [fst hs_origin]; [eapply latest_set; [exact IH|constructor; exact V]|].
    eapply latest_keep; [exact IH|]. intros y Q. inversion Q as [? ? V]; subst. exact (N y V).
  - reflexivity.
  - reflexivity.
  - cbn [h_step]. rewrite set_mode_any. reflexivity.
  - destruct (matrix_step q a) as [(t & M & _ & _ & ->)|[_ ->]]; reflexivity.
  - cbn. rewrite G. reflexivity.
Qed.

Lemma Forall2_impl {A B} (P Q : A -> B -> Prop) l l' : (forall x y, P x y -> Q x y) -> Forall2 P l l' -> Forall2 Q l l'.
Proof. intros H F. induction F; constructor; auto. Qed.
Lemma use_moves h v atoms t : det (sbases v) <> 0 -> is_tensor (hs_matrix h) t ->
  exists qs, snd (h_step h (HUse v atoms)) = Ok qs /\
    Forall2 (moved (hs_mode h = "crystal"%string) (sbases v) (if hs_generator_origin h then vo_origin v else hs_origin h) t) atoms qs.
Proof.
  intros HD HT. cbn [h_step snd]. assert (A : acts_as (scrape_params h v) t) by (apply matrix_acts; exact HT). specialize (A atoms). destruct A as [A1 A2].
  cbn [hs_mode hs_origin scrape_params hs_bases] in A1, A2. destruct (string_dec (hs_mode h) "crystal") as [E|E].
  - rewrite (proj2 (String.eqb_eq _ _) E) in A2. destruct (A2 (sbases v) E eq_refl HD) as (qs & Q & F). exists qs. split; [exact Q|].
    eapply Forall2_impl; [|exact F]. intros p q X. split; [intros _; exact X|intros N; contradiction].
  - destruct (A1 E) as (qs & Q & F). exists qs. split; [exact Q|]. eapply Forall2_impl; [|exact F]. intros p q X. split; [intros N; contradiction|intros _; exact X].
Qed.
(** C134, true part.  A field with an origin of its own: after any history every use moves the
    atoms by the last tensor about the last origin in the last mode, whoever used it before. *)
Theorem C134_used_partial : forall h t0 l v atoms, hs_generator_origin h = false -> is_tensor (hs_matrix h) t0 -> Forall sized l -> Forall not_generator l -> det (sbases v) <> 0 ->
  exists o t m qs, latest asks_origin (hs_origin h) l o /\ latest asks_tensor t0 l t /\ latest asks_mode (hs_mode h) l m /\
    snd (h_step (h_run h l) (HUse v atoms)) = Ok qs /\ Forall2 (moved (m = "crystal"%string) (sbases v) o t) atoms qs.
Proof.
  intros h t0 l v atoms G T HS HN HD. destruct (tensor_ever h t0 l T HS) as (t & L & T'). destruct (use_moves (h_run h l) v atoms t HD T') as (qs & Q & F).
  rewrite (type_kept h l G HS HN) in F. exists (hs_origin (h_run h l)), t, (hs_mode (h_run h l)), qs.
  split; [apply origin_ever; auto|]. split; [exact L|]. split; [apply C134_settings; exact HS|]. split; [exact Q|exact F].
Qed.
(** C134 fails for a field made without an origin: whatever is assigned to its origin, as long
    as origin_type is left alone every use acts about the origin of the generator ... *)
Theorem C134_origin_refuted : forall h t0 l v atoms, hs_generator_origin h = true -> is_tensor (hs_matrix h) t0 -> Forall sized l -> (forall s, ~ In (HType s) l) -> det (sbases v) <> 0 ->
  exists t m qs, latest asks_tensor t0 l t /\ latest asks_mode (hs_mode h) l m /\
    snd (h_step (h_run h l) (HUse v atoms)) = Ok qs /\ Forall2 (moved (m = "crystal"%string) (sbases v) (vo_origin v) t) atoms qs /\
    hs_origin (fst (h_step (h_run h l) (HUse v atoms))) = vo_origin v.
Proof.
  intros h t0 l v atoms G T HS HN HD. destruct (tensor_ever h t0 l T HS) as (t & L & T').
  assert (GK : hs_generator_origin (h_run h l) = true).
  { clear - G HS HN. induction l as [|o l IH] using rev_ind; [exact G|].
    apply Forall_app in HS as [HS HO]. inversion HO as [|? ? SO _]; subst. rewrite h_run_snoc.
    assert (IH' : hs_generator_origin (h_run h l) = true) by (apply IH; auto; intros s X; eapply HN; apply in_or_app; left; exact X).
    set (q := h_run h l) in *. clearbody q. destruct o as [[a|]|s|m|a|v atoms].
    - cbn [sized] in SO. destruct (origin_step q a SO) as [[_ ->]|[_ ->]]; exact IH'.
    - exact IH'.
    - exfalso. apply (HN s). apply in_or_app. right. left. reflexivity.
    - cbn [h_step]. rewrite set_mode_any. exact IH'.
    - destruct (matrix_step q a) as [(t & M & _ & _ & ->)|[_ ->]]; exact IH'.
    - exact IH'. }
  destruct (use_moves (h_run h l) v atoms t HD T') as (qs & Q & F). rewrite GK in F. exists t, (hs_mode (h_run h l)), qs. split; [exact L|].
  split; [apply C134_settings; exact HS|]. split; [exact Q|]. split; [exact F|]. cbn. rewrite GK. reflexivity.
Qed.
(** ... so that an assigned origin is not acted about *)
Theorem C134_assigned_origin_refuted : exists h x v p q, make_hstrain (Some (mkArr [3%nat] [2; 1; 1])) OGenerator "standard" = Ok h /\
  let h' := h_run h [HOrigin (Some (mkArr [3%nat] [vx x; vy x; vz x]))] in hs_origin h' = x /\
  snd (h_step h' (HUse v [p])) = Ok [q] /\ forall t, is_tensor (hs_matrix h) t -> ~ moved False (sbases v) x t p q.
Proof.
  eexists. exists (mkV 1 0 0), (mkVoxel mI (SAll 1) v0), (mkV 1 0 0), (mkV 2 0 0). split; [reflexivity|]. cbv zeta. split; [reflexivity|]. split.
  - cbn. unfold at_, vm, mv, mt, dot, vadd, vsub; cbn. f_equal. f_equal. apply vec_eq; cbn; ring.
  - intros t _ [_ M]. assert (K := M (fun x => x) 0%nat ltac:(lia)). cbn in K. lra.
Qed.
(** setting origin_type to something else afterwards frees the origin again *)
Theorem C134_freed_partial : forall h s, s <> "generator"%string -> let h' := fst (h_step h (HType s)) in
  hs_generator_origin h' = false /\ hs_origin h' = hs_origin h /\ hs_matrix h' = hs_matrix h /\ hs_mode h' = hs_mode h.
Proof. intros h s N. cbn. rewrite (proj2 (String.eqb_neq _ _) N). auto. Qed.
(** which assignments are refused, with which exception; nothing changes then *)
Theorem C134_refused : forall h o, sized o -> match o with
  | HOrigin None => h_step h o = (h, Err AttributeError)
  | HOrigin (Some a) => ((exists x, vector_array a x) -> snd (h_step h o) = Ok []) /\ ((forall x, ~ vector_array a x) -> h_step h o = (h, Err AssertionError))
  | HMatrix a => ((exists t, asks_tensor o t) -> snd (h_step h o) = Ok []) /\ ((forall t, ~ asks_tensor o t) -> h_step h o = (h, Err ValueError))
  | HType _ | HMode _ => snd (h_step h o) = Ok []
  | HUse _ _ => True
  end.
Proof.
  intros h o SO. destruct o as [[a|]|s|m|a|v atoms].
  - cbn [sized] in SO. destruct (origin_step h a SO) as [[V E]|[N E]]; rewrite E; split; auto; [intros N; exfalso; exact (N _ V)|intros [x X]; exfalso; exact (N _ X)].
  - reflexivity.
  - reflexivity.
  - cbn [h_step]. rewrite set_mode_any. reflexivity.
  - destruct (matrix_step h a) as [(t & M & A & _ & E)|[N E]]; rewrite E; split; auto; [intros N; exfalso; exact (N _ A)|intros [x X]; exfalso; exact (N _ X)].
  - exact I.
Qed.
(** the constructor *)
Theorem C134_made : forall a t m, asks_tensor (HMatrix a) t ->
  (exists h, make_hstrain (Some a) OGenerator m = Ok h /\ hs_generator_origin h = true /\ is_tensor (hs_matrix h) t /\ hs_mode h = m) /\
  (forall b x, vector_array b x -> exists h, make_hstrain (Some a) (OArray b) m = Ok h /\ hs_generator_origin h = false /\ hs_origin h = x /\ is_tensor (hs_matrix h) t /\ hs_mode h = m) /\
  (exists h, make_hstrain None OGenerator m = Ok h /\ is_tensor (hs_matrix h) (fun i j => if Nat.eqb i j then 1 else 0)).
Proof.
  intros a t m A. inversion A as [? axes ? L T]; subst. assert (E := long_axes_det _ _ _ (squeeze_axes (a_shape a)) L).
  assert (X : exists M, strain_matrix (strain_arg_of a) = Ok M /\ is_tensor M t).
  { unfold strain_arg_of. rewrite E. inversion T; subst; cbn [strain_matrix]; eexists; (split; [reflexivity|]); intros i j Hi Hj;
      (destruct i as [|[|[|i]]]; [| | |lia]); (destruct j as [|[|[|j]]]; [| | |lia]); reflexivity. }
  destruct X as (M & X & TM). unfold make_hstrain. rewrite X. cbn [bind]. split; [|split].
  - rewrite set_mode_any. eexists. split; [reflexivity|]. cbn. auto.
  - intros b x V. rewrite (proj1 V), set_mode_any. eexists. split; [reflexivity|]. cbn [hs_generator_origin hs_origin hs_matrix hs_mode]. rewrite (vector_val b x V). auto.
  - rewrite set_mode_any. eexists. split; [reflexivity|]. intros i j Hi Hj. (destruct i as [|[|[|i]]]; [| | |lia]); (destruct j as [|[|[|j]]]; [| | |lia]); reflexivity.
Qed.
Example C134_nonvacuous : exists h l v, make_hstrain (Some (mkArr [3%nat] [2; 1; 1])) (OArray (mkArr [3%nat] [1; 0; 0])) "crystal" = Ok h /\
  hs_generator_origin h = false /\ Forall sized l /\ Forall not_generator l /\ det (sbases v) <> 0 /\
  In (HUse v [v0]) l /\ latest asks_origin (hs_origin h) l (mkV 0 0 5) /\ hs_origin h = mkV 1 0 0.
Proof.
  eexists. exists [HUse (mkVoxel mI (SAll 2) (mkV 7 7 7)) [v0]; HOrigin (Some (mkArr [3%nat] [0; 0; 5])); HOrigin None], (mkVoxel mI (SAll 2) (mkV 7 7 7)).
  split; [reflexivity|]. split; [reflexivity|]. split; [repeat constructor|]. split; [repeat constructor; discriminate|]. split; [unfold sbases; vunfold; cbn; lra|].
  split; [left; reflexivity|]. split; [|reflexivity].
  apply (latest_keep _ _ [_; _]); [|intros y Q; inversion Q]. eapply (latest_set _ _ [_]); [|constructor; split; reflexivity]. apply (latest_keep _ _ []); [constructor|intros y Q; inversion Q].
Qed.
