(** What each operation of Model/Heap.v changes, and what it leaves alone. *)
From Coq Require Import Reals List ZArith Bool Lia PeanoNat.
From Verif.Model Require Import Base Vec Algebraic Transform Voxel Strain Post Generator Volume Heap.
From Verif.Spec Require Import HeapSpec.
From Verif.Proofs Require Import VolumeFacts VolTransFacts HeapFacts.
Import ListNotations.
Open Scope nat_scope.

(** parts of volumes are old parts or new objects *)
Definition grows (h h' : heap) : Prop := forall u z, owns h' u z -> owns h u z \/ length h <= z.
Definition good (X : loc -> Prop) (h h' : heap) : Prop := wf h' /\ keeps X h h' /\ grows h h'.
Lemma good_refl X h : wf h -> good X h h.
Proof. intros W. split; [assumption|]. split; [apply keeps_refl|]. intros u z. auto. Qed.
Lemma good_trans X a b c : good X a b -> good X b c -> good X a c.
Proof.
  intros (W1 & K1 & G1) (W2 & K2 & G2). split; [assumption|]. split; [eapply keeps_trans; eauto|].
  intros u z H. apply G2 in H. destruct H as [H|H]; [apply G1, H|]. right. destruct K1. lia.
Qed.
Lemma good_weak (X Y : loc -> Prop) h h' : (forall i, i < length h -> X i -> Y i) -> good X h h' -> good Y h h'.
Proof. intros S (W & K & G). split; [assumption|]. split; [eapply keeps_weak; eauto|assumption]. Qed.
Lemma good_shape (X : loc -> Prop) h h' : wf h -> shape h h' -> (forall i, ~ X i -> get h' i = get h i) -> good X h h'.
Proof.
  intros W S H. split; [eapply wf_shape; eauto|]. split; [split; [destruct S; lia|auto]|].
  intros u z O. left. apply (owns_shape h h'); assumption.
Qed.
Lemma good_alloc X h o : wf h -> bare o -> good X h (h ++ [o]).
Proof.
  intros W B. split; [apply wf_alloc; assumption|]. split; [apply keeps_alloc|].
  intros u z O. left. apply (owns_alloc h o u z B), O.
Qed.
Lemma free_grows h h' x : grows h h' -> x < length h -> free h x -> free h' x.
Proof. intros G L F v O. apply G in O. destruct O as [O|O]; [apply (F v), O|lia]. Qed.
Lemma keeps_get X h h' i o : keeps X h h' -> ~ X i -> get h i = Some o -> get h' i = Some o.
Proof. intros [_ K] N E. rewrite K; auto. eapply get_lt; eauto. Qed.
Lemma new_free h x : wf h -> length h <= x -> free h x.
Proof. intros W L v O. apply owns_lt in O; [lia|assumption]. Qed.

(** ** deep copies *)
Lemma deepcopy_alg_spec h x h' r : wf h -> deepcopy_alg h x = (h', r) ->
  good none h h' /\ forall y, r = Ok y -> y = length h /\ length h' = S (length h) /\
    (exists a, view_alg h x = Some a /\ get h' y = Some (OAlg a)) /\ (forall u z, owns h' u z <-> owns h u z).
Proof.
  intros W H. unfold deepcopy_alg in H. destruct (view_alg h x) as [a|] eqn:E.
  - cbn in H. injection H as <- <-. split; [apply good_alloc; [assumption|exact I]|]. intros y Hy. injection Hy as <-.
    split; [reflexivity|]. split; [rewrite app_length; cbn; lia|]. split; [|intros; apply owns_alloc; exact I].
    exists a. split; [reflexivity|apply get_app_new].
  - injection H as <- <-. split; [apply good_refl; assumption|discriminate].
Qed.

Lemma view_gen_wf h x g st : wf h -> get h x = Some (OGen g st) -> exists s, view_gen h x = Some (gen_with g s) /\
  match st with Some l => view_strain h l = s /\ s <> None | None => s = None end.
Proof.
  intros W H. unfold view_gen. rewrite H. destruct st as [s|]; [|exists None; auto].
  assert (K : kind h s = Some KStrain) by (apply (wf_str _ W x); unfold gstr; rewrite H; reflexivity).
  unfold kind in K. unfold view_strain. destruct (get h s) as [[|hs| | |]|]; try discriminate.
  exists (Some hs). split; [reflexivity|]. split; congruence.
Qed.

Lemma deepcopy_gen_spec h x h' r : wf h -> deepcopy_gen h x = (h', r) ->
  good none h h' /\ forall y, r = Ok y ->
    length h <= y < length h' /\ (forall u z, owns h' u z <-> owns h u z) /\
    (forall s, gstr h' y = Some s -> length h <= s < length h') /\
    (forall s g', gstr h' y = Some s -> gstr h' g' = Some s -> g' = y) /\
    (exists g st st', get h x = Some (OGen g st) /\ get h' y = Some (OGen g st')) /\
    view_gen h' y = view_gen h x /\ (exists v, view_gen h x = Some v).
Proof.
  intros W H. unfold deepcopy_gen in H. destruct (get h x) as [[| |g [s|]| |]|] eqn:E;
    try (injection H as <- <-; split; [apply good_refl; assumption|discriminate]).
  - destruct (view_gen_wf h x g (Some s) W E) as (v & V & VS & VN). rewrite VS in H.
    destruct v as [hs|]; [|congruence]. cbn in H. injection H as Hh <-.
    assert (Hh' : h' = (h ++ [OStrain hs]) ++ [OGen g (Some (length h))]) by (symmetry; exact Hh). clear Hh. subst h'.
    assert (W2 : wf ((h ++ [OStrain hs]) ++ [OGen g (Some (length h))])) by (apply wf_alloc_gen; assumption).
    assert (OW : forall u z, owns ((h ++ [OStrain hs]) ++ [OGen g (Some (length h))]) u z <-> owns h u z).
    { intros u z. rewrite <- (owns_alloc h (OStrain hs) u z I). set (h1 := h ++ [OStrain hs]).
      assert (VA : forall i, valgs (h1 ++ [OGen g (Some (length h))]) i = valgs h1 i).
      { intros i. unfold valgs. rewrite get_app. destruct (Nat.eqb_spec i (length h1)) as [->|N]; [rewrite get_none by lia|]; reflexivity. }
      assert (VG : forall i, vgen (h1 ++ [OGen g (Some (length h))]) i = vgen h1 i).
      { intros i. unfold vgen. rewrite get_app. destruct (Nat.eqb_spec i (length h1)) as [->|N]; [rewrite get_none by lia|]; reflexivity. }
      assert (GS : forall i, i <> length h1 -> gstr (h1 ++ [OGen g (Some (length h))]) i = gstr h1 i).
      { intros i N. unfold gstr. rewrite get_app. destruct (Nat.eqb_spec i (length h1)) as [->|_]; [congruence|reflexivity]. }
      assert (NG : forall g0, vgen h1 u = Some g0 -> g0 <> length h1).
      { intros g0 V0 ->. apply (wf_gen h1) in V0; [apply kind_lt in V0; lia|]. apply wf_alloc; [assumption|exact I]. }
      unfold owns. rewrite VA, VG. split; (intros [A|[A|(g0 & A & B)]]; [left; auto|right; left; auto|right; right; exists g0; split; auto]).
      - rewrite GS in B; auto. - rewrite GS; auto. }
    split.
    + split; [exact W2|]. split; [eapply keeps_trans; apply keeps_alloc|]. intros u z O. left. apply OW, O.
    + intros y Hy. assert (EY : y = length h + 1) by (injection Hy as <-; rewrite app_length; reflexivity). clear Hy. subst y.
      assert (GY : gstr ((h ++ [OStrain hs]) ++ [OGen g (Some (length h))]) (length h + 1) = Some (length h)).
      { unfold gstr. replace (length h + 1) with (length (h ++ [OStrain hs])) by (rewrite app_length; cbn; lia). rewrite get_app_new. reflexivity. }
      split; [rewrite !app_length; cbn [length]; lia|]. split; [exact OW|]. split; [|split; [|split; [|split]]].
      * intros s0 Hs. rewrite GY in Hs. injection Hs as <-. rewrite !app_length. cbn [length]. lia.
      * intros s0 g' Hs Hg. rewrite GY in Hs. injection Hs as <-. unfold gstr in Hg. rewrite get_app in Hg.
        destruct (Nat.eqb_spec g' (length (h ++ [OStrain hs]))) as [EQ|N]; [rewrite app_length in EQ; cbn in EQ; lia|]. rewrite get_app in Hg.
        destruct (Nat.eqb_spec g' (length h)) as [EQ|N']; [discriminate|]. fold (gstr h g') in Hg. apply (wf_str _ W), kind_lt in Hg. lia.
      * exists g, (Some s), (Some (length h)). split; [reflexivity|]. replace (length h + 1) with (length (h ++ [OStrain hs])) by (rewrite app_length; cbn; lia). apply get_app_new.
      * rewrite V. unfold view_gen. replace (length h + 1) with (length (h ++ [OStrain hs])) by (rewrite app_length; cbn; lia). rewrite get_app_new.
        unfold view_strain. rewrite get_app_old by (rewrite app_length; cbn; lia). rewrite get_app_new. reflexivity.
      * eauto.
  - cbn in H. injection H as <- <-. split; [apply good_alloc; [assumption|exact I]|]. intros y Hy. injection Hy as <-. rewrite app_length. cbn [length].
    assert (GY : gstr (h ++ [OGen g None]) (length h) = None) by (unfold gstr; rewrite get_app_new; reflexivity).
    split; [lia|]. split; [intros; apply owns_alloc; exact I|]. split; [congruence|]. split; [congruence|]. split; [|split].
    + exists g, None, None. split; [reflexivity|apply get_app_new].
    + unfold view_gen. rewrite get_app_new, E. reflexivity.
    + unfold view_gen. rewrite E. eauto.
Qed.

(** ** adding parts *)
Lemma h_add_alg_spec h v x h' r : wf h -> h_add_alg h v x = (h', r) ->
  good (eq v) h h' /\ (forall l, r = Ok tt -> view_leaf h v = Some l ->
     exists a, view_alg h x = Some a /\ view_leaf h' v = Some (with_alg l (l_alg l ++ [a]))).
Proof.
  intros W H. unfold h_add_alg in H. destruct (get h v) as [[| | |l algs gen|]|] eqn:E;
    try (injection H as <- <-; split; [apply good_refl; assumption|discriminate]).
  destruct (deepcopy_alg h x) as [h1 r1] eqn:D. destruct (deepcopy_alg_spec _ _ _ _ W D) as (G & Y).
  destruct r1 as [y|e]; injection H as <- <-; [|split; [eapply good_weak; [|exact G]; intros ? ? []|discriminate]].
  destruct (Y y eq_refl) as (-> & L & (a & VA & GA) & OW). clear Y. destruct G as (W1 & K & GR).
  assert (E1 : get h1 v = Some (OVol l algs gen)) by (eapply keeps_get; eauto; intros []).
  assert (W2 : wf (put h1 v (OVol l (algs ++ [length h]) gen))).
  { apply wf_link_alg; auto. { unfold kind. rewrite GA. reflexivity. } intros u O. apply OW in O. apply owns_lt in O; [lia|assumption]. }
  assert (VL : v < length h) by (eapply get_lt; eauto).
  split.
  - split; [exact W2|]. split.
    + eapply keeps_trans; [eapply keeps_weak; [|exact K]; intros ? ? []|]. apply keeps_put. reflexivity.
    + intros u z O. unfold owns in O. assert (GS : forall i, gstr (put h1 v (OVol l (algs ++ [length h]) gen)) i = gstr h1 i).
      { intros i. unfold gstr. rewrite get_put, E1. destruct (Nat.eqb_spec i v) as [->|]; [rewrite E1|]; reflexivity. }
      assert (VG : forall i, vgen (put h1 v (OVol l (algs ++ [length h]) gen)) i = vgen h1 i).
      { intros i. unfold vgen. rewrite get_put, E1. destruct (Nat.eqb_spec i v) as [->|]; [rewrite E1|]; reflexivity. }
      rewrite VG in O. destruct O as [O|[O|(g & O & Q)]].
      * unfold valgs in O. rewrite get_put, E1 in O. destruct (Nat.eqb_spec u v) as [->|].
        -- apply in_app_or in O. destruct O as [O|[<-|[]]]; [|right; lia]. left. apply OW. left. unfold valgs. rewrite E1. exact O.
        -- left. apply OW. left. exact O.
      * left. apply OW. right. left. exact O.
      * left. apply OW. right. right. exists g. rewrite GS in Q. auto.
  - intros l0 _ V0. exists a. split; [exact VA|].
    unfold view_leaf in V0 |- *. rewrite E in V0. rewrite (get_put_eq _ _ _ _ E1).
    destruct (view_algs h algs) as [as_|] eqn:AS; [|discriminate].
    assert (FR : forall i, i < length h -> i <> v -> get (put h1 v (OVol l (algs ++ [length h]) gen)) i = get h i).
    { intros i Li Ni. rewrite get_put_ne by assumption. destruct K as [_ K]. apply K; auto. }
    assert (AV : view_algs (put h1 v (OVol l (algs ++ [length h]) gen)) (algs ++ [length h]) = Some (as_ ++ [a])).
    { assert (NV : forall i, In i algs -> i < length h /\ i <> v).
      { intros i Hi. assert (KI : kind h i = Some KAlg) by (apply (wf_alg _ W v); unfold valgs; rewrite E; exact Hi).
        split; [eapply kind_lt; eauto|]. intros ->. unfold kind in KI. rewrite E in KI. discriminate. }
      assert (GL : get (put h1 v (OVol l (algs ++ [length h]) gen)) (length h) = Some (OAlg a)) by (rewrite get_put_ne by lia; exact GA).
      revert FR GL. generalize (put h1 v (OVol l (algs ++ [length h]) gen)). intros h2 FR GL. clear -AS NV FR GL. revert as_ AS NV. induction algs as [|i algs IH]; intros as_ AS NV.
      - injection AS as <-. cbn. unfold view_alg. rewrite GL. reflexivity.
      - cbn [view_algs app] in *. destruct (view_alg h i) as [b|] eqn:B; [|discriminate]. destruct (view_algs h algs) as [bs|] eqn:BS; [|discriminate].
        injection AS as <-. unfold view_alg. destruct (NV i (or_introl eq_refl)) as [L1 L2]. rewrite FR by assumption. unfold view_alg in B.
        destruct (get h i) as [[b'| | | |]|]; try discriminate. injection B as <-. rewrite (IH bs); auto. intros j Hj. apply NV. right. exact Hj. }
    match goal with |- context [view_algs ?p ?q] => replace (view_algs p q) with (Some (as_ ++ [a])) by (symmetry; exact AV) end. destruct gen as [g|]; [|injection V0 as <-; reflexivity].
    assert (KG : kind h g = Some KGen) by (apply (wf_gen _ W v); unfold vgen; rewrite E; reflexivity).
    rewrite (view_gen_local h); [destruct (view_gen h g); [injection V0 as <-; reflexivity|discriminate]| |].
    + apply FR; [eapply kind_lt; eauto|]. intros ->. unfold kind in KG. rewrite E in KG. discriminate.
    + intros s Hs. apply (wf_str _ W) in Hs. apply FR; [eapply kind_lt; eauto|]. intros ->. unfold kind in Hs. rewrite E in Hs. discriminate.
Qed.

Lemma add_generator_gen g o l' g' : add_generator (empty_leaf 0) g o = Ok l' -> l_gen l' = Some g' ->
  forall l s, add_generator l (gen_with g s) o = Ok (with_gen l (Some (gen_with g' s))).
Proof.
  intros H E l s. destruct g as [c|a|], o as [o|]; cbn in H |- *; try discriminate; injection H as <-; cbn in E; injection E as <-; reflexivity.
Qed.
Lemma add_generator_err g o e : add_generator (empty_leaf 0) g o = Err e -> forall l s, add_generator l (gen_with g s) o = Err e.
Proof. intros H l s. destruct g as [c|a|], o as [o|]; cbn in H |- *; try discriminate; exact H. Qed.

Lemma view_gen_put h x g st g' s : get h x = Some (OGen g st) -> view_gen h x = Some (gen_with g s) -> 
  (st <> Some x) -> match st with Some l => view_strain h l = s | None => s = None end ->
  view_gen (put h x (OGen g' st)) x = Some (gen_with g' s).
Proof.
  intros H V N S. unfold view_gen. rewrite (get_put_eq _ _ _ _ H). destruct st as [l|]; [|subst; reflexivity].
  unfold view_strain in *. rewrite get_put_ne by congruence. unfold view_gen in V. rewrite H in V. unfold view_strain in V.
  destruct (get h l) as [[|hs| | |]|]; try discriminate. subst. reflexivity.
Qed.

Lemma h_add_gen_spec h v x o h' r : wf h -> h_add_gen h v x o = (h', r) ->
  good (eq v) h h' /\ (forall l, r = Ok tt -> view_leaf h v = Some l ->
     exists g l', view_gen h x = Some g /\ add_generator l g o = Ok l' /\ view_leaf h' v = Some l').
Proof.
  intros W H. unfold h_add_gen in H. destruct (get h v) as [[| | |l algs gen|]|] eqn:E;
    try (injection H as <- <-; split; [apply good_refl; assumption|discriminate]).
  destruct (deepcopy_gen h x) as [h1 r1] eqn:D. destruct (deepcopy_gen_spec _ _ _ _ W D) as (G & Y).
  assert (G' : good (eq v) h h1) by (eapply good_weak; [|exact G]; intros ? ? []).
  destruct r1 as [y|e]; [|injection H as <- <-; split; [exact G'|discriminate]].
  destruct (Y y eq_refl) as (LY & OW & SY & PY & (g & st0 & st & GX & GY) & VY & (vg & VX)). clear Y. rewrite GY in H.
  destruct (add_generator (empty_leaf 0) g o) as [l'|e] eqn:A; [|injection H as <- <-; split; [exact G'|discriminate]].
  destruct (l_gen l') as [g'|] eqn:LG; [|injection H as <- <-; split; [exact G'|discriminate]].
  injection H as <- <-. destruct G as (W1 & K & GR).
  assert (E1 : get h1 v = Some (OVol l algs gen)) by (eapply keeps_get; eauto; intros []).
  assert (NY : y <> v) by (pose proof (get_lt _ _ _ E); lia).
  set (h2 := put h1 y (OGen g' st)).
  assert (S2 : shape h1 h2) by (eapply put_shape; [exact GY|..]; same).
  assert (E2 : get h2 v = Some (OVol l algs gen)) by (unfold h2; rewrite get_put_ne by congruence; exact E1).
  assert (W2 : wf h2) by (eapply wf_shape; eauto).
  assert (OW2 : forall u z, owns h2 u z <-> owns h u z) by (intros; rewrite (owns_shape h1 h2) by assumption; apply OW).
  assert (GS2 : forall i, gstr h2 i = gstr h1 i) by (intros i; apply S2).
  assert (W3 : wf (put h2 v (OVol l algs (Some y)))).
  { apply wf_link_gen with (gen := gen); auto.
    - assert (kind h2 y = kind h1 y) as -> by apply S2. unfold kind. rewrite GY. reflexivity.
    - intros u O. apply OW2 in O. apply owns_lt in O; [lia|assumption].
    - intros s gg. rewrite !GS2. apply PY. }
  assert (VG3 : forall i, vgen (put h2 v (OVol l algs (Some y))) i = if Nat.eqb i v then Some y else vgen h2 i).
  { intros i. unfold vgen. rewrite get_put, E2. destruct (Nat.eqb i v); reflexivity. }
  assert (GS3 : forall i, gstr (put h2 v (OVol l algs (Some y))) i = gstr h2 i).
  { intros i. unfold gstr. rewrite get_put, E2. destruct (Nat.eqb_spec i v) as [->|]; [rewrite E2|]; reflexivity. }
  assert (VA3 : forall i, valgs (put h2 v (OVol l algs (Some y))) i = valgs h2 i).
  { intros i. unfold valgs. rewrite get_put, E2. destruct (Nat.eqb_spec i v) as [->|]; [rewrite E2|]; reflexivity. }
  split.
  - split; [exact W3|]. split.
    + destruct K as [LK K]. split; [unfold h2; rewrite !length_put; assumption|].
      intros i Li Ni. rewrite get_put_ne by congruence. unfold h2. rewrite get_put_ne by lia. apply K; auto.
    + intros u z O. unfold owns in O. rewrite VA3, VG3 in O. destruct O as [O|[O|(gg & O & Q)]].
      * left. apply OW2. left. exact O.
      * destruct (Nat.eqb_spec u v) as [->|]; [injection O as <-; right; lia|]. left. apply OW2. right. left. exact O.
      * rewrite GS3 in Q. destruct (Nat.eqb_spec u v) as [->|]; [injection O as <-; right; rewrite GS2 in Q; apply SY in Q; lia|].
        left. apply OW2. right. right. exists gg. auto.
  - intros l0 _ V0. destruct (view_gen_wf h1 y g st W1 GY) as (s & VS & SS). exists (gen_with g s).
    assert (VX' : view_gen h x = Some (gen_with g s)) by congruence.
    exists (with_gen l0 (Some (gen_with g' s))). split; [exact VX'|]. split; [eapply add_generator_gen; eauto|].
    assert (NSY : st <> Some y).
    { intros ->. assert (Q : gstr h1 y = Some y) by (unfold gstr; rewrite GY; reflexivity). apply (wf_str _ W1) in Q. unfold kind in Q. rewrite GY in Q. discriminate. }
    unfold view_leaf in V0 |- *. rewrite E in V0. rewrite (get_put_eq _ _ _ _ E2).
    assert (AV : view_algs (put h2 v (OVol l algs (Some y))) algs = view_algs h algs).
    { apply view_algs_local. intros i Hi. assert (KI : kind h i = Some KAlg) by (apply (wf_alg _ W v); unfold valgs; rewrite E; exact Hi).
      pose proof (kind_lt _ _ _ KI) as LI. rewrite get_put_ne. 2:{ intros ->. unfold kind in KI. rewrite E in KI. discriminate. }
      unfold h2. rewrite get_put_ne by lia. destruct K as [_ K]. apply K; auto. }
    rewrite AV. destruct (view_algs h algs) as [as_|]; [|discriminate].
    assert (VG : view_gen (put h2 v (OVol l algs (Some y))) y = Some (gen_with g' s)).
    { rewrite (view_gen_local h2).
      - eapply view_gen_put; eauto. destruct st; intuition.
      - apply get_put_ne. congruence.
      - intros s1 Hs. apply get_put_ne. intros ->. apply (wf_str _ W2) in Hs. unfold kind in Hs. rewrite E2 in Hs. discriminate. }
    rewrite VG. destruct gen as [g0|]; [destruct (view_gen h g0); [|discriminate]|]; injection V0 as <-; reflexivity.
Qed.

(** ** transformations *)
(** the loop over the algebraic objects, as a function on values *)
Fixpoint algs_st (t : transform) (l : list alg) : list alg * res unit :=
  match l with
  | [] => ([], Ok tt)
  | a :: rest => let '(a', r) := apply_alg_st t a in
                 match r with
                 | Ok _ => let '(o, r') := algs_st t rest in (a' :: o, r')
                 | Err e => (a' :: rest, Err e)
                 end
  end.
Lemma go_alg_st t : forall todo done, go_alg t done todo = (done ++ fst (algs_st t todo), snd (algs_st t todo)).
Proof.
  induction todo as [|a todo IH]; intros done; [cbn; rewrite app_nil_r; reflexivity|].
  cbn [go_alg algs_st]. destruct (apply_alg_st_spec t a) as [H1 H2]. destruct (apply_alg_st t a) as [b r]. cbn [fst snd] in *.
  fold (go_alg t). destruct (apply_alg t a) as [a'|e]; cbn [rmap] in H1; subst r.
  - rewrite (H2 a' eq_refl), IH. destruct (algs_st t todo) as [o r']. cbn. rewrite <- app_assoc. reflexivity.
  - reflexivity.
Qed.
Lemma leaf_transform_eq w l t : leaf_transform w l t =
  let '(l1, r1) := points_transform w l t in
  match r1 with
  | Err e => (l1, Err e)
  | Ok _ => let '(algs, r2) := algs_st t (l_alg l1) in
            match r2 with Err e => (with_alg l1 algs, Err e) | Ok _ => gen_step (with_alg l1 algs) t end
  end.
Proof.
  unfold leaf_transform, points_transform.
  match goal with |- (let '(_, _) := ?X in _) = (let '(_, _) := ?Y in _) => change Y with X; destruct X as [l1 [[]|e]] end; [|reflexivity].
  pose proof (go_alg_st t (l_alg l1) []) as G. change (go_alg t [] (l_alg l1)) with (
    (fix go (done todo : list alg) {struct todo} : list alg * res unit :=
      match todo with
      | [] => (done, Ok tt)
      | a :: rest => match apply_alg t a with
                     | Ok a' => go (done ++ [a']) rest
                     | Err e => (done ++ fst (apply_alg_st t a) :: rest, Err e)
                     end
      end) [] (l_alg l1)) in G. rewrite G. cbn [app]. destruct (algs_st t (l_alg l1)) as [o r]. reflexivity.
Qed.
Lemma points_transform_assemble w l a g t :
  points_transform w (assemble l a g) t = (assemble (fst (points_transform w l t)) a g, snd (points_transform w l t)).
Proof.
  unfold points_transform. cbn [assemble with_gen with_alg l_points]. destruct (l_points l) as [|p|]; [reflexivity| |reflexivity].
  unfold set_points, add_points, createHull. cbn [with_points l_points l_hull assemble with_gen with_alg].
  repeat match goal with
  | |- context [match ?x with _ => _ end] => match x with context [match _ with _ => _ end] => fail 1 | _ => destruct x end; cbn
  end; reflexivity.
Qed.

Lemma view_algs_wf h : forall xs, (forall x, In x xs -> kind h x = Some KAlg) -> exists a, view_algs h xs = Some a.
Proof.
  induction xs as [|x xs IH]; intros H; [exists []; reflexivity|]. destruct IH as [a IH]; [intros; apply H; right; assumption|].
  specialize (H x (or_introl eq_refl)). cbn. unfold view_alg. unfold kind in H. destruct (get h x) as [[b| | | |]|]; try discriminate. rewrite IH. eauto.
Qed.
Lemma view_leaf_wf h v l algs gen : wf h -> get h v = Some (OVol l algs gen) -> exists a g, view_leaf h v = Some (assemble l a g) /\
  view_algs h algs = Some a /\ match gen with None => g = None | Some x => exists y, g = Some y /\ view_gen h x = Some y end.
Proof.
  intros W E. destruct (view_algs_wf h algs) as [a A]. { intros x I. apply (wf_alg _ W v). unfold valgs. rewrite E. exact I. }
  unfold view_leaf. rewrite E, A. destruct gen as [x|]; [|eauto 6].
  assert (K : kind h x = Some KGen) by (apply (wf_gen _ W v); unfold vgen; rewrite E; reflexivity). unfold kind in K.
  destruct (get h x) as [[| |g st| |]|] eqn:EX; try discriminate. destruct (view_gen_wf h x g st W EX) as (s & V & _).
  exists a, (Some (gen_with g s)). rewrite V. eauto 6.
Qed.

Lemma h_algs_transform_spec t : forall xs h h' r a, NoDup xs -> view_algs h xs = Some a -> h_algs_transform h xs t = (h', r) ->
  shape h h' /\ (forall i, ~ In i xs -> get h' i = get h i) /\ view_algs h' xs = Some (fst (algs_st t a)) /\ r = snd (algs_st t a).
Proof.
  induction xs as [|x xs IH]; intros h h' r a ND V H.
  - cbn in V, H. injection V as <-. injection H as <- <-. split; [apply shape_refl|]. auto.
  - inversion ND as [|? ? NI ND']; subst. cbn [view_algs] in V. cbn [h_algs_transform] in H. unfold view_alg in V, H.
    destruct (get h x) as [[b| | | |]|] eqn:E; try discriminate. destruct (view_algs h xs) as [bs|] eqn:VB; [|discriminate]. injection V as <-.
    cbn [algs_st]. destruct (apply_alg_st t b) as [b' rb] eqn:AB.
    assert (S1 : shape h (put h x (OAlg b'))) by (eapply put_shape; [exact E|..]; same).
    assert (V1 : view_algs (put h x (OAlg b')) xs = Some bs).
    { rewrite <- VB. apply view_algs_local. intros y I. apply get_put_ne. intros ->. contradiction. }
    destruct rb as [[]|e].
    + destruct (IH _ _ _ _ ND' V1 H) as (S2 & F & V2 & R). destruct (algs_st t bs) as [o ro]. cbn [fst snd] in *.
      split; [eapply shape_trans; eauto|]. split.
      * intros i NI'. rewrite F by (intros I; apply NI'; right; exact I). apply get_put_ne. intros ->. apply NI'. left. reflexivity.
      * split; [|exact R]. cbn [view_algs]. unfold view_alg. rewrite F by assumption. rewrite (get_put_eq _ _ _ _ E), V2. reflexivity.
    + injection H as <- <-. cbn [fst snd]. split; [exact S1|]. split.
      * intros i NI'. apply get_put_ne. intros ->. apply NI'. left. reflexivity.
      * split; [|reflexivity]. cbn [view_algs]. unfold view_alg. rewrite (get_put_eq _ _ _ _ E), V1. reflexivity.
Qed.

Lemma generator_transform_with g t s : generator_transform (gen_with g s) t = rmap (fun g' => gen_with g' s) (generator_transform g t).
Proof.
  destruct g as [c|a|]; try reflexivity. cbn [gen_with generator_transform]. unfold crystal_transform. cbn [g_structure g_voxel g_strain g_post].
  destruct (set_bases (g_voxel c) (apply_bases t (vo_bases (g_voxel c)))); reflexivity.
Qed.

(** v itself and its parts *)
Definition part (h : heap) (v i : loc) : Prop := i = v \/ owns h v i.

Lemma h_vol_transform_spec w h v t h' r : wf h -> h_vol_transform w h v t = (h', r) ->
  shape h h' /\ (forall i, ~ part h v i -> get h' i = get h i) /\
  (forall l, view_leaf h v = Some l -> view_leaf h' v = Some (fst (leaf_transform w l t)) /\ r = snd (leaf_transform w l t)) /\
  (view_leaf h v = None -> h' = h /\ exists e, r = Err e).
Proof.
  intros W H. unfold h_vol_transform in H. destruct (get h v) as [[| | |l algs gen|]|] eqn:E;
    try (injection H as <- <-; split; [apply shape_refl|]; split; [auto|]; split; [intros l0 V; apply view_leaf_get in V; destruct V as (? & ? & ? & V); congruence|eauto]).
  destruct (view_leaf_wf _ _ _ _ _ W E) as (a & g & VL & VA & VG). rewrite VL.
  assert (AO : forall x, In x algs -> owns h v x) by (intros x I; left; unfold valgs; rewrite E; exact I).
  assert (NA : forall x, In x algs -> x <> v).
  { intros x I ->. assert (K : kind h v = Some KAlg) by (apply (wf_alg _ W v); unfold valgs; rewrite E; exact I). unfold kind in K. rewrite E in K. discriminate. }
  assert (ND : NoDup algs) by (pose proof (wf_nodup _ W v) as Q; unfold valgs in Q; rewrite E in Q; exact Q).
  destruct (points_transform w l t) as [l1 r1] eqn:PT. set (h1 := put h v (OVol l1 algs gen)) in *.
  assert (S1 : shape h h1) by (eapply put_shape; [exact E|..]; same).
  assert (E1 : get h1 v = Some (OVol l1 algs gen)) by (eapply get_put_eq; eauto).
  assert (F1 : forall i, i <> v -> get h1 i = get h i) by (intros; apply get_put_ne; assumption).
  assert (VA1 : view_algs h1 algs = Some a) by (rewrite <- VA; apply view_algs_local; intros x I; apply F1, NA, I).
  assert (NG : forall x, gen = Some x -> x <> v).
  { intros x -> ->. assert (K : kind h v = Some KGen) by (apply (wf_gen _ W v); unfold vgen; rewrite E; reflexivity). unfold kind in K. rewrite E in K. discriminate. }
  assert (NGA : forall x, gen = Some x -> ~ In x algs).
  { intros x -> I. assert (K : kind h x = Some KGen) by (apply (wf_gen _ W v); unfold vgen; rewrite E; reflexivity).
    assert (K' : kind h x = Some KAlg) by (apply (wf_alg _ W v); unfold valgs; rewrite E; exact I). congruence. }
  assert (GF : forall hh x, gen = Some x -> (forall i, i <> v -> ~ In i algs -> get hh i = get h i) -> view_gen hh x = view_gen h x).
  { intros hh x -> F. apply view_gen_local; [apply F; auto|]. intros s Hs. assert (K : kind h s = Some KStrain) by (eapply wf_str; eauto).
    apply F; [intros ->; unfold kind in K; rewrite E in K; discriminate|]. intros I.
    assert (K' : kind h s = Some KAlg) by (apply (wf_alg _ W v); unfold valgs; rewrite E; exact I). congruence. }
  assert (VV : forall hh l1 a1, get hh v = Some (OVol l1 algs gen) -> view_algs hh algs = Some a1 ->
      (forall i, i <> v -> ~ In i algs -> get hh i = get h i) -> view_leaf hh v = Some (assemble l1 a1 g)).
  { intros hh l2 a2 G2 A2 F2. unfold view_leaf. rewrite G2, A2. destruct gen as [x|]; [|subst g; reflexivity].
    destruct VG as (y & -> & VG). rewrite (GF hh x eq_refl F2), VG. reflexivity. }
  assert (LT : leaf_transform w (assemble l a g) t =
    match r1 with Err e => (assemble l1 a g, Err e) | Ok _ =>
      let '(algs, r2) := algs_st t a in match r2 with Err e => (assemble l1 algs g, Err e) | Ok _ => gen_step (assemble l1 algs g) t end end).
  { rewrite leaf_transform_eq, points_transform_assemble, PT. cbn [fst snd]. destruct r1 as [[]|e]; [|reflexivity].
    change (l_alg (assemble l1 a g)) with a. destruct (algs_st t a) as [o ro]. destruct ro as [[]|]; reflexivity. }
  destruct r1 as [[]|e].
  2:{ injection H as <- <-. split; [exact S1|]. split; [intros i NP; apply F1; intros ->; apply NP; left; reflexivity|]. split; [|discriminate].
      intros l0 HL. injection HL as <-. rewrite LT. split; [|reflexivity]. apply VV; auto. }
  destruct (h_algs_transform h1 algs t) as [h2 r2] eqn:HA. destruct (h_algs_transform_spec t _ _ _ _ _ ND VA1 HA) as (S2 & F2 & V2 & R2).
  assert (F2' : forall i, i <> v -> ~ In i algs -> get h2 i = get h i) by (intros i N1 N2; rewrite F2 by assumption; apply F1, N1).
  assert (E2 : get h2 v = Some (OVol l1 algs gen)) by (rewrite F2; [exact E1|]; intros I; apply (NA v I eq_refl)).
  destruct (algs_st t a) as [o ro] eqn:AS. cbn [fst snd] in *. subst r2.
  assert (P2 : forall i, ~ part h v i -> get h2 i = get h i).
  { intros i NP. apply F2'; [intros ->; apply NP; left; reflexivity|]. intros I. apply NP. right. apply AO, I. }
  assert (S02 : shape h h2) by (eapply shape_trans; eauto).
  destruct ro as [[]|e].
  2:{ injection H as <- <-. split; [exact S02|]. split; [exact P2|]. split; [|discriminate]. intros l0 HL. injection HL as <-. rewrite LT. split; [|reflexivity]. apply VV; auto. }
  assert (DONE : gen_step (assemble l1 o g) t = (assemble l1 o g, Ok tt) -> (h', r) = (h2, Ok tt) ->
    shape h h' /\ (forall i, ~ part h v i -> get h' i = get h i) /\
    (forall l2, Some (assemble l a g) = Some l2 -> view_leaf h' v = Some (fst (leaf_transform w l2 t)) /\ r = snd (leaf_transform w l2 t)) /\
    (Some (assemble l a g) = None -> h' = h /\ exists e, r = Err e)).
  { intros GS HE. injection HE as -> ->. split; [exact S02|]. split; [exact P2|]. split; [|discriminate]. intros l0 HL. injection HL as <-. rewrite LT, GS. split; [|reflexivity]. apply VV; auto. }
  unfold gen_step in DONE, LT. destruct (locked t) eqn:LK; [|apply DONE; [reflexivity|congruence]].
  destruct gen as [x|]; [|subst g; apply DONE; [reflexivity|congruence]]. clear DONE.
  destruct VG as (y & -> & VG). cbn [assemble with_gen with_alg l_gen] in LT. unfold h_gen_transform in H.
  assert (K : kind h x = Some KGen) by (apply (wf_gen _ W v); unfold vgen; rewrite E; reflexivity).
  assert (GX : get h2 x = get h x) by (apply F2'; auto). unfold kind in K. destruct (get h x) as [[| |gx st| |]|] eqn:EX; try discriminate.
  rewrite GX in H. destruct (view_gen_wf h x gx st W EX) as (s & VS & SS). rewrite VS in VG. injection VG as <-.
  rewrite generator_transform_with in LT. destruct (generator_transform gx t) as [g'|e] eqn:GT; cbn [rmap] in LT; injection H as <- <-.
  - assert (S3 : shape h2 (put h2 x (OGen g' st))) by (eapply put_shape; [exact GX|..]; same).
    split; [eapply shape_trans; eauto|]. split.
    + intros i NP. rewrite get_put_ne; [apply P2, NP|]. intros ->. apply NP. right. right. left. unfold vgen. rewrite E. reflexivity.
    + split; [|discriminate]. intros l0 HL. injection HL as <-. rewrite LT. split; [|reflexivity]. cbn [fst].
      unfold view_leaf. rewrite get_put_ne by (apply not_eq_sym; auto). rewrite E2.
      rewrite (view_algs_local h2). 2:{ intros i I. apply get_put_ne. intros ->. eapply NGA; eauto. } rewrite V2.
      assert (NSX : st <> Some x).
      { intros ->. assert (Q : gstr h x = Some x) by (unfold gstr; rewrite EX; reflexivity). apply (wf_str _ W) in Q. unfold kind in Q. rewrite EX in Q. discriminate. }
      rewrite (view_gen_put h2 x gx st g' s); auto.
      * rewrite <- VS. apply GF; auto.
      * destruct st as [sl|]; [|exact SS]. destruct SS as [SS _]. rewrite <- SS. unfold view_strain.
        assert (KS : kind h sl = Some KStrain) by (apply (wf_str _ W x); unfold gstr; rewrite EX; reflexivity).
        rewrite F2'; [reflexivity|intros ->; unfold kind in KS; rewrite E in KS; discriminate|]. intros I.
        assert (K' : kind h sl = Some KAlg) by (apply (wf_alg _ W v); unfold valgs; rewrite E; exact I). congruence.
  - split; [exact S02|]. split; [exact P2|]. split; [|discriminate]. intros l0 HL. injection HL as <-. rewrite LT. split; [|reflexivity]. apply VV; auto.
Qed.

(** ** members *)
Lemma below_shape h h' : shape h h' -> forall x u, below h x u -> below h' x u.
Proof. intros [_ S] x u B. induction B; [constructor|]. apply below_member with (c := c); [|assumption]. destruct (S x) as [_ ->]. assumption. Qed.
Lemma shape_sym h h' : shape h h' -> shape h' h.
Proof. intros [L S]. split; [auto|]. intros i. destruct (S i) as [(?&?&?&?) ?]. unfold refs_eq. repeat split; auto. Qed.
Lemma shape_multi h h' x : shape h h' -> match get h x with Some (OMulti _ vs) => exists p, get h' x = Some (OMulti p vs) | _ => forall p vs, get h' x <> Some (OMulti p vs) end.
Proof.
  intros [_ S]. destruct (S x) as [(K & _) M]. unfold kind in K. unfold mvols in M.
  destruct (get h x) as [[]|], (get h' x) as [[]|]; cbn in K; try discriminate; try (intros; discriminate). subst. eauto.
Qed.
Definition leaves_go (n : nat) (h : heap) := fix go (vs : list loc) : option (list loc) :=
  match vs with
  | [] => Some []
  | v :: t => match leaves n h v, go t with Some a, Some b => Some (a ++ b) | _, _ => None end
  end.
Lemma leaves_S n h x : leaves (S n) h x = match get h x with Some (OMulti _ vs) => leaves_go n h vs | _ => Some [x] end.
Proof. reflexivity. Qed.
Lemma leaves_go_cons n h v t : leaves_go n h (v :: t) = match leaves n h v, leaves_go n h t with Some a, Some b => Some (a ++ b) | _, _ => None end.
Proof. reflexivity. Qed.
Lemma leaves_go_ext n h h' : forall vs, (forall v, In v vs -> leaves n h' v = leaves n h v) -> leaves_go n h' vs = leaves_go n h vs.
Proof.
  induction vs as [|v vs IH]; intros H; [reflexivity|]. rewrite !leaves_go_cons, IH by (intros; apply H; right; assumption).
  rewrite H by (left; reflexivity). reflexivity.
Qed.
Lemma leaves_shape : forall n h h' x, shape h h' -> leaves n h' x = leaves n h x.
Proof.
  induction n as [|n IH]; intros h h' x S; [reflexivity|]. rewrite !leaves_S. pose proof (shape_multi _ _ x S) as M.
  destruct (get h x) as [[| | |l a g|p vs]|]; try (destruct (get h' x) as [[| | | |]|]; try reflexivity; exfalso; eapply M; reflexivity).
  destruct M as [p' ->]. apply leaves_go_ext. intros. apply IH. assumption.
Qed.

Definition transform_go (w : world) (n : nat) (t : transform) := fix go (h : heap) (vs : list loc) : heap * res unit :=
  match vs with
  | [] => (h, Ok tt)
  | v :: rest => let '(h', r) := h_transform w n h v t in match r with Ok _ => go h' rest | Err e => (h', Err e) end
  end.
Lemma h_transform_S w n h x t : h_transform w (S n) h x t = match get h x with Some (OMulti _ vs) => transform_go w n t h vs | _ => h_vol_transform w h x t end.
Proof. reflexivity. Qed.

Lemma h_transform_spec w t : forall n h x h' r, wf h -> h_transform w n h x t = (h', r) ->
  shape h h' /\ (forall i, (forall u, below h x u -> kind h u = Some KVol -> ~ part h u i) -> get h' i = get h i).
Proof.
  induction n as [|n IH]; intros h x h' r W H.
  { cbn in H. injection H as <- <-. split; [apply shape_refl|auto]. }
  rewrite h_transform_S in H.
  destruct (get h x) as [[| | |l a g|p vs]|] eqn:E;
    try (destruct (h_vol_transform_spec _ _ _ _ _ _ W H) as (S & F & L & N); split; [exact S|]; intros i Hi;
         destruct (view_leaf h x) eqn:V; [apply F, Hi; [constructor|]; destruct (view_leaf_get _ _ _ V) as (? & ? & ? & G); unfold kind; rewrite G; reflexivity|destruct (N eq_refl) as [-> _]; reflexivity]).
  assert (Q : forall vs h h' r, wf h -> transform_go w n t h vs = (h', r) ->
    shape h h' /\ (forall i, (forall c u, In c vs -> below h c u -> kind h u = Some KVol -> ~ part h u i) -> get h' i = get h i)).
  { clear -IH. induction vs as [|v vs IHv]; intros h h' r W H; cbn in H.
    - injection H as <- <-. split; [apply shape_refl|auto].
    - destruct (h_transform w n h v t) as [h1 r1] eqn:HT. destruct (IH _ _ _ _ W HT) as [S1 F1]. destruct r1 as [[]|e].
      + destruct (IHv _ _ _ (wf_shape _ _ S1 W) H) as [S2 F2]. split; [eapply shape_trans; eauto|]. intros i Hi. rewrite F2.
        * apply F1. intros u B. apply (Hi v u); [left; reflexivity|exact B].
        * intros c u I B KU P. apply (Hi c u); [right; exact I|eapply below_shape; [apply shape_sym; eassumption|exact B]|destruct S1 as [_ S1]; destruct (S1 u) as [(K & _) _]; congruence|].
          destruct P as [->|P]; [left; reflexivity|right]. apply (owns_shape h h1) in P; assumption.
      + injection H as <- <-. split; [exact S1|]. intros i Hi. apply F1. intros u B. apply (Hi v u); [left; reflexivity|exact B]. }
  destruct (Q _ _ _ _ W H) as [S F]. split; [exact S|]. intros i Hi. apply F. intros c u I B. apply Hi. apply below_member with (c := c); [|exact B].
  unfold mvols. rewrite E. exact I.
Qed.

Lemma h_each_app {A} (f : heap -> A -> heap * res unit) : forall a h b, h_each f h (a ++ b) =
  let '(h1, r) := h_each f h a in match r with Ok _ => h_each f h1 b | Err e => (h1, Err e) end.
Proof.
  induction a as [|x a IH]; intros h b; [reflexivity|]. cbn. destruct (f h x) as [h1 [u|e]]; [apply IH|reflexivity].
Qed.
Lemma h_transform_leaves w t : forall n h x ls, wf h -> leaves n h x = Some ls ->
  h_transform w n h x t = h_each (fun h v => h_vol_transform w h v t) h ls.
Proof.
  induction n as [|n IH]; intros h x ls W H; [discriminate|]. rewrite h_transform_S. rewrite leaves_S in H.
  destruct (get h x) as [[| | |l a g|p vs]|];
    try (injection H as <-; cbn; destruct (h_vol_transform w h x t) as [h1 [[]|e]]; reflexivity).
  clear p. revert h ls W H. induction vs as [|v vs IHv]; intros h ls W H.
  - injection H as <-. reflexivity.
  - rewrite leaves_go_cons in H. destruct (leaves n h v) as [la|] eqn:LA; [|discriminate]. destruct (leaves_go n h vs) as [lb|] eqn:LB; [|discriminate]. injection H as <-.
    rewrite h_each_app, <- (IH _ _ _ W LA). cbn. destruct (h_transform w n h v t) as [h1 r1] eqn:HT. destruct (h_transform_spec _ _ _ _ _ _ _ W HT) as [S1 _].
    destruct r1 as [[]|e]; [|reflexivity]. fold (transform_go w n t). apply IHv; [eapply wf_shape; eauto|]. rewrite <- LB. apply leaves_go_ext. intros. apply leaves_shape. assumption.
Qed.
Lemma h_transform_ok_leaves w t : forall n h x h', wf h -> h_transform w n h x t = (h', Ok tt) -> exists ls, leaves n h x = Some ls.
Proof.
  induction n as [|n IH]; intros h x h' W H; [discriminate|]. rewrite h_transform_S in H. rewrite leaves_S.
  destruct (get h x) as [[| | |l a g|p vs]|]; try (eexists; reflexivity).
  clear p. revert h h' W H. induction vs as [|v vs IHv]; intros h h' W H; cbn in H; [eexists; reflexivity|].
  destruct (h_transform w n h v t) as [h1 r1] eqn:HT. destruct r1 as [[]|e]; [|discriminate]. destruct (IH _ _ _ W HT) as [la LA].
  destruct (h_transform_spec _ _ _ _ _ _ _ W HT) as [S1 _]. destruct (IHv h1 h' (wf_shape _ _ S1 W) H) as [lb LB]. rewrite leaves_go_cons, LA. exists (la ++ lb). replace (leaves_go n h vs) with (Some lb); [reflexivity|]. rewrite <- LB. apply leaves_go_ext. intros. apply leaves_shape. assumption.
Qed.

Lemma part_shape h h' v i : shape h h' -> part h' v i <-> part h v i.
Proof. intros S. unfold part. rewrite (owns_shape h h' v i S). reflexivity. Qed.
Lemma view_leaf_frame h h' u : get h' u = get h u -> (forall x, owns h u x -> get h' x = get h x) -> view_leaf h' u = view_leaf h u.
Proof. apply view_leaf_local. Qed.
(** transforming one volume leaves every other volume's value alone *)
Lemma h_vol_transform_other w h v t h' r u : wf h -> h_vol_transform w h v t = (h', r) -> u <> v -> kind h u = Some KVol -> view_leaf h' u = view_leaf h u.
Proof.
  intros W H N KU. destruct (h_vol_transform_spec _ _ _ _ _ _ W H) as (S & F & _ & NV). destruct (view_leaf h v) as [lv|] eqn:V.
  2:{ destruct (NV eq_refl) as [-> _]. reflexivity. }
  destruct (view_leaf_get _ _ _ V) as (? & ? & ? & GV). assert (KV : kind h v = Some KVol) by (unfold kind; rewrite GV; reflexivity).
  assert (KO : forall a b, owns h a b -> kind h b <> Some KVol).
  { intros a b [O|[O|(g & _ & O)]]; [rewrite (wf_alg _ W _ _ O)|rewrite (wf_gen _ W _ _ O)|rewrite (wf_str _ W _ _ O)]; discriminate. }
  apply view_leaf_local.
  - apply F. intros [->|O]; [congruence|]. eapply KO; eauto.
  - intros z O. apply F. intros [->|O']; [eapply KO; eauto|]. apply N. eapply owns_unique; eauto.
Qed.

Lemma moved_each w t : forall ls h h', wf h -> h_each (fun h v => h_vol_transform w h v t) h ls = (h', Ok tt) ->
  shape h h' /\ forall v l, view_leaf h v = Some l -> exists l', moved w t (count_occ Nat.eq_dec ls v) l l' /\ view_leaf h' v = Some l'.
Proof.
  induction ls as [|x ls IH]; intros h h' W H; cbn in H.
  - injection H as <-. split; [apply shape_refl|]. intros v l V. exists l. split; [constructor|exact V].
  - destruct (h_vol_transform w h x t) as [h1 r1] eqn:HT. destruct r1 as [[]|e]; [|discriminate].
    destruct (h_vol_transform_spec _ _ _ _ _ _ W HT) as (S1 & F1 & L1 & N1). destruct (IH _ _ (wf_shape _ _ S1 W) H) as [S2 M].
    split; [eapply shape_trans; eauto|]. intros v l V. cbn [count_occ]. destruct (Nat.eq_dec x v) as [->|N].
    + destruct (L1 l V) as [V1 R1]. destruct (M _ _ V1) as (l' & ML & VL). exists l'. split; [|exact VL].
      econstructor; [|exact ML]. destruct (leaf_transform w l t) as [a b]. cbn in *. congruence.
    + assert (V1 : view_leaf h1 v = Some l).
      { rewrite <- V. eapply h_vol_transform_other; eauto. destruct (view_leaf_get _ _ _ V) as (? & ? & ? & G). unfold kind. rewrite G. reflexivity. }
      apply (M _ _ V1).
Qed.

(** ** copies of volumes *)
(** the same members *)
Definition mst (h h' : heap) : Prop := forall i, mvols h' i = mvols h i.
Definition nomulti (o : obj) : Prop := match o with OMulti _ _ => False | _ => True end.
Lemma mst_put h x o o' : get h x = Some o -> nomulti o -> nomulti o' -> mst h (put h x o').
Proof.
  intros H N N' i. unfold mvols. rewrite get_put, H. destruct (Nat.eqb_spec i x) as [->|]; [|reflexivity]. rewrite H.
  destruct o, o'; try contradiction; reflexivity.
Qed.
Lemma mst_alloc h o : nomulti o -> mst h (h ++ [o]).
Proof.
  intros N i. unfold mvols. rewrite get_app. destruct (Nat.eqb_spec i (length h)) as [->|]; [|reflexivity]. rewrite get_none by lia.
  destruct o; try contradiction; reflexivity.
Qed.
Lemma mst_trans a b c : mst a b -> mst b c -> mst a c. Proof. intros H1 H2 i. rewrite H2. apply H1. Qed.
Lemma mst_refl h : mst h h. Proof. intros i. reflexivity. Qed.
Lemma mst_shape h h' : shape h h' -> mst h h'. Proof. intros [_ S] i. apply S. Qed.
Lemma deepcopy_alg_mst h x : mst h (fst (deepcopy_alg h x)).
Proof. unfold deepcopy_alg. destruct (view_alg h x); cbn; [apply mst_alloc; exact I|apply mst_refl]. Qed.
Lemma deepcopy_gen_mst h x : mst h (fst (deepcopy_gen h x)).
Proof.
  unfold deepcopy_gen. destruct (get h x) as [[| |g [s|]| |]|]; cbn; try apply mst_refl; [|apply mst_alloc; exact I].
  destruct (view_strain h s); cbn; [|apply mst_refl]. eapply mst_trans; apply mst_alloc; exact I.
Qed.
Lemma h_add_alg_mst h v x h' r : wf h -> h_add_alg h v x = (h', r) -> mst h h'.
Proof.
  intros W H. unfold h_add_alg in H. destruct (get h v) as [[| | |l algs gen|]|] eqn:E; try (injection H as <- <-; apply mst_refl).
  destruct (deepcopy_alg h x) as [h1 r1] eqn:D. pose proof (deepcopy_alg_mst h x) as M. rewrite D in M. cbn in M.
  destruct (deepcopy_alg_spec _ _ _ _ W D) as ((_ & K & _) & _). destruct r1 as [y|e]; injection H as <- <-; [|exact M].
  eapply mst_trans; [exact M|]. eapply mst_put; [eapply keeps_get; [exact K|intros []|exact E]|exact I|exact I].
Qed.
Lemma h_add_gen_mst h v x o h' r : wf h -> h_add_gen h v x o = (h', r) -> mst h h'.
Proof.
  intros W H. unfold h_add_gen in H. destruct (get h v) as [[| | |l algs gen|]|] eqn:E; try (injection H as <- <-; apply mst_refl).
  destruct (deepcopy_gen h x) as [h1 r1] eqn:D. pose proof (deepcopy_gen_mst h x) as M. rewrite D in M. cbn in M.
  destruct (deepcopy_gen_spec _ _ _ _ W D) as ((_ & K & _) & Y). destruct r1 as [y|e]; [|injection H as <- <-; exact M].
  destruct (Y y eq_refl) as (LY & _). destruct (get h1 y) as [[| |g st| |]|] eqn:GY; try (injection H as <- <-; exact M).
  destruct (add_generator (empty_leaf 0) g o) as [l'|e]; [|injection H as <- <-; exact M].
  destruct (l_gen l') as [g'|]; [|injection H as <- <-; exact M]. injection H as <- <-.
  eapply mst_trans; [exact M|]. eapply mst_trans; [apply (mst_put h1 y (OGen g st) (OGen g' st)); [exact GY|exact I|exact I]|].
  eapply mst_put; [rewrite get_put_ne; [eapply keeps_get; [exact K|intros []|exact E]|]|exact I|exact I].
  intros ->. apply get_lt in E. lia.
Qed.

(** v and everything it owns were created after the first k objects *)
Definition fresh (k : nat) (h : heap) (v : loc) : Prop := k <= v /\ forall z, owns h v z -> k <= z.
Definition after (k : nat) (i : loc) : Prop := k <= i.
Lemma fresh_grows k h h' v : k <= length h -> grows h h' -> fresh k h v -> fresh k h' v.
Proof. intros L G [A B]. split; [exact A|]. intros z O. apply G in O. destruct O as [O|O]; [apply B, O|lia]. Qed.
Lemma good_keeps_len X h h' : good X h h' -> length h <= length h'.
Proof. intros (_ & [L _] & _). exact L. Qed.

Lemma h_each_add_alg v : forall xs h h' r, wf h -> h_each (fun h x => h_add_alg h v x) h xs = (h', r) ->
  good (eq v) h h' /\ mst h h' /\ (forall l a, r = Ok tt -> view_leaf h v = Some l -> view_algs h xs = Some a ->
    view_leaf h' v = Some (with_alg l (l_alg l ++ a))).
Proof.
  induction xs as [|x xs IH]; intros h h' r W H; cbn in H.
  - injection H as <- <-. split; [apply good_refl, W|]. split; [apply mst_refl|]. intros l a _ V HA. cbn in HA. injection HA as <-.
    rewrite app_nil_r. rewrite V. destruct l; reflexivity.
  - destruct (h_add_alg h v x) as [h1 r1] eqn:HA. destruct (h_add_alg_spec _ _ _ _ _ W HA) as [G1 V1]. pose proof (h_add_alg_mst _ _ _ _ _ W HA) as M1.
    destruct r1 as [[]|e]; [|injection H as <- <-; split; [exact G1|]; split; [exact M1|]; discriminate].
    destruct (IH _ _ _ (proj1 G1) H) as (G2 & M2 & V2). split; [eapply good_trans; eauto|]. split; [eapply mst_trans; eauto|].
    intros l a R V A. cbn [view_algs] in A. destruct (view_alg h x) as [b|] eqn:VB; [|discriminate]. destruct (view_algs h xs) as [bs|] eqn:VBS; [|discriminate]. injection A as <-.
    destruct (V1 l eq_refl V) as (b' & VB' & V1'). assert (b' = b) by congruence. subst b'.
    assert (VBS1 : view_algs h1 xs = Some bs).
    { rewrite <- VBS. apply view_algs_local. intros z I. destruct G1 as (_ & [_ K] & _).
      assert (exists c, get h z = Some (OAlg c)) as [c GZ].
      { clear -VBS I. revert bs VBS. induction xs as [|y xs IH]; intros bs VBS; [destruct I|]. cbn in VBS. unfold view_alg in VBS.
        destruct (get h y) as [[c| | | |]|] eqn:E; try discriminate. destruct (view_algs h xs) as [q|] eqn:Q; [|discriminate].
        destruct I as [<-|I]; [eauto|]. eapply IH; eauto. }
      apply K; [eapply get_lt; eauto|]. intros EQ. rewrite <- EQ in GZ. destruct (view_leaf_get _ _ _ V) as (? & ? & ? & GV). congruence. }
    rewrite (V2 _ bs R V1' VBS1). cbn [with_alg l_alg l_points l_hull l_tri l_gen l_prio l_tol l_atoms]. rewrite <- app_assoc. reflexivity.
Qed.

Lemma h_each_vol_transform w v k : forall ts h h' r, wf h -> k <= length h -> fresh k h v -> h_each (fun h t => h_vol_transform w h v t) h ts = (h', r) ->
  good (after k) h h' /\ mst h h' /\ fresh k h' v /\ (forall l, r = Ok tt -> view_leaf h v = Some l ->
    exists l', foldM (fun v t => let '(v', r) := leaf_transform w v t in rmap (fun _ => v') r) ts l = Ok l' /\ view_leaf h' v = Some l').
Proof.
  induction ts as [|t ts IH]; intros h h' r W L F H; cbn in H.
  - injection H as <- <-. split; [apply good_refl, W|]. split; [apply mst_refl|]. split; [exact F|]. intros l _ V. exists l. split; [reflexivity|exact V].
  - destruct (h_vol_transform w h v t) as [h1 r1] eqn:HT. destruct (h_vol_transform_spec _ _ _ _ _ _ W HT) as (S1 & F1 & V1 & N1).
    assert (G1 : good (after k) h h1).
    { apply good_shape; auto. intros i Ni. apply F1. destruct F as [FA FB]. intros [->|O]; apply Ni; [exact FA|apply FB, O]. }
    assert (FR : fresh k h1 v) by (eapply fresh_grows; eauto; apply G1).
    destruct r1 as [[]|e]; [|injection H as <- <-; split; [exact G1|]; split; [apply mst_shape, S1|]; split; [exact FR|discriminate]].
    destruct (IH _ _ _ (proj1 G1) ltac:(destruct S1; lia) FR H) as (G2 & M2 & FR2 & V2). split; [eapply good_trans; eauto|].
    split; [eapply mst_trans; [apply mst_shape; exact S1|exact M2]|]. split; [exact FR2|]. intros l R V. destruct (V1 l V) as [V1' R1]. destruct (V2 _ R V1') as (l' & FM & VL).
    exists l'. split; [|exact VL]. cbn. destruct (leaf_transform w l t) as [l1 r1]. cbn [fst snd] in *. subst r1. exact FM.
Qed.

(** the generator keyword *)
Definition gview (h : heap) (g : option loc) : option generator := match g with Some x => view_gen h x | None => None end.

Lemma new_volume_algs w p l prio : new_volume w p [] None None prio default_vtol = Ok l ->
  l_alg l = [] /\ l_gen l = None /\ forall a, new_volume w p a None None prio default_vtol = Ok (with_alg l a).
Proof.
  unfold new_volume. intros H. destruct p as [p|].
  - assert (Q : forall l', add_points w (empty_leaf default_vtol) (A2 p) = (l', Ok tt) -> l_alg l' = [] /\ l_gen l' = None).
    { intros l'. unfold add_points, createHull. cbn. destruct p as [|p1 [|p2 [|p3 [|p4 p]]]]; cbn; try discriminate. destruct (w_qhull w _); [|discriminate]. injection 1 as <-. auto. }
    destruct (add_points w (empty_leaf default_vtol) (A2 p)) as [l' [[]|e]]; [|discriminate]. cbn [rmap bind] in *. cbn in H. injection H as <-.
    destruct (Q _ eq_refl) as [Q1 Q2]. cbn. rewrite Q1. auto.
  - cbn in H. injection H as <-. auto.
Qed.

Lemma h_from_volume_spec w h v g ts h' r : wf h -> (forall x, g = Some x -> x < length h) -> h_from_volume w h v g ts = (h', r) ->
  good none h h' /\ mst h h' /\ forall y, r = Ok y -> length h <= y < length h' /\ kind h' y = Some KVol /\
    (exists l l', view_leaf h v = Some l /\ leaf_from_volume w l (gview h g) ts = Ok l' /\ view_leaf h' y = Some l').
Proof.
  intros W LG H. unfold h_from_volume in H. destruct (get h v) as [[| | |l algs gen|]|] eqn:E;
    try (injection H as <- <-; split; [apply good_refl, W|]; split; [apply mst_refl|discriminate]).
  destruct (match l_points l with PNone => new_volume w None [] None None (l_prio l) default_vtol | PArr p => new_volume w (Some p) [] None None (l_prio l) default_vtol | PBad => Err AssertionError end) as [l0|e] eqn:NV;
    [|injection H as <- <-; split; [apply good_refl, W|]; split; [apply mst_refl|discriminate]].
  cbn [alloc] in H. set (h1 := h ++ [OVol l0 [] None]) in *. set (n := length h) in *.
  assert (L1 : length h1 = S n) by (unfold h1; rewrite app_length; cbn; unfold n; lia).
  assert (G1 : good (after n) h h1) by (apply good_alloc; [exact W|exact I]).
  assert (M1 : mst h h1) by (apply mst_alloc; exact I).
  assert (E1 : get h1 n = Some (OVol l0 [] None)) by apply get_app_new.
  assert (FIN : forall hh, good (after n) h hh -> good none h hh).
  { intros hh G. eapply good_weak; [|exact G]. unfold after. intros i Hi Q. unfold n in Q. lia. }
  destruct (h_each (fun h x => h_add_alg h n x) h1 algs) as [h2 r2] eqn:EA.
  destruct (h_each_add_alg n algs h1 h2 r2 (proj1 G1) EA) as (G2 & M2 & V2).
  assert (A2 : good (after n) h h2) by (eapply good_trans; [exact G1|]; eapply good_weak; [|exact G2]; intros i _ <-; unfold after; lia).
  assert (MM2 : mst h h2) by (eapply mst_trans; eauto).
  destruct r2 as [[]|e]; [|injection H as <- <-; split; [apply FIN, A2|]; split; [exact MM2|discriminate]].
  match type of H with match ?X with Some _ => _ | None => _ end = _ => destruct X as [gx|] eqn:GX end; [|injection H as <- <-; split; [apply FIN, A2|]; split; [exact MM2|discriminate]].
  destruct (h_add_gen h2 n gx None) as [h3 r3] eqn:EG. destruct (h_add_gen_spec _ _ _ _ _ _ (proj1 A2) EG) as [G3 V3].
  assert (A3 : good (after n) h h3) by (eapply good_trans; [exact A2|]; eapply good_weak; [|exact G3]; intros i _ <-; unfold after; lia).
  assert (MM3 : mst h h3) by (eapply mst_trans; [exact MM2|]; eapply h_add_gen_mst; [|exact EG]; apply A2).
  destruct r3 as [[]|e]; [|injection H as <- <-; split; [apply FIN, A3|]; split; [exact MM3|discriminate]].
  destruct (h_each (fun h t => h_vol_transform w h n t) h3 ts) as [h4 r4] eqn:ET.
  assert (LN : n <= length h3) by (apply good_keeps_len in A3; exact A3).
  assert (FR : fresh n h3 n).
  { split; [lia|]. intros z O. destruct A3 as (_ & _ & G). apply G in O. destruct O as [O|O]; [|exact O]. apply owns_lt in O; [|exact W]. unfold n in O. lia. }
  destruct (h_each_vol_transform w n n ts h3 h4 r4 (proj1 A3) LN FR ET) as (G4 & M4 & _ & V4).
  assert (A4 : good (after n) h h4) by (eapply good_trans; eauto). assert (MM4 : mst h h4) by (eapply mst_trans; eauto).
  destruct r4 as [[]|e]; injection H as <- <-; [|split; [apply FIN, A4|]; split; [exact MM4|discriminate]].
  split; [apply FIN, A4|]. split; [exact MM4|]. intros y Hy. injection Hy as <-.
  destruct (view_leaf_wf _ _ _ _ _ W E) as (a & gv & VL & VA & VG).
  assert (NP : exists l1, l_alg l0 = [] /\ l_gen l0 = None /\ l1 = with_alg l0 a /\ match l_points l with PNone => new_volume w None a None None (l_prio l) default_vtol | PArr p => new_volume w (Some p) a None None (l_prio l) default_vtol | PBad => Err AssertionError end = Ok l1).
  { exists (with_alg l0 a). destruct (l_points l) as [|p|]; [| |discriminate]; destruct (new_volume_algs _ _ _ _ NV) as (Q1 & Q0 & Q2); rewrite Q2; auto. }
  destruct NP as (l1 & LA0 & NG0 & -> & NP).
  assert (VN1 : view_leaf h1 n = Some (with_gen (with_alg l0 []) None)) by (unfold view_leaf; rewrite E1; reflexivity).
  assert (VA1 : view_algs h1 algs = Some a).
  { rewrite <- VA. apply view_algs_local. intros x I. apply get_app_old. assert (K : kind h x = Some KAlg) by (apply (wf_alg _ W v); unfold valgs; rewrite E; exact I). eapply kind_lt; eauto. }
  pose proof (V2 _ _ eq_refl VN1 VA1) as VN2. cbn [with_gen with_alg l_alg l_points l_hull l_tri l_gen l_prio l_tol l_atoms app] in VN2.
  destruct (V3 _ eq_refl VN2) as (gg & l3 & VGG & AG & VN3).
  destruct (V4 _ eq_refl VN3) as (l4 & FM & VN4).
  split. { split; [lia|]. apply view_leaf_get in VN4. destruct VN4 as (? & ? & ? & Q). eapply get_lt; eauto. }
  split. { destruct (view_leaf_get _ _ _ VN4) as (? & ? & ? & Q). unfold kind. rewrite Q. reflexivity. }
  exists (assemble l a gv), l4. split; [exact VL|]. split; [|exact VN4].
  assert (GO : view_gen h gx = Some gg).
  { rewrite <- VGG. symmetry. destruct A2 as (W2 & [LK K] & GR).
    assert (LX : gx < length h).
    { destruct g as [g1|]; [injection GX as ->; apply LG; reflexivity|]. subst gen. destruct VG as (y & _ & VG). unfold view_gen in VG.
      destruct (get h gx) eqn:Q; [eapply get_lt; eauto|discriminate]. }
    apply view_gen_local; [apply K; auto; unfold after; fold n in LX; lia|]. intros s Hs. assert (KS : kind h s = Some KStrain) by (eapply wf_str; eauto).
    apply kind_lt in KS. apply K; auto. unfold after. fold n in KS. lia. }
  unfold leaf_from_volume. change (l_points (assemble l a gv)) with (l_points l). change (l_prio (assemble l a gv)) with (l_prio l). change (l_alg (assemble l a gv)) with a.
  change (l_gen (assemble l a gv)) with gv. rewrite NP. cbn [bind].
  assert (GQ : match gview h g with Some g0 => Some g0 | None => gv end = Some gg).
  { destruct g as [g1|]; cbn [gview].
    - injection GX as ->. rewrite GO. reflexivity.
    - subst gen. destruct VG as (y & -> & VG). congruence. }
  rewrite GQ.
  replace (with_alg l0 a) with (with_alg (with_gen (with_alg l0 []) None) a) by (clear -LA0 NG0; destruct l0; cbn in *; subst; reflexivity).
  rewrite AG. cbn [bind]. exact FM.
Qed.

(** members exist *)
Definition closed (h : heap) : Prop := forall m v, In v (mvols h m) -> v < length h.
Lemma closed_mst h h' : length h <= length h' -> mst h h' -> closed h -> closed h'.
Proof. intros L M C m v I. rewrite M in I. apply C in I. lia. Qed.
Lemma leaves_keeps h h' : closed h -> keeps none h h' -> forall n x, x < length h -> leaves n h' x = leaves n h x.
Proof.
  intros C [L K]. induction n as [|n IH]; intros x Lx; [reflexivity|]. rewrite !leaves_S, K by (auto; intros []).
  destruct (get h x) as [[| | |l a g|p vs]|] eqn:E; try reflexivity. apply leaves_go_ext. intros v I. apply IH. apply (C x). unfold mvols. rewrite E. exact I.
Qed.
Lemma leaves_lt h : closed h -> forall n x ls u, x < length h -> leaves n h x = Some ls -> In u ls -> u < length h.
Proof.
  intros C. induction n as [|n IH]; intros x ls u Lx H I; [discriminate|]. rewrite leaves_S in H.
  destruct (get h x) as [[| | |l a g|p vs]|] eqn:E; try (injection H as <-; destruct I as [<-|[]]; exact Lx).
  assert (B : forall v, In v vs -> v < length h) by (intros v J; apply (C x); unfold mvols; rewrite E; exact J). clear E.
  revert ls H I. induction vs as [|v vs IHv]; intros ls H I; [injection H as <-; destruct I|]. rewrite leaves_go_cons in H.
  destruct (leaves n h v) as [la|] eqn:LA; [|discriminate]. destruct (leaves_go n h vs) as [lb|]; [|discriminate]. injection H as <-.
  apply in_app_or in I. destruct I as [I|I]; [apply (IH v la u); auto; apply B; left; reflexivity|]. apply (IHv ltac:(intros; apply B; right; assumption) lb); auto.
Qed.
Lemma view_leaf_keeps h h' u : wf h -> keeps none h h' -> u < length h -> view_leaf h' u = view_leaf h u.
Proof.
  intros W [_ K] L. apply view_leaf_local; [apply K; auto; intros []|]. intros x O. apply K; [|intros []]. apply owns_lt in O; [lia|assumption].
Qed.
Lemma view_gen_keeps h h' g : wf h -> keeps none h h' -> g < length h -> view_gen h' g = view_gen h g.
Proof.
  intros W [_ K] L. apply view_gen_local; [apply K; auto; intros []|]. intros s Hs. apply K; [|intros []]. apply (wf_str _ W) in Hs. eapply kind_lt; eauto.
Qed.

Definition copy_go (w : world) (n : nat) (g : option loc) (ts : list transform) := fix go (h : heap) (vs : list loc) : heap * res (list loc) :=
  match vs with
  | [] => (h, Ok [])
  | v :: rest => let '(h', r) := h_copy w n h v g ts in
                 match r with Err e => (h', Err e) | Ok y => let '(h'', r') := go h' rest in (h'', rmap (cons y) r') end
  end.
Lemma h_copy_S w n h x g ts : h_copy w (S n) h x g ts =
  match get h x with
  | Some (OMulti p vols) => let '(h1, r) := copy_go w n g ts h vols in
      match r with Err e => (h1, Err e) | Ok ys => let '(h2, m) := alloc h1 (OMulti p ys) in (h2, Ok m) end
  | _ => h_from_volume w h x g ts
  end.
Proof. reflexivity. Qed.

(** [u'] in [h'] is a copy of [u] in [h] *)
Definition copied (w : world) (g : option loc) (ts : list transform) (h h' : heap) (u u' : loc) : Prop :=
  exists l l', view_leaf h u = Some l /\ leaf_from_volume w l (gview h g) ts = Ok l' /\ view_leaf h' u' = Some l'.

Lemma h_copy_spec w g ts : forall n h x h' r, wf h -> closed h -> (forall y, g = Some y -> y < length h) -> h_copy w n h x g ts = (h', r) ->
  good none h h' /\ closed h' /\ forall y, r = Ok y -> length h <= y < length h' /\ exists ls ls', leaves n h x = Some ls /\
    (forall h2, keeps none h' h2 -> leaves n h2 y = Some ls') /\ NoDup ls' /\ (forall u, In u ls' -> length h <= u < length h') /\
    Forall2 (copied w g ts h h') ls ls'.
Proof.
  induction n as [|n IH]; intros h x h' r W C LG H.
  { cbn in H. injection H as <- <-. split; [apply good_refl, W|]. split; [exact C|discriminate]. }
  rewrite h_copy_S in H.
  assert (LEAF : h_from_volume w h x g ts = (h', r) -> (forall p vs, get h x <> Some (OMulti p vs)) ->
    good none h h' /\ closed h' /\ forall y, r = Ok y -> length h <= y < length h' /\ exists ls ls', leaves (S n) h x = Some ls /\
    (forall h2, keeps none h' h2 -> leaves (S n) h2 y = Some ls') /\ NoDup ls' /\ (forall u, In u ls' -> length h <= u < length h') /\
    Forall2 (copied w g ts h h') ls ls').
  { intros HF NM. destruct (h_from_volume_spec _ _ _ _ _ _ _ W LG HF) as (G & M & Y). split; [exact G|]. split; [apply (closed_mst h h'); [apply G|exact M|exact C]|].
    intros y Hy. destruct (Y y Hy) as (LY & KY & CP). split; [exact LY|]. exists [x], [y]. split.
    { rewrite leaves_S. destruct (get h x) as [[| | | |]|]; try reflexivity. exfalso. eapply NM; eauto. }
    split. { intros h2 [_ K2]. rewrite leaves_S, K2; [|lia|intros []]. unfold kind in KY. destruct (get h' y) as [[| | | |]|]; try discriminate; reflexivity. }
    split; [constructor; [intros []|constructor]|]. split; [intros u [<-|[]]; exact LY|]. constructor; [exact CP|constructor]. }
  destruct (get h x) as [[| | |l a g0|p vs]|] eqn:E; try (apply LEAF; [exact H|intros; congruence]). clear LEAF.
  assert (BV : forall v, In v vs -> v < length h) by (intros v I; apply (C x); unfold mvols; rewrite E; exact I).
  assert (Q : forall vs h h' r, wf h -> closed h -> (forall y, g = Some y -> y < length h) -> (forall v, In v vs -> v < length h) ->
    copy_go w n g ts h vs = (h', r) -> good none h h' /\ closed h' /\ forall ys, r = Ok ys -> (forall y, In y ys -> length h <= y < length h') /\
    exists ls ls', leaves_go n h vs = Some ls /\ (forall h2, keeps none h' h2 -> leaves_go n h2 ys = Some ls') /\ NoDup ls' /\
    (forall u, In u ls' -> length h <= u < length h') /\ Forall2 (copied w g ts h h') ls ls').
  { clear -IH. induction vs as [|v vs IHv]; intros h h' r W C LG BV H; cbn in H.
    - injection H as <- <-. split; [apply good_refl, W|]. split; [exact C|]. intros ys Hy. injection Hy as <-. split; [intros y []|].
      exists [], []. split; [reflexivity|]. split; [reflexivity|]. split; [constructor|]. split; [intros u []|constructor].
    - destruct (h_copy w n h v g ts) as [h1 r1] eqn:HC. destruct (IH _ _ _ _ W C LG HC) as (G1 & C1 & Y1).
      destruct r1 as [y|e]; [|injection H as <- <-; split; [exact G1|]; split; [exact C1|discriminate]].
      fold (copy_go w n g ts) in H. destruct (copy_go w n g ts h1 vs) as [h2 r2] eqn:HG. injection H as <- <-.
      pose proof (good_keeps_len _ _ _ G1) as LL1.
      assert (LG1 : forall y, g = Some y -> y < length h1) by (intros z Hz; apply LG in Hz; lia).
      assert (BV1 : forall u, In u vs -> u < length h1) by (intros u I; specialize (BV u (or_intror I)); lia).
      destruct (IHv _ _ _ (proj1 G1) C1 LG1 BV1 HG) as (G2 & C2 & Y2). split; [eapply good_trans; eauto|]. split; [exact C2|].
      pose proof (good_keeps_len _ _ _ G2) as LL2. intros zs Hz. destruct r2 as [ys|e]; cbn in Hz; [|discriminate]. injection Hz as <-.
      destruct (Y1 y eq_refl) as (LY & la & la' & LA & SA & NA & BA & FA). destruct (Y2 ys eq_refl) as (LYS & lb & lb' & LB & SB & NB & BB & FB).
      destruct G1 as (W1 & K1 & _). destruct G2 as (W2 & K2 & _).
      split. { intros z [<-|I]; [lia|]. apply LYS in I. lia. }
      exists (la ++ lb), (la' ++ lb').
      assert (EQ : leaves_go n h1 vs = leaves_go n h vs). { apply leaves_go_ext. intros u I. apply leaves_keeps; auto. apply BV. right. exact I. }
      split. { rewrite leaves_go_cons, LA, <- EQ, LB. reflexivity. }
      split. { intros hh KH. rewrite leaves_go_cons, SA, SB; [reflexivity|exact KH|]. eapply keeps_trans; eauto. }
      split. { clear -NA NB BA BB. induction la' as [|u la' IHl]; [exact NB|]. cbn. inversion NA; subst. constructor.
        - intros I. apply in_app_or in I. destruct I as [I|I]; [contradiction|]. apply BB in I. specialize (BA u (or_introl eq_refl)). lia.
        - apply IHl; [assumption|]. intros z I. apply BA. right. exact I. }
      split. { intros u I. apply in_app_or in I. destruct I as [I|I]; [apply BA in I|apply BB in I]; lia. }
      apply Forall2_app.
      + clear -FA BA K2 W1. induction FA as [|u u' la la' (l & l' & V & F & V') FA IH]; constructor.
        * exists l, l'. split; [exact V|]. split; [exact F|]. rewrite (view_leaf_keeps h1 h2); auto. apply BA. left. reflexivity.
        * apply IH. intros z I. apply BA. right. exact I.
      + assert (BL : forall u, In u lb -> u < length h).
        { intros u I. rewrite EQ in LB. clear -C BV LB I. assert (BV' : forall v, In v vs -> v < length h) by (intros; apply BV; right; assumption). clear BV.
          revert lb LB I. induction vs as [|z vs IH]; intros lb LB I; [injection LB as <-; destruct I|]. rewrite leaves_go_cons in LB.
          destruct (leaves n h z) as [lz|] eqn:LZ; [|discriminate]. destruct (leaves_go n h vs) as [lr|]; [|discriminate]. injection LB as <-.
          apply in_app_or in I. destruct I as [I|I]; [apply (leaves_lt h C n z lz u); auto; apply BV'; left; reflexivity|]. apply (IH ltac:(intros; apply BV'; right; assumption) lr); auto. }
        assert (GV : gview h1 g = gview h g) by (destruct g as [z|]; [apply view_gen_keeps; auto|reflexivity]).
        clear -FB BL K1 W GV. induction FB as [|u u' lb lb' (l & l' & V & F & V') FB IH]; constructor.
        * exists l, l'. rewrite <- GV. split; [|split; assumption]. rewrite <- V. symmetry. apply view_leaf_keeps; auto. apply BL. left. reflexivity.
        * apply IH. intros z I. apply BL. right. exact I. }
  destruct (copy_go w n g ts h vs) as [h1 r1] eqn:HG. destruct (Q _ _ _ _ W C LG BV HG) as (G1 & C1 & Y1).
  destruct r1 as [ys|e]; [|injection H as <- <-; split; [exact G1|]; split; [exact C1|discriminate]].
  cbn in H. injection H as Hh <-. assert (Hh' : h' = h1 ++ [OMulti p ys]) by (symmetry; exact Hh). clear Hh. subst h'.
  destruct (Y1 ys eq_refl) as (LYS & ls & ls' & LA & SA & NA & BA & FA). destruct G1 as (W1 & K1 & GR1). pose proof (proj1 K1) as LL.
  split. { eapply good_trans; [split; [exact W1|]; split; [exact K1|exact GR1]|]. apply good_alloc; [exact W1|exact I]. }
  split. { intros m v I. rewrite app_length. cbn [length]. unfold mvols in I. rewrite get_app in I. destruct (Nat.eqb_spec m (length h1)).
    - apply LYS in I. lia.
    - fold (mvols h1 m) in I. apply C1 in I. lia. }
  intros y Hy. injection Hy as <-. rewrite app_length. cbn [length]. split; [lia|]. exists ls, ls'.
  split. { rewrite leaves_S, E. exact LA. }
  split. { intros h2 KH. rewrite leaves_S. destruct KH as [L2 K2]. rewrite K2; [|rewrite app_length; cbn; lia|intros []]. rewrite get_app_new.
    apply SA. eapply keeps_trans; [apply (keeps_alloc none h1 (OMulti p ys))|]. split; assumption. }
  split; [exact NA|]. split; [intros u I; apply BA in I; lia|].
  clear -FA BA W1. induction FA as [|u u' la la' (l & l' & V & F & V') FA IH]; constructor.
  - exists l, l'. split; [exact V|]. split; [exact F|]. rewrite (view_leaf_keeps h1); auto; [apply keeps_alloc|]. apply BA. left. reflexivity.
  - apply IH. intros z I. apply BA. right. exact I.
Qed.

(** ** populate_atoms *)
Lemma supply_gen mk d c g0 s b c' g' r : supply_atoms mk d c (gen_with g0 s) b = Ok (c', g', r) ->
  match g' with GCrystal k => match s with None => g_strain k = None | Some _ => g_strain k <> None end | _ => True end.
Proof.
  intros H. destruct g0 as [k|a|]; cbn in H.
  - destruct b as [l| | |]; try discriminate.
    + unfold crystal_supply in H. inv_bind H. injection H as <- <- <-. inv_bind Ha. cbn [fst snd]. destruct (block_atoms _ _) as [o sp]. cbn [g_post g_strain] in Ha.
      destruct (match g_post k with Some p => apply_post mk p c o sp | None => (c, (o, sp)) end) as [cc [oo ss]]. destruct s as [hs|].
      * inv_bind Ha. injection Ha as <-. cbn. discriminate.
      * injection Ha as <-. reflexivity.
    + destruct (Reqb _ _); [discriminate|]. injection H as <- <- <-. cbn. destruct s; [discriminate|reflexivity].
  - destruct b as [l| | |]; try (inv_bind H; injection H as <- <- <-; exact I);
      (destruct (if am_use_old a then am_old a else None); [injection H as <- <- <-; exact I|discriminate]).
  - injection H as <- <- <-. exact I.
Qed.
Lemma gen_with_with g s s' : gen_with (gen_with g s) s' = gen_with g s'.
Proof. destruct g; reflexivity. Qed.
Lemma gen_with_self g s : (match g with GCrystal k => g_strain k = s | _ => True end) -> gen_with g s = g.
Proof. destruct g as [[]|a|]; cbn; auto. intros ->. reflexivity. Qed.

Lemma h_populate_spec w c h v h' r : wf h -> h_populate w c h v = (h', r) ->
  shape h h' /\ (forall i, ~ part h v i -> get h' i = get h i) /\ (kind h v <> Some KVol -> h' = h) /\
  (forall l, view_leaf h v = Some l -> match leaf_populate w c l with
    | Ok (c', l') => r = Ok c' /\ view_leaf h' v = Some l'
    | Err e => r = Err e /\ h' = h end).
Proof.
  intros W H. unfold h_populate in H. destruct (get h v) as [[| | |l algs gen|]|] eqn:E;
    try (injection H as <- <-; split; [apply shape_refl|]; split; [auto|]; split; [auto|]; intros l0 V; apply view_leaf_get in V; destruct V as (? & ? & ? & V); congruence).
  destruct (view_leaf_wf _ _ _ _ _ W E) as (a & g & VL & VA & VG). rewrite VL in H |- *.
  destruct (leaf_populate w c (assemble l a g)) as [[c' l1]|e] eqn:LP.
  2:{ injection H as <- <-. split; [apply shape_refl|]. split; [auto|]. split; [auto|]. intros l0 HL. injection HL as <-. rewrite LP. auto. }
  assert (LPF : l_alg l1 = a /\ exists g0 g1 b rr, g = Some g0 /\ l_gen l1 = Some g1 /\ supply_atoms (w_mk w) (w_draws w) c g0 b = Ok (c', g1, rr)).
  { unfold leaf_populate in LP. change (l_gen (assemble l a g)) with g in LP. destruct g as [g0|]; [|discriminate].
    inv_bind LP. destruct a0 as [[cc gg] [co sp]]. inv_bind LP. inv_bind LP. injection LP as <- <-. split; [reflexivity|]. exists g0, gg. do 2 eexists. split; [reflexivity|]. split; [reflexivity|]. exact Ha. }
  destruct LPF as (LA & g0 & g1 & b & rr & -> & LG1 & SU). rewrite LG1 in H.
  destruct gen as [x|]; [|discriminate VG]. destruct VG as (y & Hy & VG). injection Hy as <-.
  assert (K : kind h x = Some KGen) by (apply (wf_gen _ W v); unfold vgen; rewrite E; reflexivity).
  assert (NX : x <> v) by (intros ->; unfold kind in K; rewrite E in K; discriminate).
  set (l2 := with_gen (with_alg l1 []) None) in *. set (h1 := put h v (OVol l2 algs (Some x))) in *.
  assert (S1 : shape h h1) by (eapply put_shape; [exact E|..]; same).
  assert (E1 : get h1 v = Some (OVol l2 algs (Some x))) by (eapply get_put_eq; eauto).
  assert (EX1 : get h1 x = get h x) by (apply get_put_ne; exact NX). rewrite EX1 in H. unfold kind in K.
  destruct (get h x) as [[| |gx st| |]|] eqn:EX; try discriminate. destruct (view_gen_wf h x gx st W EX) as (s & VS & SS). rewrite VS in VG. injection VG as <-.
  pose proof (supply_gen _ _ _ _ _ _ _ _ _ SU) as SG. set (h2 := put h1 x (OGen (gen_with g1 None) st)) in *.
  assert (S2 : shape h1 h2) by (eapply put_shape; [exact EX1|..]; same).
  assert (E2 : get h2 v = Some (OVol l2 algs (Some x))) by (unfold h2; rewrite get_put_ne by (apply not_eq_sym; exact NX); exact E1).
  assert (EX2 : get h2 x = Some (OGen (gen_with g1 None) st)) by (eapply get_put_eq; eauto).
  assert (OX : owns h v x) by (right; left; unfold vgen; rewrite E; reflexivity).
  assert (AK : forall i, In i algs -> kind h i = Some KAlg) by (intros i I; apply (wf_alg _ W v); unfold valgs; rewrite E; exact I).
  assert (F2 : forall i, i <> v -> i <> x -> get h2 i = get h i) by (intros i N1 N2; unfold h2, h1; rewrite !get_put_ne; auto).
  assert (S02 : shape h h2) by (eapply shape_trans; eauto).
  assert (A2 : forall hh, (forall i, In i algs -> get hh i = get h2 i) -> view_algs hh algs = Some a).
  { intros hh F. rewrite <- VA. rewrite (view_algs_local h2 hh) by exact F. apply view_algs_local. intros i I. apply F2; intros ->; apply AK in I; unfold kind in I; [rewrite E in I|rewrite EX in I]; discriminate. }
  assert (AL : assemble l2 a (Some g1) = l1) by (unfold assemble, l2; clear -LA LG1; destruct l1; cbn in *; subst; reflexivity).
  assert (NK : kind h v <> Some KVol -> h' = h) by (intros Q; exfalso; apply Q; unfold kind; rewrite E; reflexivity).
  assert (DONE : (h', r) = (h2, Ok c') -> view_gen h2 x = Some g1 ->
    shape h h' /\ (forall i, ~ part h v i -> get h' i = get h i) /\ (kind h v <> Some KVol -> h' = h) /\
    (forall l0, Some (assemble l a (Some (gen_with gx s))) = Some l0 -> match leaf_populate w c l0 with
      | Ok (c', l') => r = Ok c' /\ view_leaf h' v = Some l' | Err e => r = Err e /\ h' = h end)).
  { intros HE V2. injection HE as -> ->. split; [exact S02|]. split; [|split; [exact NK|]].
    - intros i NP. apply F2; intros ->; apply NP; [left; reflexivity|right; exact OX].
    - intros l0 HL. injection HL as <-. rewrite LP. split; [reflexivity|]. unfold view_leaf. rewrite E2, (A2 h2) by reflexivity. rewrite V2, AL. reflexivity. }
  destruct st as [sl|].
  - destruct SS as [SS SN]. assert (KS : kind h sl = Some KStrain) by (apply (wf_str _ W x); unfold gstr; rewrite EX; reflexivity).
    assert (N1 : sl <> v) by (intros ->; unfold kind in KS; rewrite E in KS; discriminate). assert (N2 : sl <> x) by (intros ->; unfold kind in KS; rewrite EX in KS; discriminate).
    assert (ES2 : get h2 sl = get h sl) by (apply F2; assumption). unfold kind in KS. destruct (get h sl) as [[|hs0| | |]|] eqn:ES; try discriminate.
    destruct (gen_strain g1) as [hs|] eqn:GS1.
    + injection H as <- <-. assert (S3 : shape h2 (put h2 sl (OStrain hs))) by (eapply put_shape; [exact ES2|..]; same).
      split; [eapply shape_trans; eauto|]. split; [|split; [intros Q; exfalso; apply Q; unfold kind; rewrite E; reflexivity|]].
      * intros i NP. rewrite get_put_ne. { apply F2; intros ->; apply NP; [left; reflexivity|right; exact OX]. }
        intros ->. apply NP. right. right. right. exists x. split; [unfold vgen; rewrite E; reflexivity|unfold gstr; rewrite EX; reflexivity].
      * intros l0 HL. injection HL as <-. rewrite LP. split; [reflexivity|]. unfold view_leaf. rewrite get_put_ne by (apply not_eq_sym; assumption). rewrite E2, A2.
        2:{ intros i I. apply get_put_ne. intros ->. apply AK in I. unfold kind in I. rewrite ES in I. discriminate. }
        unfold view_gen. rewrite get_put_ne by (apply not_eq_sym; assumption). rewrite EX2. unfold view_strain. rewrite (get_put_eq _ _ _ _ ES2).
        rewrite gen_with_with. replace (gen_with g1 (Some hs)) with g1; [rewrite AL; reflexivity|]. symmetry. apply gen_with_self. destruct g1; auto.
    + apply DONE; [congruence|]. unfold view_gen. rewrite EX2. unfold view_strain. rewrite ES2, gen_with_with. f_equal. apply gen_with_self.
      destruct g1 as [k|am|]; auto. exfalso. destruct s as [hs|]; [|congruence]. cbn in GS1. congruence.
  - apply DONE; [congruence|]. unfold view_gen. rewrite EX2, gen_with_with. f_equal. apply gen_with_self. destruct g1 as [k|am|]; auto. subst s. exact SG.
Qed.

(** ** one call *)
Definition writes (h : heap) (o : op) (i : loc) : Prop :=
  match o with
  | MutAlg x _ => i = x /\ kind h x = Some KAlg
  | MutGen x _ | SetStrain x _ => i = x /\ kind h x = Some KGen
  | MutStrain x _ => i = x /\ kind h x = Some KStrain
  | AddAlg v _ | AddGen v _ _ | AddPoints v _ => i = v /\ kind h v = Some KVol
  | SetPriority v _ => i = v /\ (kind h v = Some KVol \/ kind h v = Some KMulti)
  | AddVolume m _ => i = m /\ kind h m = Some KMulti
  | Transform x _ => exists u, below h x u /\ kind h u = Some KVol /\ part h u i
  | Populate v _ => kind h v = Some KVol /\ part h v i
  | _ => False
  end.
Lemma kind_get h x o : get h x = Some o -> kind h x = Some (knd_of o).
Proof. unfold kind. intros ->. reflexivity. Qed.

Lemma h_each_gen_transform y k : forall ts h h' r, wf h -> k <= y -> h_each (fun h t => h_gen_transform h y t) h ts = (h', r) ->
  good (after k) h h' /\ mst h h' /\ (r = Ok tt -> forall g, view_gen h y = Some g -> exists g', from_generator g ts = Ok g' /\ view_gen h' y = Some g').
Proof.
  induction ts as [|t ts IH]; intros h h' r W L H; cbn in H.
  - injection H as <- <-. split; [apply good_refl, W|]. split; [apply mst_refl|]. intros _ g V. exists g. split; [reflexivity|exact V].
  - destruct (h_gen_transform h y t) as [h1 r1] eqn:HT. unfold h_gen_transform in HT. destruct (get h y) as [[| |g st| |]|] eqn:E;
      try (injection HT as <- <-; injection H as <- <-; split; [apply good_refl, W|]; split; [apply mst_refl|discriminate]).
    destruct (generator_transform g t) as [g'|e] eqn:GT; injection HT as <- <-; [|injection H as <- <-; split; [apply good_refl, W|]; split; [apply mst_refl|discriminate]].
    assert (S1 : shape h (put h y (OGen g' st))) by (eapply put_shape; [exact E|..]; same).
    assert (G1 : good (after k) h (put h y (OGen g' st))) by (apply good_shape; auto; intros i Ni; apply get_put_ne; intros ->; apply Ni; exact L).
    destruct (IH _ _ _ (proj1 G1) L H) as (G2 & M2 & V2). split; [eapply good_trans; eauto|]. split; [eapply mst_trans; [apply mst_shape, S1|exact M2]|].
    intros R g2 V. destruct (view_gen_wf h y g st W E) as (s & VS & SS). rewrite VS in V. injection V as <-.
    assert (NSX : st <> Some y).
    { intros ->. assert (Q : gstr h y = Some y) by (unfold gstr; rewrite E; reflexivity). apply (wf_str _ W) in Q. unfold kind in Q. rewrite E in Q. discriminate. }
    destruct (V2 R (gen_with g' s)) as (g3 & F3 & V3). { eapply view_gen_put; eauto. destruct st; intuition. }
    exists g3. split; [|exact V3]. unfold from_generator in *. cbn. rewrite generator_transform_with, GT. exact F3.
Qed.

Lemma run_good w fuel h o h' r : wf h -> closed h -> client_ok h o -> run w fuel h o = (h', r) -> good (writes h o) h h' /\ closed h'.
Proof.
  intros W C OK H.
  assert (ALL : forall ob, bare ob -> nomulti ob -> h' = h ++ [ob] -> good (writes h o) h h' /\ closed h').
  { intros ob B N ->. split; [apply good_alloc; assumption|]. eapply closed_mst; [|apply mst_alloc, N|exact C]. rewrite app_length. lia. }
  assert (SAME : h' = h -> good (writes h o) h h' /\ closed h') by (intros ->; split; [apply good_refl, W|exact C]).
  assert (SH : shape h h' -> (forall i, ~ writes h o i -> get h' i = get h i) -> good (writes h o) h h' /\ closed h').
  { intros S F. split; [apply good_shape; assumption|]. eapply closed_mst; [|apply mst_shape, S|exact C]. destruct S; lia. }
  destruct o; cbn [run] in H.
  - injection H as <- <-. apply (ALL (OAlg a)); auto; exact I.
  - injection H as <- <-. apply (ALL (OStrain s)); auto; exact I.
  - injection H as <- <-. apply (ALL (OGen (gen_with g None) None)); auto; exact I.
  - destruct (new_volume w points [] None None prio default_vtol) as [l|e]; injection H as <- <-; [|apply SAME; reflexivity]. apply (ALL (OVol l [] None)); auto; exact I.
  - injection H as <- <-. split; [apply good_alloc; [exact W|exact I]|]. intros m v J. rewrite app_length. unfold mvols in J. rewrite get_app in J.
    destruct (Nat.eqb m (length h)); [destruct J|]. apply C in J. lia.
  - destruct (view_alg h x) as [a|]; [|injection H as <- <-; apply SAME; reflexivity]. destruct (from_alg_object a ts) as [a'|e]; injection H as <- <-; [|apply SAME; reflexivity].
    apply (ALL (OAlg a')); auto; exact I.
  - destruct (deepcopy_gen h x) as [h1 r1] eqn:D. destruct (deepcopy_gen_spec _ _ _ _ W D) as (G1 & Y). pose proof (deepcopy_gen_mst h x) as M1. rewrite D in M1. cbn in M1.
    assert (C1 : closed h1) by (apply (closed_mst h h1); [apply G1|exact M1|exact C]).
    assert (G1' : good (after (length h)) h h1) by (eapply good_weak; [|exact G1]; intros ? ? []).
    assert (FIN : forall hh, good (after (length h)) h hh -> good (writes h (FromGen x ts)) h hh) by (intros hh G; eapply good_weak; [|exact G]; unfold after; intros i Hi Q; lia).
    destruct r1 as [y|e]; [|injection H as <- <-; split; [apply FIN, G1'|exact C1]]. destruct (Y y eq_refl) as (LY & _).
    destruct (h_each (fun h t => h_gen_transform h y t) h1 ts) as [h2 r2] eqn:HE.
    destruct (h_each_gen_transform y (length h) ts h1 h2 r2 (proj1 G1) ltac:(lia) HE) as (G2 & M2 & _).
    assert (G : good (writes h (FromGen x ts)) h h2 /\ closed h2).
    { split; [apply FIN; eapply good_trans; eauto|]. apply (closed_mst h1 h2); [apply G2|exact M2|exact C1]. }
    destruct r2; injection H as <- <-; exact G.
  - assert (Q : (forall y, g = Some y -> y < length h) -> h_copy w fuel h x g ts = (h', r) -> good (writes h (Copy x g ts)) h h' /\ closed h').
    { intros LG HC. destruct (h_copy_spec _ _ _ _ _ _ _ _ W C LG HC) as (G & C' & _). split; [eapply good_weak; [|exact G]; intros ? ? []|exact C']. }
    destruct g as [y|]; [|apply Q; [discriminate|exact H]]. destruct (get h y) as [[| |gg st| |]|] eqn:E; try (injection H as <- <-; apply SAME; reflexivity).
    apply Q; [|exact H]. intros z Hz. injection Hz as <-. eapply get_lt; eauto.
  - destruct (get h g) as [[| |g0 st| |]|] eqn:E; try (injection H as <- <-; apply SAME; reflexivity). destruct (view_strain h s) as [hs|] eqn:VS; [|injection H as <- <-; apply SAME; reflexivity].
    injection H as <- <-. destruct OK as [FG FS]. set (h1 := put h g (OGen g0 (Some s))).
    assert (GE : forall i, get h1 i = if Nat.eqb i g then Some (OGen g0 (Some s)) else get h i) by (intros; unfold h1; rewrite get_put, E; reflexivity).
    assert (K : forall i, kind h1 i = kind h i). { intros i. unfold kind. rewrite GE. destruct (Nat.eqb_spec i g) as [EQ|]; [rewrite EQ, E|]; reflexivity. }
    assert (VA : forall i, valgs h1 i = valgs h i). { intros i. unfold valgs. rewrite GE. destruct (Nat.eqb_spec i g) as [EQ|]; [rewrite EQ, E|]; reflexivity. }
    assert (VG : forall i, vgen h1 i = vgen h i). { intros i. unfold vgen. rewrite GE. destruct (Nat.eqb_spec i g) as [EQ|]; [rewrite EQ, E|]; reflexivity. }
    assert (GS : forall i, gstr h1 i = if Nat.eqb i g then Some s else gstr h i). { intros i. unfold gstr. rewrite GE. destruct (Nat.eqb_spec i g) as [EQ|]; reflexivity. }
    assert (NG : forall u, vgen h u <> Some g) by (intros u Q; apply (FG u); right; left; exact Q).
    assert (NS : forall u gg, vgen h u = Some gg -> gstr h gg <> Some s) by (intros u gg Q Q'; apply (FS u); right; right; exists gg; auto).
    assert (W1 : wf h1).
    { constructor; intros *; rewrite ?K, ?VA, ?VG, ?GS.
      - apply wf_alg, W. - apply wf_gen, W.
      - destruct (Nat.eqb_spec g1 g) as [EQ|]; [|apply wf_str, W]. injection 1 as <-. unfold view_strain in VS. unfold kind. destruct (get h s) as [[| | | |]|]; try discriminate. reflexivity.
      - apply wf_nodup, W. - apply wf_A, W. - apply wf_G, W.
      - intros Q. destruct (Nat.eqb_spec g1 g) as [EQ|]; [subst; exfalso; eapply NG; eauto|]. destruct (Nat.eqb_spec g' g) as [EQ|].
        + intros Q1 Q2. injection Q2 as <-. exfalso. eapply NS; eauto.
        + intros. eapply wf_P; eauto. }
    split.
    + split; [exact W1|]. split; [apply keeps_put; split; [reflexivity|apply (kind_get _ _ _ E)]|]. intros u z O. left. unfold owns in *. rewrite VA, VG in O.
      destruct O as [O|[O|(gg & O & Q)]]; auto. right. right. exists gg. split; [exact O|]. rewrite GS in Q. destruct (Nat.eqb_spec gg g) as [EQ|]; [subst; exfalso; eapply NG; eauto|exact Q].
    + apply (closed_mst h h1); [unfold h1; rewrite length_put; lia| |exact C]. intros i. unfold mvols. rewrite GE. destruct (Nat.eqb_spec i g) as [EQ|]; [rewrite EQ, E|]; reflexivity.
  - destruct (get h x) as [[b| | | |]|] eqn:E; injection H as <- <-; try (apply SAME; reflexivity). apply SH; [eapply put_shape; [exact E|..]; same|].
    intros i Ni. apply get_put_ne. intros ->. apply Ni. split; [reflexivity|apply (kind_get _ _ _ E)].
  - destruct (get h x) as [[| |g0 st| |]|] eqn:E; injection H as <- <-; try (apply SAME; reflexivity). apply SH; [eapply put_shape; [exact E|..]; same|].
    intros i Ni. apply get_put_ne. intros ->. apply Ni. split; [reflexivity|apply (kind_get _ _ _ E)].
  - destruct (get h x) as [[| | | |]|] eqn:E; injection H as <- <-; try (apply SAME; reflexivity). apply SH; [eapply put_shape; [exact E|..]; same|].
    intros i Ni. apply get_put_ne. intros ->. apply Ni. split; [reflexivity|apply (kind_get _ _ _ E)].
  - destruct (h_add_alg h v x) as [h1 r1] eqn:HA. injection H as <- <-. destruct (get h v) as [[| | |l algs gen|]|] eqn:E;
      try (unfold h_add_alg in HA; rewrite E in HA; injection HA as <- <-; apply SAME; reflexivity).
    destruct (h_add_alg_spec _ _ _ _ _ W HA) as [G _]. split; [eapply good_weak; [|exact G]; intros i _ <-; split; [reflexivity|apply (kind_get _ _ _ E)]|].
    apply (closed_mst h h1); [apply G|eapply h_add_alg_mst; eauto|exact C].
  - destruct (h_add_gen h v x origin) as [h1 r1] eqn:HA. injection H as <- <-. destruct (get h v) as [[| | |l algs gen|]|] eqn:E;
      try (unfold h_add_gen in HA; rewrite E in HA; injection HA as <- <-; apply SAME; reflexivity).
    destruct (h_add_gen_spec _ _ _ _ _ _ W HA) as [G _]. split; [eapply good_weak; [|exact G]; intros i _ <-; split; [reflexivity|apply (kind_get _ _ _ E)]|].
    apply (closed_mst h h1); [apply G|eapply h_add_gen_mst; eauto|exact C].
  - destruct (get h v) as [[| | |l algs gen|]|] eqn:E; try (injection H as <- <-; apply SAME; reflexivity). destruct (add_points w l a) as [l' r'].
    injection H as <- <-. apply SH; [eapply put_shape; [exact E|..]; same|]. intros i Ni. apply get_put_ne. intros ->. apply Ni. split; [reflexivity|apply (kind_get _ _ _ E)].
  - destruct (get h v) as [[| | |l algs gen|q vs]|] eqn:E; try (injection H as <- <-; apply SAME; reflexivity); injection H as <- <-;
      (apply SH; [eapply put_shape; [exact E|..]; same|]; intros i Ni; apply get_put_ne; intros ->; apply Ni; split; [reflexivity|]; rewrite (kind_get _ _ _ E); auto).
  - destruct (get h m) as [[| | | |q vs]|] eqn:E; try (injection H as <- <-; apply SAME; reflexivity).
    assert (Q : v < length h -> good (writes h (AddVolume m v)) h (put h m (OMulti q (vs ++ [v]))) /\ closed (put h m (OMulti q (vs ++ [v])))).
    { intros LV. split.
      - assert (RE : forall i, refs_eq h (put h m (OMulti q (vs ++ [v]))) i) by (eapply put_refs; [exact E|..]; same).
        split; [eapply wf_refs; eauto|]. split; [apply keeps_put; split; [reflexivity|apply (kind_get _ _ _ E)]|]. intros u z O. left. apply (owns_refs h (put h m (OMulti q (vs ++ [v])))); assumption.
      - intros i u J. rewrite length_put. unfold mvols in J. rewrite get_put, E in J. destruct (Nat.eqb_spec i m) as [EQ|].
        + apply in_app_or in J. destruct J as [J|[<-|[]]]; [|exact LV]. apply (C m). unfold mvols. rewrite E. exact J.
        + apply C in J. exact J. }
    destruct (get h v) as [[| | |l algs gen|q' vs']|] eqn:EV; injection H as <- <-; try (apply SAME; reflexivity); apply Q; eapply get_lt; eauto.
  - destruct (h_transform w fuel h x t) as [h1 r1] eqn:HT. injection H as <- <-. destruct (h_transform_spec _ _ _ _ _ _ _ W HT) as [S F].
    apply SH; [exact S|]. intros i Ni. apply F. intros u B KU P. apply Ni. exists u. auto.
  - destruct (h_populate w c h v) as [h1 r1] eqn:HP. injection H as <- <-. destruct (h_populate_spec _ _ _ _ _ _ W HP) as (S & F & N & _).
    destruct (get h v) as [[| | |l algs gen|]|] eqn:E; try (apply SAME; apply N; unfold kind; rewrite E; discriminate).
    apply SH; [exact S|]. intros i Ni. apply F. intros P. apply Ni. split; [apply (kind_get _ _ _ E)|exact P].
Qed.

Lemma reach_wf w h : reach w h -> wf h /\ closed h.
Proof.
  induction 1 as [|h fuel o R [W C] OK].
  - split; [|intros m v; unfold mvols, get; destruct m; intros []]. 
    constructor; intros *; unfold valgs, vgen, gstr, get; try (destruct v; cbn; try discriminate; try (intros []); constructor); try (destruct g; discriminate); try (destruct u; cbn; try discriminate; intros []).
  - destruct (run w fuel h o) as [h' r] eqn:E. destruct (run_good _ _ _ _ _ _ W C OK E) as [(W' & _) C']. auto.
Qed.
