(** Facts about Model/Heap.v *)
From Coq Require Import Reals List ZArith Bool Lia PeanoNat.
From Verif.Model Require Import Base Vec Algebraic Transform Voxel Strain Generator Volume Heap.
From Verif.Spec Require Import HeapSpec.
From Verif.Proofs Require Import VolumeFacts VolTransFacts.
Import ListNotations.
Open Scope nat_scope.

(** ** get, put, alloc *)
Lemma get_put : forall h x o i, get (put h x o) i = if Nat.eqb i x then match get h x with Some _ => Some o | None => None end else get h i.
Proof.
  unfold get. induction h as [|a h IH]; intros x o i.
  - cbn. destruct i, x; cbn; try reflexivity; destruct (Nat.eqb i x); reflexivity.
  - destruct x as [|x]; destruct i as [|i]; cbn; try reflexivity. apply IH.
Qed.
Lemma get_put_eq h x o o' : get h x = Some o' -> get (put h x o) x = Some o.
Proof. intros H. rewrite get_put, Nat.eqb_refl, H. reflexivity. Qed.
Lemma get_put_ne h x o i : i <> x -> get (put h x o) i = get h i.
Proof. intros H. rewrite get_put. destruct (Nat.eqb_spec i x); congruence. Qed.
Lemma length_put : forall h x o, length (put h x o) = length h.
Proof. induction h; intros [|x] o; cbn; auto. Qed.
Lemma get_lt h x o : get h x = Some o -> x < length h.
Proof. intros H. apply nth_error_Some. unfold get in H. congruence. Qed.
Lemma get_none h x : length h <= x -> get h x = None.
Proof. apply nth_error_None. Qed.
Lemma get_app h o i : get (h ++ [o]) i = if Nat.eqb i (length h) then Some o else get h i.
Proof.
  unfold get. destruct (Nat.eqb_spec i (length h)) as [->|N].
  - rewrite nth_error_app2, Nat.sub_diag by lia. reflexivity.
  - destruct (Nat.lt_ge_cases i (length h)).
    + apply nth_error_app1. assumption.
    + rewrite (proj2 (nth_error_None h i)) by lia. apply nth_error_None. rewrite app_length. cbn. lia.
Qed.
Lemma get_app_old h o i : i < length h -> get (h ++ [o]) i = get h i.
Proof. intros. rewrite get_app. destruct (Nat.eqb_spec i (length h)); [lia|reflexivity]. Qed.
Lemma get_app_new h o : get (h ++ [o]) (length h) = Some o.
Proof. rewrite get_app, Nat.eqb_refl. reflexivity. Qed.

(** ** kinds and well-formedness *)
Inductive knd := KAlg | KStrain | KGen | KVol | KMulti.
Definition knd_of (o : obj) : knd :=
  match o with OAlg _ => KAlg | OStrain _ => KStrain | OGen _ _ => KGen | OVol _ _ _ => KVol | OMulti _ _ => KMulti end.
Definition kind (h : heap) (x : loc) : option knd := option_map knd_of (get h x).

Record wf (h : heap) : Prop := mkWf {
  wf_alg : forall v x, In x (valgs h v) -> kind h x = Some KAlg;
  wf_gen : forall v g, vgen h v = Some g -> kind h g = Some KGen;
  wf_str : forall g s, gstr h g = Some s -> kind h s = Some KStrain;
  wf_nodup : forall v, NoDup (valgs h v);
  wf_A : forall u v x, In x (valgs h u) -> In x (valgs h v) -> u = v;
  wf_G : forall u v g, vgen h u = Some g -> vgen h v = Some g -> u = v;
  wf_P : forall v g g' s, vgen h v = Some g -> gstr h g = Some s -> gstr h g' = Some s -> g' = g }.

(** no part has two owners *)
Lemma owns_unique h u v x : wf h -> owns h u x -> owns h v x -> u = v.
Proof.
  intros W [A|[A|(g & A & A')]] [B|[B|(g' & B & B')]].
  - eapply wf_A; eauto.
  - pose proof (wf_alg _ W _ _ A). pose proof (wf_gen _ W _ _ B). congruence.
  - pose proof (wf_alg _ W _ _ A). pose proof (wf_str _ W _ _ B'). congruence.
  - pose proof (wf_gen _ W _ _ A). pose proof (wf_alg _ W _ _ B). congruence.
  - eapply wf_G; eauto.
  - pose proof (wf_gen _ W _ _ A). pose proof (wf_str _ W _ _ B'). congruence.
  - pose proof (wf_str _ W _ _ A'). pose proof (wf_alg _ W _ _ B). congruence.
  - pose proof (wf_str _ W _ _ A'). pose proof (wf_gen _ W _ _ B). congruence.
  - rewrite (wf_P _ W _ _ _ _ A A' B') in B. eapply wf_G; eauto.
Qed.

(** same objects with the same references *)
Definition refs_eq (h h' : heap) (i : loc) : Prop :=
  kind h' i = kind h i /\ valgs h' i = valgs h i /\ vgen h' i = vgen h i /\ gstr h' i = gstr h i.
Definition shape (h h' : heap) : Prop := length h' = length h /\ forall i, refs_eq h h' i /\ mvols h' i = mvols h i.
Lemma refs_eq_get h h' i : get h' i = get h i -> refs_eq h h' i.
Proof. unfold refs_eq, kind, valgs, vgen, gstr. intros ->. auto. Qed.
Lemma mvols_get h h' i : get h' i = get h i -> mvols h' i = mvols h i.
Proof. unfold mvols. intros ->. auto. Qed.
Lemma shape_refl h : shape h h. Proof. split; [reflexivity|]. intros i. split; [apply refs_eq_get; reflexivity|reflexivity]. Qed.
Lemma shape_trans a b c : shape a b -> shape b c -> shape a c.
Proof.
  intros [L1 H1] [L2 H2]. split; [congruence|]. intros i. destruct (H1 i) as [(?&?&?&?) ?]. destruct (H2 i) as [(?&?&?&?) ?].
  unfold refs_eq. repeat split; congruence.
Qed.
Lemma wf_refs h h' : (forall i, refs_eq h h' i) -> wf h -> wf h'.
Proof.
  intros R W. assert (K : forall i, kind h' i = kind h i) by (intros; apply R). assert (VA : forall i, valgs h' i = valgs h i) by (intros; apply R).
  assert (VG : forall i, vgen h' i = vgen h i) by (intros; apply R). assert (GS : forall i, gstr h' i = gstr h i) by (intros; apply R).
  constructor; intros *; rewrite ?K, ?VA, ?VG, ?GS; intros; [eapply wf_alg|eapply wf_gen|eapply wf_str|eapply wf_nodup|eapply wf_A|eapply wf_G|eapply wf_P]; eauto.
Qed.
Lemma wf_shape h h' : shape h h' -> wf h -> wf h'.
Proof. intros [_ S]. apply wf_refs. intros i. apply S. Qed.
Lemma owns_refs h h' v x : (forall i, refs_eq h h' i) -> owns h' v x <-> owns h v x.
Proof.
  intros R. unfold owns. assert (GS : forall i, gstr h' i = gstr h i) by (intros; apply R). destruct (R v) as (_ & -> & -> & _).
  split; (intros [A|[A|(g & A & B)]]; [left; auto|right; left; auto|right; right; exists g; split; auto; congruence]).
Qed.
Lemma owns_shape h h' v x : shape h h' -> owns h' v x <-> owns h v x.
Proof. intros [_ S]. apply owns_refs. intros i. apply S. Qed.

Lemma put_refs h x o o' : get h x = Some o -> knd_of o' = knd_of o ->
  (forall l a g l' a' g', o = OVol l a g -> o' = OVol l' a' g' -> a' = a /\ g' = g) ->
  (forall g s g' s', o = OGen g s -> o' = OGen g' s' -> s' = s) ->
  forall i, refs_eq h (put h x o') i.
Proof.
  intros H K V G i. destruct (Nat.eq_dec i x) as [->|N].
  - unfold refs_eq, kind, valgs, vgen, gstr. rewrite (get_put_eq _ _ _ _ H), H. cbn. rewrite K. split; [reflexivity|].
    destruct o, o'; try discriminate K; auto.
    + rewrite (G _ _ _ _ eq_refl eq_refl). auto.
    + destruct (V _ _ _ _ _ _ eq_refl eq_refl) as [-> ->]. auto.
  - apply refs_eq_get, get_put_ne, N.
Qed.
Lemma put_shape h x o o' : get h x = Some o -> knd_of o' = knd_of o ->
  (forall l a g l' a' g', o = OVol l a g -> o' = OVol l' a' g' -> a' = a /\ g' = g) ->
  (forall g s g' s', o = OGen g s -> o' = OGen g' s' -> s' = s) ->
  (forall p vs p' vs', o = OMulti p vs -> o' = OMulti p' vs' -> vs' = vs) ->
  shape h (put h x o').
Proof.
  intros H K V G M. split; [apply length_put|]. intros i. split; [eapply put_refs; eauto|].
  destruct (Nat.eq_dec i x) as [->|N].
  - unfold mvols. rewrite (get_put_eq _ _ _ _ H), H. destruct o, o'; try discriminate K; auto. eapply M; eauto.
  - apply mvols_get, get_put_ne, N.
Qed.
Ltac same := try reflexivity; try (intros; congruence); try (intros; split; congruence).

(** allocation of an object without references *)
Definition bare (o : obj) : Prop :=
  match o with OAlg _ | OStrain _ | OGen _ None | OVol _ [] None | OMulti _ _ => True | _ => False end.
Lemma kind_lt h x k : kind h x = Some k -> x < length h.
Proof. unfold kind. destruct (get h x) eqn:E; [|discriminate]. intros _. eapply get_lt; eauto. Qed.
Lemma owns_kind h v x : wf h -> owns h v x -> exists k, kind h x = Some k.
Proof. intros W [A|[A|(g & _ & A)]]; [apply (wf_alg _ W) in A|apply (wf_gen _ W) in A|apply (wf_str _ W) in A]; eauto. Qed.
Lemma owns_lt h v x : wf h -> owns h v x -> x < length h /\ v < length h.
Proof.
  intros W H. split; [destruct (owns_kind _ _ _ W H) as [k K]; eapply kind_lt; eauto|].
  apply nth_error_Some. intros E. assert (G : get h v = None) by exact E. unfold owns, valgs, vgen in H. rewrite G in H.
  destruct H as [[]|[H|(g & H & _)]]; discriminate.
Qed.
Lemma app_old h o i : i < length h -> refs_eq h (h ++ [o]) i /\ mvols (h ++ [o]) i = mvols h i.
Proof. intros L. split; [apply refs_eq_get|apply mvols_get]; apply get_app_old, L. Qed.

(** [h'] extends [h]: old objects keep their contents except those in X *)
Definition keeps (X : loc -> Prop) (h h' : heap) : Prop :=
  length h <= length h' /\ forall i, i < length h -> ~ X i -> get h' i = get h i.
Definition none : loc -> Prop := fun _ => False.
Lemma keeps_refl X h : keeps X h h. Proof. split; auto. Qed.
Lemma keeps_trans X a b c : keeps X a b -> keeps X b c -> keeps X a c.
Proof. intros [L1 H1] [L2 H2]. split; [lia|]. intros i Hi HX. rewrite H2; auto. lia. Qed.
Lemma keeps_weak (X Y : loc -> Prop) h h' : (forall i, i < length h -> X i -> Y i) -> keeps X h h' -> keeps Y h h'.
Proof. intros S [L H]. split; [assumption|]. intros i Hi HY. apply H; auto. Qed.
Lemma keeps_alloc X h o : keeps X h (h ++ [o]).
Proof. split; [rewrite app_length; lia|]. intros i Hi _. apply get_app_old, Hi. Qed.
Lemma keeps_put (X : loc -> Prop) h x o : X x -> keeps X h (put h x o).
Proof. intros HX. split; [rewrite length_put; lia|]. intros i _ N. apply get_put_ne. intros ->. contradiction. Qed.

Lemma wf_alloc h o : wf h -> bare o -> wf (h ++ [o]).
Proof.
  intros W B. set (n := length h).
  assert (Q : forall i, valgs (h ++ [o]) i = valgs h i /\ vgen (h ++ [o]) i = vgen h i /\ gstr (h ++ [o]) i = gstr h i).
  { intros i. unfold valgs, vgen, gstr. rewrite get_app. destruct (Nat.eqb_spec i (length h)) as [->|N]; [|auto].
    rewrite (get_none h (length h)) by lia. destruct o as [| |g [s|]|l [|a t] [g|]|]; cbn in B; try contradiction; auto. }
  assert (K : forall i k, kind h i = Some k -> kind (h ++ [o]) i = Some k).
  { intros i k E. unfold kind in *. rewrite get_app_old; [exact E|]. eapply kind_lt; unfold kind; eauto. }
  assert (VA : forall i, valgs (h ++ [o]) i = valgs h i) by (intros; apply Q). assert (VG : forall i, vgen (h ++ [o]) i = vgen h i) by (intros; apply Q).
  assert (GS : forall i, gstr (h ++ [o]) i = gstr h i) by (intros; apply Q).
  constructor; intros *; rewrite ?VA, ?VG, ?GS; intros;
    [eapply K, wf_alg|eapply K, wf_gen|eapply K, wf_str|eapply wf_nodup|eapply wf_A|eapply wf_G|eapply wf_P]; eauto.
Qed.
Lemma alloc_refs h o : bare o -> forall i, valgs (h ++ [o]) i = valgs h i /\ vgen (h ++ [o]) i = vgen h i /\ gstr (h ++ [o]) i = gstr h i.
Proof.
  intros B i. unfold valgs, vgen, gstr. rewrite get_app. destruct (Nat.eqb_spec i (length h)) as [->|N]; [|auto].
  rewrite (get_none h (length h)) by lia. destruct o as [| |g [s|]|l [|a t] [g|]|]; cbn in B; try contradiction; auto.
Qed.
Lemma owns_alloc h o v x : bare o -> owns (h ++ [o]) v x <-> owns h v x.
Proof.
  intros B. unfold owns. destruct (alloc_refs h o B v) as (-> & -> & _).
  split; (intros [A|[A|(g & A & C)]]; [left; auto|right; left; auto|right; right; exists g; split; auto]);
    destruct (alloc_refs h o B g) as (_ & _ & E); congruence.
Qed.

(** a copy of a generator together with its strain field *)
Lemma wf_alloc_gen h g hs : wf h -> wf ((h ++ [OStrain hs]) ++ [OGen g (Some (length h))]).
Proof.
  intros W. set (h1 := h ++ [OStrain hs]). assert (W1 : wf h1) by (apply wf_alloc; [assumption|exact I]).
  assert (L1 : length h1 = S (length h)) by (unfold h1; rewrite app_length; cbn; lia).
  assert (VA : forall i, valgs (h1 ++ [OGen g (Some (length h))]) i = valgs h1 i).
  { intros i. unfold valgs. rewrite get_app. destruct (Nat.eqb_spec i (length h1)) as [->|N]; [rewrite get_none by lia|]; reflexivity. }
  assert (VG : forall i, vgen (h1 ++ [OGen g (Some (length h))]) i = vgen h1 i).
  { intros i. unfold vgen. rewrite get_app. destruct (Nat.eqb_spec i (length h1)) as [->|N]; [rewrite get_none by lia|]; reflexivity. }
  assert (GS : forall i, gstr (h1 ++ [OGen g (Some (length h))]) i = if Nat.eqb i (length h1) then Some (length h) else gstr h1 i).
  { intros i. unfold gstr. rewrite get_app. destruct (Nat.eqb_spec i (length h1)) as [->|N]; reflexivity. }
  assert (K : forall i k, kind h1 i = Some k -> kind (h1 ++ [OGen g (Some (length h))]) i = Some k).
  { intros i k E. unfold kind in *. rewrite get_app_old; [exact E|]. eapply kind_lt; unfold kind; eauto. }
  assert (NS : forall i, gstr h1 i <> Some (length h)).
  { intros i E. unfold gstr, h1 in E. rewrite get_app in E. destruct (Nat.eqb_spec i (length h)); [discriminate|].
    assert (E' : gstr h i = Some (length h)) by exact E. apply (wf_str _ W) in E'. apply kind_lt in E'. lia. }
  constructor; intros *; rewrite ?VA, ?VG, ?GS.
  - intros H. eapply K, wf_alg; eauto.
  - intros H. eapply K, wf_gen; eauto.
  - destruct (Nat.eqb_spec g0 (length h1)) as [->|N].
    + injection 1 as <-. apply K. unfold kind, h1. rewrite get_app_new. reflexivity.
    + intros H. eapply K, wf_str; eauto.
  - apply wf_nodup, W1.
  - apply wf_A, W1.
  - apply wf_G, W1.
  - intros H. assert (G1 : g0 <> length h1) by (intros ->; apply (wf_gen _ W1), kind_lt in H; lia).
    destruct (Nat.eqb_spec g0 (length h1)); [contradiction|]. destruct (Nat.eqb_spec g' (length h1)).
    + intros H1. injection 1 as <-. exfalso. eapply NS; eauto.
    + intros. eapply wf_P; eauto.
Qed.

(** giving a volume a new, unowned part *)
Lemma wf_link_alg h v l algs gen x : wf h -> get h v = Some (OVol l algs gen) -> kind h x = Some KAlg -> free h x ->
  wf (put h v (OVol l (algs ++ [x]) gen)).
Proof.
  intros W H KX FX. set (h' := put h v (OVol l (algs ++ [x]) gen)).
  assert (G : forall i, get h' i = if Nat.eqb i v then Some (OVol l (algs ++ [x]) gen) else get h i) by (intros; unfold h'; rewrite get_put, H; reflexivity).
  assert (K : forall i, kind h' i = kind h i). { intros i. unfold kind. rewrite G. destruct (Nat.eqb_spec i v) as [->|]; [rewrite H|]; reflexivity. }
  assert (VG : forall i, vgen h' i = vgen h i). { intros i. unfold vgen. rewrite G. destruct (Nat.eqb_spec i v) as [->|]; [rewrite H|]; reflexivity. }
  assert (GS : forall i, gstr h' i = gstr h i). { intros i. unfold gstr. rewrite G. destruct (Nat.eqb_spec i v) as [->|]; [rewrite H|]; reflexivity. }
  assert (VA : forall i, valgs h' i = if Nat.eqb i v then valgs h v ++ [x] else valgs h i).
  { intros i. unfold valgs. rewrite G, H. destruct (Nat.eqb_spec i v) as [->|]; reflexivity. }
  assert (NX : forall u, ~ In x (valgs h u)) by (intros u I; apply (FX u); left; exact I).
  constructor; intros *; rewrite ?K, ?VG, ?GS.
  - rewrite VA. destruct (Nat.eqb_spec v0 v) as [->|]; [|apply wf_alg, W]. intros I. apply in_app_or in I. destruct I as [I|[<-|[]]]; [eapply wf_alg; eauto|assumption].
  - apply wf_gen, W.
  - apply wf_str, W.
  - rewrite VA. destruct (Nat.eqb_spec v0 v) as [->|]; [|apply wf_nodup, W].
    pose proof (wf_nodup _ W v) as ND. clear -ND NX. specialize (NX v). induction (valgs h v) as [|a t IH]; [constructor; [intros []|constructor]|].
    inversion ND; subst. cbn. constructor.
    + intros I. apply in_app_or in I. destruct I as [I|[<-|[]]]; [contradiction|]. apply NX. left. reflexivity.
    + apply IH; try assumption. intros I. apply NX. right. exact I.
  - rewrite !VA. destruct (Nat.eqb_spec u v) as [->|U], (Nat.eqb_spec v0 v) as [->|V]; auto.
    + intros I1 I2. apply in_app_or in I1. destruct I1 as [I1|[<-|[]]]; [|exfalso; eapply NX; eauto]. eapply wf_A; eauto.
    + intros I1 I2. apply in_app_or in I2. destruct I2 as [I2|[<-|[]]]; [|exfalso; eapply NX; eauto]. eapply wf_A; eauto.
    + apply wf_A, W.
  - apply wf_G, W.
  - apply wf_P, W.
Qed.
Lemma wf_link_gen h v l algs gen y : wf h -> get h v = Some (OVol l algs gen) -> kind h y = Some KGen -> free h y ->
  (forall s g', gstr h y = Some s -> gstr h g' = Some s -> g' = y) ->
  wf (put h v (OVol l algs (Some y))).
Proof.
  intros W H KY FY PY. set (h' := put h v (OVol l algs (Some y))).
  assert (G : forall i, get h' i = if Nat.eqb i v then Some (OVol l algs (Some y)) else get h i) by (intros; unfold h'; rewrite get_put, H; reflexivity).
  assert (K : forall i, kind h' i = kind h i). { intros i. unfold kind. rewrite G. destruct (Nat.eqb_spec i v) as [->|]; [rewrite H|]; reflexivity. }
  assert (VA : forall i, valgs h' i = valgs h i). { intros i. unfold valgs. rewrite G. destruct (Nat.eqb_spec i v) as [->|]; [rewrite H|]; reflexivity. }
  assert (GS : forall i, gstr h' i = gstr h i). { intros i. unfold gstr. rewrite G. destruct (Nat.eqb_spec i v) as [->|]; [rewrite H|]; reflexivity. }
  assert (VG : forall i, vgen h' i = if Nat.eqb i v then Some y else vgen h i). { intros i. unfold vgen. rewrite G. destruct (Nat.eqb_spec i v) as [->|]; reflexivity. }
  assert (NY : forall u, vgen h u <> Some y) by (intros u I; apply (FY u); right; left; exact I).
  constructor; intros *; rewrite ?K, ?VA, ?GS.
  - apply wf_alg, W.
  - rewrite VG. destruct (Nat.eqb_spec v0 v) as [->|]; [injection 1 as <-; assumption|apply wf_gen, W].
  - apply wf_str, W.
  - apply wf_nodup, W.
  - apply wf_A, W.
  - rewrite !VG. destruct (Nat.eqb_spec u v) as [->|U], (Nat.eqb_spec v0 v) as [->|V]; auto.
    + injection 1 as <-. intros E. exfalso. eapply NY; eauto.
    + intros E. injection 1 as <-. exfalso. eapply NY; eauto.
    + apply wf_G, W.
  - rewrite VG. destruct (Nat.eqb_spec v0 v) as [->|]; [injection 1 as <-; intros; eapply PY; eauto|apply wf_P, W].
Qed.

(** ** views depend on the object and its parts only *)
Lemma view_algs_local h h' : forall xs, (forall x, In x xs -> get h' x = get h x) -> view_algs h' xs = view_algs h xs.
Proof.
  induction xs as [|x xs IH]; intros H; [reflexivity|]. cbn [view_algs]. rewrite IH by (intros; apply H; right; assumption).
  unfold view_alg. rewrite H by (left; reflexivity). reflexivity.
Qed.
Lemma view_gen_local h h' g : get h' g = get h g -> (forall s, gstr h g = Some s -> get h' s = get h s) -> view_gen h' g = view_gen h g.
Proof.
  intros H S. unfold view_gen. rewrite H. unfold gstr in S. destruct (get h g) as [[| |g0 [s|]| |]|]; auto.
  unfold view_strain. rewrite S by reflexivity. reflexivity.
Qed.
Lemma view_leaf_local h h' u : get h' u = get h u -> (forall x, owns h u x -> get h' x = get h x) -> view_leaf h' u = view_leaf h u.
Proof.
  intros H S. unfold view_leaf. rewrite H. destruct (get h u) as [[| | |l algs gen|]|] eqn:E; auto.
  rewrite (view_algs_local h h' algs). 2:{ intros x I. apply S. left. unfold valgs. rewrite E. exact I. }
  destruct gen as [g|]; auto. rewrite (view_gen_local h h' g); auto.
  - apply S. right. left. unfold vgen. rewrite E. reflexivity.
  - intros s Hs. apply S. right. right. exists g. split; [unfold vgen; rewrite E; reflexivity|exact Hs].
Qed.
Lemma view_leaf_get h u l : view_leaf h u = Some l -> exists l0 algs gen, get h u = Some (OVol l0 algs gen).
Proof. unfold view_leaf. destruct (get h u) as [[| | |l0 algs gen|]|]; try discriminate. eauto. Qed.
