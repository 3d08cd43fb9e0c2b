(** Facts about Model/Wulff.v *)
From Coq Require Import Reals List ZArith Bool Lra Lia.
From Verif.Model Require Import Base Vec Algebraic Transform Voxel Generator Volume Wulff.
From Verif.Spec Require Import WulffSpec.
From Verif.Proofs Require Import VecFacts AlgFacts VolumeFacts VolTransFacts GenFacts PrefabFacts.
Import ListNotations.
Open Scope R_scope.

Lemma facet_plane f : norm (f_normal f) = 1 ->
  plane_from_facet f = Ok (mkPlane (f_normal f) (vscale (f_dist f) (f_normal f)) default_tol).
Proof.
  intros H. unfold plane_from_facet, new_plane. rewrite check_unit by assumption. cbn [bind].
  replace (check_tol default_tol) with (Ok default_tol); [reflexivity|].
  symmetry. apply check_tol_Ok. unfold default_tol. lra.
Qed.

Definition fplane (f : facet) : plane := mkPlane (f_normal f) (vscale (f_dist f) (f_normal f)) default_tol.

Lemma fplane_bounds f : norm (f_normal f) = 1 -> bounds f (fplane f).
Proof.
  intros H x. unfold plane_interior, sdist_from_plane, in_facet, fplane, default_tol. cbn [p_normal p_point p_tol].
  rewrite Rltb_iff. pose proof (unit_dot _ H) as U.
  assert (E : dot (vscale (f_dist f) (f_normal f)) (f_normal f) = f_dist f).
  { transitivity (f_dist f * dot (f_normal f) (f_normal f)); [vring|]. rewrite U. lra. }
  rewrite E, (dot_comm x). split; intros; lra.
Qed.

Lemma planes_form_ok fs : unit_facets fs -> planes_from_form fs = Ok (map fplane fs).
Proof. intros H. apply mapM_Ok_map. intros x Hx. apply facet_plane. unfold unit_facets in H. rewrite Forall_forall in H. auto. Qed.

Lemma planes_wulff_ok p : unit_facets (concat (pa_forms p)) -> planes_from_wulff p = Ok (map fplane (concat (pa_forms p))).
Proof. apply planes_form_ok. Qed.

Lemma mapM_length {A B} (f : A -> res B) : forall l bs, mapM f l = Ok bs -> length bs = length l.
Proof. intros l bs H. apply mapM_Forall2 in H. induction H; cbn; congruence. Qed.

(** append_at *)
Lemma append_at_ok {A} : forall (ls : list (list A)) i x, (i < length ls)%nat ->
  exists ls', append_at i x ls = Ok ls' /\ length ls' = length ls /\
    nth i ls' [] = nth i ls [] ++ [x] /\ (forall j, j <> i -> nth j ls' [] = nth j ls []).
Proof.
  induction ls as [|l t IH]; intros i x H; cbn in H; [lia|]. destruct i as [|i].
  - eexists. cbn. repeat split. intros [|j] Hj; [congruence|reflexivity].
  - destruct (IH i x ltac:(lia)) as (t' & E & L & N & M). exists (l :: t'). cbn. rewrite E. cbn. repeat split; auto.
    intros [|j] Hj; [reflexivity|]. apply M. congruence.
Qed.
Lemma append_at_err {A} : forall (ls : list (list A)) i x, (length ls <= i)%nat -> append_at i x ls = Err IndexError.
Proof.
  induction ls as [|l t IH]; intros i x H; [destruct i; reflexivity|]. destruct i as [|i]; cbn in H; [lia|].
  cbn. rewrite IH by lia. reflexivity.
Qed.
Lemma append_at_len {A} : forall (ls : list (list A)) i x ls', append_at i x ls = Ok ls' -> length ls' = length ls.
Proof.
  intros ls i x ls' H. destruct (Nat.lt_ge_cases i (length ls)) as [L|L].
  - destruct (append_at_ok ls i x L) as (l2 & E & F & _). congruence.
  - rewrite append_at_err in H by assumption. discriminate.
Qed.

(** dealing the elements a..a+m of a form *)
Lemma deal_run {A} n len (xs : list A) : (len / n <> 0)%nat -> forall a ls,
  (forall i, (a <= i < a + length xs)%nat -> (i / (len / n) < length ls)%nat) ->
  exists ls', foldM (deal_one n len) (combine (seq a (length xs)) xs) ls = Ok ls' /\ length ls' = length ls /\
    forall j, nth j ls' [] = nth j ls [] ++ map snd (filter (fun ix => Nat.eqb (fst ix / (len / n)) j) (combine (seq a (length xs)) xs)).
Proof.
  intros K. set (k := (len / n)%nat) in *. induction xs as [|x xs IH]; intros a ls H.
  - exists ls. cbn. repeat split. intros j. rewrite app_nil_r. reflexivity.
  - cbn [length seq combine foldM]. unfold deal_one at 1. cbn [fst snd]. fold k.
    destruct (Nat.eqb_spec k 0) as [Z|_]; [contradiction|].
    destruct (append_at_ok ls (a / k) x) as (l1 & E & L & N & M). { apply H. cbn [length]. lia. }
    rewrite E. cbn [bind]. destruct (IH (Datatypes.S a) l1) as (l2 & E2 & L2 & N2).
    { intros i Hi. rewrite L. apply H. cbn [length]. lia. }
    exists l2. split; [exact E2|]. split; [congruence|]. intros j. rewrite N2. cbn [filter fst].
    destruct (Nat.eqb_spec (a / k) j) as [<-|D].
    + rewrite N. cbn [map snd]. rewrite <- app_assoc. reflexivity.
    + rewrite M by congruence. reflexivity.
Qed.

(** picking the indices of block j *)
Lemma filter_block {A} k j : (k <> 0)%nat -> forall (xs : list A) a,
  map snd (filter (fun ix => Nat.eqb (fst ix / k) j) (combine (seq a (length xs)) xs)) =
  firstn (Datatypes.S j * k - Nat.max a (j * k)) (skipn (j * k - a) xs).
Proof.
  intros K. induction xs as [|x xs IH]; intros a; [rewrite skipn_nil, firstn_nil; reflexivity|].
  cbn [length seq combine filter fst]. destruct (Nat.eqb_spec (a / k) j) as [E|D].
  - assert (B : (j * k <= a < Datatypes.S j * k)%nat).
    { subst j. pose proof (Nat.mod_upper_bound a k K). pose proof (Nat.div_mod a k K). nia. }
    cbn [map snd]. rewrite IH. replace (j * k - a)%nat with O by lia. replace (j * k - Datatypes.S a)%nat with O by lia.
    cbn [skipn]. replace (Datatypes.S j * k - Nat.max a (j * k))%nat with (Datatypes.S (Datatypes.S j * k - Nat.max (Datatypes.S a) (j * k))) by lia.
    reflexivity.
  - rewrite IH. assert (B : (a < j * k)%nat \/ (Datatypes.S j * k <= a)%nat).
    { destruct (Nat.lt_ge_cases a (j * k)); [auto|]. right. destruct (Nat.lt_ge_cases a (Datatypes.S j * k)); [|lia]. exfalso. apply D.
      symmetry. apply (Nat.div_unique a k j (a - j * k)); nia. }
    destruct B as [B|B].
    + replace (j * k - a)%nat with (Datatypes.S (j * k - Datatypes.S a)) by lia. cbn [skipn].
      replace (Nat.max a (j * k)) with (Nat.max (Datatypes.S a) (j * k)) by lia. reflexivity.
    + replace (Datatypes.S j * k - Nat.max a (j * k))%nat with O by lia.
      replace (Datatypes.S j * k - Nat.max (Datatypes.S a) (j * k))%nat with O by lia. reflexivity.
Qed.

Lemma div_mult n k : (0 < n)%nat -> (n * k / n = k)%nat.
Proof. intros. rewrite Nat.mul_comm, Nat.div_mul; lia. Qed.

Lemma deal_form_ok {A} n ls (xs : list A) k : (0 < n)%nat -> length ls = n -> length xs = (n * k)%nat ->
  exists ls', deal_form n ls xs = Ok ls' /\ length ls' = n /\ forall j, (j < n)%nat -> nth j ls' [] = nth j ls [] ++ block n j xs.
Proof.
  intros Hn HL HX. unfold deal_form, block. rewrite HX, div_mult by assumption.
  destruct k as [|k].
  - assert (xs = []) as -> by (apply length_zero_iff_nil; lia). exists ls. rewrite Nat.mul_0_r. cbn. repeat split; auto.
    intros. rewrite app_nil_r. reflexivity.
  - destruct (deal_run n (n * Datatypes.S k) xs) with (a := O) (ls := ls) as (l2 & E & L & N).
    + rewrite div_mult by assumption. lia.
    + intros i Hi. rewrite div_mult by assumption. apply Nat.div_lt_upper_bound; nia.
    + rewrite HX in E. exists l2. split; [exact E|]. split; [congruence|]. intros j Hj. rewrite N, div_mult by assumption. f_equal.
      rewrite filter_block by lia. rewrite Nat.sub_0_r. f_equal; nia.
Qed.

Lemma deal_form_len {A} n (ls ls' : list (list A)) xs : deal_form n ls xs = Ok ls' -> length ls' = length ls.
Proof.
  unfold deal_form. generalize (combine (seq 0 (length xs)) xs). intros l. revert ls. induction l as [|ix l IH]; intros ls H.
  - injection H as <-. reflexivity.
  - cbn in H. destruct (deal_one n (length xs) ls ix) as [l1|] eqn:E; [|discriminate]. cbn in H. rewrite (IH _ H).
    unfold deal_one in E. destruct (Nat.eqb (length xs / n) 0); [discriminate|]. eapply append_at_len; eauto.
Qed.

(** a count that is not a multiple of n is never dealt *)
Lemma deal_form_mult {A} n (ls ls' : list (list A)) xs : (0 < n)%nat -> length ls = n -> deal_form n ls xs = Ok ls' ->
  exists k, length xs = (n * k)%nat.
Proof.
  intros Hn HL H. destruct (Nat.eq_dec (length xs mod n) 0) as [E|E].
  { exists (length xs / n)%nat. pose proof (Nat.div_mod (length xs) n ltac:(lia)). lia. }
  exfalso. set (m := length xs) in *. assert (M0 : m <> O) by (intros Z; rewrite Z, Nat.mod_0_l in E; lia).
  destruct (exists_last (l := xs)) as (ys & y & EQ). { intros Z. apply M0. unfold m. rewrite Z. reflexivity. }
  assert (LY : length ys = (m - 1)%nat). { subst m. rewrite EQ, app_length. cbn. lia. }
  unfold deal_form in H. fold m in H. replace (combine (seq 0 m) xs) with (combine (seq 0 (m - 1)) ys ++ [((m - 1)%nat, y)]) in H.
  2:{ rewrite EQ. replace m with (m - 1 + 1)%nat at 3 by lia. rewrite seq_app. cbn [seq].
      assert (G : forall (B C : Type) (a : list B) (b : list C) a1 b1, length a = length b -> combine (a ++ [a1]) (b ++ [b1]) = combine a b ++ [(a1, b1)]).
      { clear. induction a; destruct b; cbn; intros; try discriminate; auto. f_equal. auto. }
      rewrite G by (rewrite seq_length; lia). reflexivity. }
  rewrite foldM_app in H. destruct (foldM _ (combine _ ys) ls) as [l1|] eqn:F; [|discriminate].
  assert (L1 : length l1 = n).
  { rewrite <- HL. clear -F. revert ls F. generalize (combine (seq 0 (m - 1)) ys). intros l. induction l as [|ix l IH]; intros ls F.
    - injection F as <-. reflexivity.
    - cbn in F. destruct (deal_one n m ls ix) as [l2|] eqn:E; [|discriminate]. cbn in F. rewrite (IH _ F).
      unfold deal_one in E. destruct (Nat.eqb (m / n) 0); [discriminate|]. eapply append_at_len; eauto. }
  cbn [bind foldM] in H. unfold deal_one in H. cbn [fst snd] in H. destruct (Nat.eqb_spec (m / n) 0) as [Z|Z]; [discriminate|].
  rewrite append_at_err in H; [discriminate|]. rewrite L1. apply Nat.div_le_lower_bound; [assumption|].
  pose proof (Nat.div_mod m n ltac:(lia)). nia.
Qed.

Lemma block_map {A B} (f : A -> B) n j l : block n j (map f l) = map f (block n j l).
Proof. unfold block. rewrite map_length, skipn_map, firstn_map. reflexivity. Qed.

Lemma blocks_concat {A} n (l : list A) k : (0 < n)%nat -> length l = (n * k)%nat -> concat (map (fun j => block n j l) (seq 0 n)) = l.
Proof.
  intros Hn HL. unfold block. rewrite HL, div_mult by assumption.
  assert (G : forall m, (m <= n)%nat -> concat (map (fun j => firstn k (skipn (j * k) l)) (seq 0 m)) = firstn (m * k) l).
  { induction m as [|m IH]; intros Hm; [reflexivity|]. rewrite seq_S, map_app, concat_app. cbn [map concat plus]. rewrite app_nil_r, IH by lia.
    rewrite <- (firstn_skipn (m * k) (firstn (Datatypes.S m * k) l)) at 1.
    rewrite firstn_firstn. f_equal; [f_equal; lia|].
    rewrite skipn_firstn_comm. f_equal. lia. }
  rewrite G by lia. rewrite <- HL. apply firstn_all.
Qed.
