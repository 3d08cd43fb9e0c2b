(** Invariants of get_N_splits. *)
From Coq Require Import List ZArith Bool Lia Permutation Sorting.Sorted.
From Verif.Model Require Import Base Priority Misc.
From Verif.Proofs Require Import PriorityFacts.
Import ListNotations.
Open Scope Z_scope.

Definition blocked (m : Z) (splits : list Z) (y : Z) : bool := existsb (fun s => Z.abs (y - s) <? m) splits.
Definition apart (m : Z) : list Z -> Prop := ForallOrdPairs (fun a b => m <= Z.abs (a - b)).

Lemma in_zrange a b x : In x (zrange a b) <-> a <= x < b.
Proof.
  unfold zrange. rewrite in_map_iff. split.
  - intros (k & <- & Hk). apply in_seq in Hk. lia.
  - intros H. exists (Z.to_nat (x - a)). rewrite in_seq. lia.
Qed.
Lemma compress_not (f : Z -> bool) l : compress (mask_not (map f l)) l = filter (fun y => negb (f y)) l.
Proof. induction l as [|x l IH]; cbn; auto. destruct (f x); cbn; rewrite <- IH; reflexivity. Qed.
Lemma mask_or_map (f g : Z -> bool) l : mask_or (map f l) (map g l) = map (fun y => f y || g y) l.
Proof. induction l as [|x l IH]; cbn; auto. f_equal. exact IH. Qed.
Lemma mask_all (f : Z -> bool) l : forallb (fun b => b) (map f l) = true <-> forall y, In y l -> f y = true.
Proof. induction l as [|x l IH]; cbn; [split; [contradiction|auto]|]. rewrite andb_true_iff, IH. split; [intros [A B] y [<-|H]; auto|auto]. Qed.
Lemma integers_ok d lo hi : lo < hi -> exists s, integers d lo hi = Ok s /\ lo <= s < hi.
Proof.
  intros H. unfold integers. destruct (Z.leb_spec hi lo); [lia|]. eexists. split; eauto.
  pose proof (Z.mod_pos_bound (Z.of_nat d) (hi - lo) ltac:(lia)). lia.
Qed.
Lemma choice_in d l : l <> [] -> In (choice d l) l.
Proof. intros H. unfold choice. apply nth_In. apply Nat.mod_upper_bound. destruct l; [congruence|discriminate]. Qed.
Lemma choice_any x l : In x l -> exists d, choice d l = x.
Proof. intros H. apply (In_nth _ _ 0) in H as (i & L & E). exists i. unfold choice. rewrite Nat.mod_small by auto. exact E. Qed.
Lemma blocked_false m splits y : blocked m splits y = false <-> Forall (fun s => m <= Z.abs (y - s)) splits.
Proof.
  unfold blocked. induction splits as [|s t IH]; cbn; [split; auto|]. rewrite orb_false_iff, IH, Z.ltb_ge. split; intros H; [constructor; tauto|inversion H; auto].
Qed.

Section Loop.
Context (n m l : Z).
Let data := zrange m (l - m).
Hypothesis room : 2 * m < l.
Definition sinv (splits : list Z) (mask : list bool) : Prop :=
  mask = map (blocked m splits) data /\ Forall (fun s => m <= s < l - m) splits /\ apart m splits /\ 1 <= Z.of_nat (length splits) <= n.
Lemma near_blocked s : near m s data = map (blocked m [s]) data.
Proof. unfold near, blocked. apply map_ext. intros y. cbn. rewrite orb_false_r. reflexivity. Qed.
Lemma seed_inv s : 1 <= n -> m <= s < l - m -> sinv [s] (near m s data).
Proof. intros N H. split; [apply near_blocked|]. split; [auto|]. split; [constructor; constructor|cbn; lia]. Qed.
Lemma not_all mask splits : sinv splits mask -> forallb (fun b => b) mask = false -> compress (mask_not mask) data <> [].
Proof.
  intros (-> & _) F E. rewrite compress_not in E. apply not_true_iff_false in F. apply F. apply mask_all. intros y Hy.
  destruct (blocked m splits y) eqn:B; auto. assert (In y (filter (fun y => negb (blocked m splits y)) data)) by (apply filter_In; rewrite B; auto).
  rewrite E in H. contradiction.
Qed.
Lemma add_inv splits mask s : sinv splits mask -> Z.of_nat (length splits) < n -> In s (compress (mask_not mask) data) ->
  sinv (s :: splits) (mask_or mask (near m s data)).
Proof.
  intros (-> & I1 & I2 & I3) L H. rewrite compress_not in H. apply filter_In in H as [H B]. apply negb_true_iff in B.
  split; [|split; [|split]].
  - rewrite near_blocked, mask_or_map. apply map_ext. intros y. unfold blocked. cbn. rewrite orb_false_r, orb_comm. reflexivity.
  - constructor; auto. apply in_zrange; auto.
  - constructor; auto. apply blocked_false in B. exact B.
  - cbn [length]. lia.
Qed.
(** Every run returns a good list or runs out of draws. *)
Lemma loop_inv draws : forall splits mask, sinv splits mask ->
  splits_loop n m l data draws splits mask = Err NeedMore \/
  exists out, splits_loop n m l data draws splits mask = Ok out /\
    Z.of_nat (length out) = n /\ Forall (fun s => m <= s < l - m) out /\ apart m out.
Proof.
  induction draws as [|d ds IH]; intros splits mask I; cbn [splits_loop]; destruct (Z.ltb_spec (Z.of_nat (length splits)) n) as [L|L]; auto.
  - right. exists splits. destruct I as (_ & I1 & I2 & I3). repeat split; auto. lia.
  - destruct (forallb (fun b => b) mask) eqn:F.
    + destruct (integers_ok d m (l - m)) as (s & -> & R); [lia|]. cbn [bind]. apply IH, seed_inv; auto. destruct I as (_ & _ & _ & I3). lia.
    + apply IH, add_inv; auto. apply choice_in. eapply not_all; eauto.
  - right. exists splits. destruct I as (_ & I1 & I2 & I3). repeat split; auto. lia.
Qed.

(** m >= 1 and enough room: the canonical continuation m, 2m, 3m, ... *)
Lemma canonical : 1 <= m -> n * m < l - m -> forall k splits mask, sinv splits mask ->
  n - Z.of_nat (length splits) = Z.of_nat k ->
  (forall s, In s splits <-> exists i, 1 <= i <= Z.of_nat (length splits) /\ s = i * m) ->
  exists ext out, splits_loop n m l data ext splits mask = Ok out.
Proof.
  intros M R. induction k as [|k IH]; intros splits mask I E C.
  - exists [], splits. cbn. destruct (Z.ltb_spec (Z.of_nat (length splits)) n); [lia|reflexivity].
  - set (j := Z.of_nat (length splits)) in *. set (x := (j + 1) * m).
    assert (HX : In x (compress (mask_not mask) data)).
    { destruct I as (-> & I1 & I2 & I3). rewrite compress_not. apply filter_In. split.
      - apply in_zrange. unfold x. fold j in I3. nia.
      - apply negb_true_iff, blocked_false. apply Forall_forall. intros s Hs. apply C in Hs as (i & Hi & ->). unfold x. nia. }
    destruct (choice_any _ _ HX) as [d Hd].
    destruct (IH (x :: splits) (mask_or mask (near m x data))) as (ext & out & HO).
    + apply add_inv; auto. fold j. lia.
    + cbn [length]. lia.
    + intros s. cbn [In length]. rewrite C. rewrite Nat2Z.inj_succ. fold j. split.
      * intros [<-|(i & Hi & ->)]; [exists (j + 1)|exists i]; split; auto; lia.
      * intros (i & Hi & ->). destruct (Z.eq_dec i (j + 1)) as [->|]; [left; reflexivity|right; exists i; split; auto; lia].
    + exists (d :: ext), out. cbn [splits_loop]. fold j. destruct (Z.ltb_spec j n); [|lia].
      destruct (forallb (fun b => b) mask) eqn:F.
      * exfalso. destruct I as (-> & _). rewrite compress_not in HX. apply filter_In in HX as [HX B].
        rewrite (proj1 (mask_all _ _) F x HX) in B. discriminate.
      * rewrite Hd. exact HO.
Qed.
Definition free (splits : list Z) : nat := length (filter (fun y => negb (blocked m splits y)) data).
Lemma filter_lt {A} (f g : A -> bool) lst x : (forall y, g y = true -> f y = true) -> In x lst -> f x = true -> g x = false ->
  (length (filter g lst) < length (filter f lst))%nat.
Proof.
  intros S. induction lst as [|a lst IH]; intros HI Fx Gx; [contradiction|].
  assert (LE : forall lst, (length (filter g lst) <= length (filter f lst))%nat).
  { clear - S. induction lst as [|a lst IH]; cbn; auto. destruct (g a) eqn:E; [rewrite (S _ E); cbn; lia|]. destruct (f a); cbn; lia. }
  cbn. destruct HI as [->|HI].
  - rewrite Fx, Gx. cbn. specialize (LE lst). lia.
  - specialize (IH HI Fx Gx). destruct (g a) eqn:E; [rewrite (S _ E); cbn; lia|]. destruct (f a); cbn; lia.
Qed.
Lemma finish_pos : 1 <= m -> n * m < l - m -> forall k splits mask, (free splits <= k)%nat -> sinv splits mask ->
  exists ext out, splits_loop n m l data ext splits mask = Ok out.
Proof.
  intros M R. induction k as [|k IH]; intros splits mask F I;
    (destruct (Z.ltb_spec (Z.of_nat (length splits)) n) as [L|L];
     [|exists [], splits; cbn; destruct (Z.ltb_spec (Z.of_nat (length splits)) n); [lia|reflexivity]]);
    (destruct (forallb (fun b => b) mask) eqn:FA;
      [assert (N1 : 1 <= n) by (destruct I as (_ & _ & _ & I3); lia);
       destruct (canonical M R (Z.to_nat (n - 1)) [m] (near m m data)) as (ext & out & HO);
       [apply seed_inv; auto; lia|cbn [length]; lia| |
        exists (0%nat :: ext), out; cbn [splits_loop]; destruct (Z.ltb_spec (Z.of_nat (length splits)) n); [|lia];
        rewrite FA; unfold integers; destruct (Z.leb_spec (l - m) m); [lia|]; cbn [bind]; change (Z.of_nat 0) with 0; rewrite Z.mod_0_l by lia; rewrite Z.add_0_r; exact HO];
       intros s; cbn [In length]; split; [intros [<-|[]]; exists 1; lia|intros (i & Hi & ->); left; nia]|]).
  - exfalso. assert (NE := not_all _ _ I FA). destruct I as (-> & _). rewrite compress_not in NE. unfold free in F.
    destruct (filter _ data); [congruence|cbn in F; lia].
  - assert (HI : In (choice 0 (compress (mask_not mask) data)) (compress (mask_not mask) data)) by (apply choice_in; eapply not_all; eauto).
    set (x := choice 0 (compress (mask_not mask) data)) in *.
    destruct (IH (x :: splits) (mask_or mask (near m x data))) as (ext & out & HO).
    + assert (free (x :: splits) < free splits)%nat; [|lia]. destruct I as (-> & _). rewrite compress_not in HI. apply filter_In in HI as [HI B].
      apply filter_lt with x; auto.
      * intros y. unfold blocked. cbn. rewrite negb_orb, andb_true_iff. tauto.
      * unfold blocked. cbn. destruct (Z.ltb_spec (Z.abs (x - x)) m); [reflexivity|lia].
    + apply add_inv; auto.
    + exists (0%nat :: ext), out. cbn [splits_loop]. destruct (Z.ltb_spec (Z.of_nat (length splits)) n); [|lia]. rewrite FA. exact HO.
Qed.
Lemma finish_nonpos : m <= 0 -> forall k splits mask, n - Z.of_nat (length splits) = Z.of_nat k -> sinv splits mask ->
  exists ext out, splits_loop n m l data ext splits mask = Ok out.
Proof.
  intros M. induction k as [|k IH]; intros splits mask E I.
  - exists [], splits. cbn. destruct (Z.ltb_spec (Z.of_nat (length splits)) n); [lia|reflexivity].
  - assert (FA : forallb (fun b => b) mask = false).
    { apply not_true_iff_false. intros F. destruct I as (-> & _). rewrite mask_all in F.
      assert (B : blocked m splits m = true) by (apply F; apply in_zrange; lia).
      unfold blocked in B. apply existsb_exists in B as (s & _ & B). apply Z.ltb_lt in B. lia. }
    assert (HI : In (choice 0 (compress (mask_not mask) data)) (compress (mask_not mask) data)) by (apply choice_in; eapply not_all; eauto).
    pose proof (add_inv _ _ _ I ltac:(lia) HI) as I'.
    apply IH in I' as (ext & out & HO); [|cbn [length]; lia].
    exists (0%nat :: ext), out. cbn [splits_loop]. destruct (Z.ltb_spec (Z.of_nat (length splits)) n); [|lia]. rewrite FA. exact HO.
Qed.
Lemma finish : (1 <= m -> n * m < l - m) -> forall ds splits mask, sinv splits mask ->
  exists ext out, splits_loop n m l data (ds ++ ext) splits mask = Ok out.
Proof.
  intros R. induction ds as [|d ds IH]; intros splits mask I.
  - destruct (Z_le_dec 1 m) as [M|M].
    + apply (finish_pos M (R M) _ _ _ (le_n _) I).
    + apply (finish_nonpos ltac:(lia) (Z.to_nat (n - Z.of_nat (length splits)))); auto. destruct I as (_ & _ & _ & I3). lia.
  - cbn [app splits_loop]. destruct (Z.ltb_spec (Z.of_nat (length splits)) n) as [L|L]; [|exists [], splits; reflexivity].
    destruct (forallb (fun b => b) mask) eqn:F.
    + destruct (integers_ok d m (l - m)) as (s & -> & Q); [lia|]. cbn [bind]. apply IH, seed_inv; auto. lia.
    + apply IH, add_inv; auto. apply choice_in. eapply not_all; eauto.
Qed.
End Loop.

(* -- sorting -- *)
Lemma FOP_perm {A} (R : A -> A -> Prop) l l' : (forall x y, R x y -> R y x) -> Permutation l l' -> ForallOrdPairs R l -> ForallOrdPairs R l'.
Proof.
  intros S P. induction P as [|x l l' P IH|x y l|l1 l2 l3 P1 IH1 P2 IH2]; intros H; auto.
  - inversion H; subst. constructor; auto. eapply Permutation_Forall; eauto.
  - inversion H as [|? ? F1 H1]; subst. inversion H1 as [|? ? F2 H2]; subst. inversion F1; subst.
    constructor; [constructor; auto|constructor; auto].
Qed.
Lemma sorted_apart m l : StronglySorted Z.le l -> apart m l ->
  forall i j a b, (i < j)%nat -> nth_error l i = Some a -> nth_error l j = Some b -> a <= b /\ m <= b - a.
Proof.
  induction 1 as [|x l S IH F]; intros A i j a b L Hi Hj; [destruct i; discriminate|].
  inversion A as [|? ? FA A']; subst. destruct j; [lia|]. cbn in Hj. destruct i; cbn in Hi.
  - inversion Hi; subst. apply nth_error_In in Hj. rewrite Forall_forall in *. specialize (F _ Hj). specialize (FA _ Hj). cbn in FA. lia.
  - exact (IH A' i j a b ltac:(lia) Hi Hj).
Qed.
Lemma zsort_facts m lo hi l : Forall (fun s => lo <= s < hi) l -> apart m l ->
  length (zsort l) = length l /\ Forall (fun s => lo <= s < hi) (zsort l) /\
  forall i j a b, (i < j)%nat -> nth_error (zsort l) i = Some a -> nth_error (zsort l) j = Some b -> a <= b /\ m <= b - a.
Proof.
  intros F A. pose proof (sort_perm (fun x : Z => x) l) as P. unfold zsort.
  split; [apply Permutation_length; auto|]. split.
  - eapply Permutation_Forall; [symmetry; exact P|auto].
  - apply sorted_apart.
    + pose proof (sort_sorted (fun x : Z => x) l) as S. rewrite map_id in S. exact S.
    + eapply FOP_perm; [|symmetry; exact P|exact A]. intros; lia.
Qed.
