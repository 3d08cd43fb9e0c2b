(** List facts behind gen_p_substrate_batched. *)
From Coq Require Import Reals List ZArith Bool Lra Lia Sorting.Sorted.
From Flocq Require Import Core.Raux.
From Verif.Model Require Import Base Vec Voxel Priority Measure Amorphous.
From Verif.Spec Require Import Geometry AmorphSpec.
From Verif.Proofs Require Import VecFacts PriorityFacts AmorphFacts GridFacts.
Import ListNotations.

(* -- pairs -- *)
Lemma FOP_app {A} (R : A -> A -> Prop) l l' :
  ForallOrdPairs R (l ++ l') <-> ForallOrdPairs R l /\ ForallOrdPairs R l' /\ (forall x y, In x l -> In y l' -> R x y).
Proof.
  induction l as [|a l IH]; cbn.
  - split; [intros H; repeat split; auto; [constructor|contradiction]|tauto].
  - split.
    + intros H. inversion H as [|? ? HF HO]; subst. apply IH in HO as (H1 & H2 & H3). rewrite Forall_app in HF.
      repeat split; auto; [constructor; tauto|]. intros x y [<-|Hx] Hy; auto. destruct HF as [_ HF]. rewrite Forall_forall in HF. auto.
    + intros (H1 & H2 & H3). inversion H1; subst. constructor.
      * apply Forall_app. split; auto. apply Forall_forall. auto.
      * apply IH. auto.
Qed.
Lemma FOP_nth {A} (R : A -> A -> Prop) l : ForallOrdPairs R l ->
  forall i j x y, nth_error l i = Some x -> nth_error l j = Some y -> (i < j)%nat -> R x y.
Proof.
  induction 1 as [|a l HF HO IH]; intros i j x y Hi Hj L; [destruct i; discriminate|].
  destruct j; [lia|]. cbn in Hj. destruct i.
  - cbn in Hi. inversion Hi; subst. rewrite Forall_forall in HF. apply HF. eapply nth_error_In; eauto.
  - cbn in Hi. eapply IH; eauto. lia.
Qed.
Lemma FOP_separated d l : ForallOrdPairs (fun p q => d <= dist p q)%R l -> separated d l.
Proof.
  intros H i j p q Hi Hj N. destruct (Nat.lt_trichotomy i j) as [L|[L|L]]; [|contradiction|].
  - exact (FOP_nth _ _ H _ _ _ _ Hi Hj L).
  - rewrite dist_sym. exact (FOP_nth _ _ H _ _ _ _ Hj Hi L).
Qed.

(* -- compress -- *)
Lemma compress_map {A B} (f : A -> B) m l : compress m (map f l) = map f (compress m l).
Proof. revert l. induction m as [|[] m IH]; intros [|x l]; cbn; auto. rewrite IH. reflexivity. Qed.
Lemma compress_in {A} m (l : list A) x : In x (compress m l) -> exists k, nth k m false = true /\ nth_error l k = Some x.
Proof.
  revert l. induction m as [|b m IH]; intros [|y l] H; cbn in H; try (destruct b; contradiction); try contradiction.
  destruct b; [destruct H as [<-|H]; [exists 0%nat; auto|]|]; destruct (IH _ H) as (k & A1 & A2); exists (S k); auto.
Qed.
Lemma compress_FOP {A} (R : A -> A -> Prop) m (l : list A) :
  (forall a b x y, (a < b)%nat -> nth a m false = true -> nth b m false = true -> nth_error l a = Some x -> nth_error l b = Some y -> R x y) ->
  ForallOrdPairs R (compress m l).
Proof.
  revert l. induction m as [|b m IH]; intros l H; [destruct l; constructor|].
  destruct l as [|y l]; [destruct b; constructor|]. cbn. destruct b; [constructor|].
  - apply Forall_forall. intros x Hx. apply compress_in in Hx as (k & K1 & K2). apply (H 0%nat (S k)); auto. lia.
  - apply IH. intros a c x z L Ha Hc Xa Xc. apply (H (S a) (S c)); auto. lia.
  - apply IH. intros a c x z L Ha Hc Xa Xc. apply (H (S a) (S c)); auto. lia.
Qed.

(* -- set_false, prune -- *)
Lemma set_false_nth i l k : nth k (set_false i l) false = if Nat.eqb k i then false else nth k l false.
Proof.
  revert l k. induction i as [|i IH]; intros [|x l] [|k]; cbn; auto; try (destruct (Nat.eqb _ _); reflexivity).
Qed.
Lemma set_false_len i l : length (set_false i l) = length l.
Proof. revert l. induction i; intros [|x l]; cbn; auto. Qed.
Section Off.
Context {X : Type} (g : list bool -> X -> list bool) (k : nat).
Hypothesis mono : forall f x, nth k (g f x) false = true -> nth k f false = true.
Lemma fold_mono l f : nth k (fold_left g l f) false = true -> nth k f false = true.
Proof. revert f. induction l as [|x l IH]; intros f H; cbn in H; auto. apply mono with x. auto. Qed.
Lemma fold_kill l f x : In x l -> (forall f, nth k (g f x) false = false) -> nth k (fold_left g l f) false = false.
Proof.
  revert f. induction l as [|y l IH]; intros f HI K; [contradiction|]. destruct HI as [<-|HI]; cbn; [|apply IH; auto].
  destruct (nth k (fold_left g l (g f y)) false) eqn:E; auto. apply fold_mono in E. rewrite K in E. discriminate.
Qed.
End Off.

Lemma in_where_true l a : In a (where_true l) <-> nth a l false = true.
Proof.
  unfold where_true. assert (G : forall l s a, In a (map fst (filter snd (combine (seq s (length l)) l))) <-> (s <= a)%nat /\ nth (a - s) l false = true).
  { clear. induction l as [|b l IH]; intros s a; cbn.
    - split; [contradiction|]. intros [_ H]. destruct (a - s)%nat; discriminate.
    - assert (T : In a (map fst (filter snd (combine (seq (S s) (length l)) l))) <-> (s < a)%nat /\ nth (a - s) (b :: l) false = true).
      { rewrite IH. split; intros [L H]; (split; [lia|]).
        - replace (a - s)%nat with (S (a - S s)) by lia. exact H.
        - replace (a - s)%nat with (S (a - S s)) in H by lia. exact H. }
      destruct b; cbn.
      + split.
        * intros [E|H]; [subst; rewrite Nat.sub_diag; auto|]. apply T in H. destruct H. split; [lia|auto].
        * intros [L H]. destruct (Nat.eq_dec s a); auto. right. apply T. split; [lia|exact H].
      + rewrite T. split; intros [L H]; (split; [|exact H]); [lia|].
        destruct (Nat.eq_dec s a) as [E|]; [|lia]. subst. rewrite Nat.sub_diag in H. discriminate. }
  rewrite G, Nat.sub_0_r. split; [tauto|]. intros; split; [lia|auto].
Qed.
Lemma where_true_sorted l : StronglySorted lt (where_true l).
Proof.
  unfold where_true. generalize 0%nat. induction l as [|b l IH]; intros s; cbn; [constructor|].
  assert (F : Forall (lt s) (map fst (filter snd (combine (seq (S s) (length l)) l)))).
  { apply Forall_forall. intros x Hx. apply in_map_iff in Hx as ([x' y] & <- & Hx). apply filter_In in Hx as [Hx _].
    apply in_combine_l in Hx. apply in_seq in Hx. cbn. lia. }
  destruct b; cbn; auto. constructor; auto.
Qed.
Lemma sorted_nth_lt l : StronglySorted lt l -> forall i j d, (i < j < length l)%nat -> (nth i l d < nth j l d)%nat.
Proof.
  induction 1 as [|a l S IH F]; intros i j d L; [cbn in L; lia|]. cbn in L. destruct j; [lia|]. destruct i; cbn.
  - rewrite Forall_forall in F. apply F. apply nth_In. lia.
  - apply IH. lia.
Qed.
Lemma prune_facts nbrs blocks flt :
  (forall k, nth k (prune nbrs blocks flt) false = true -> nth k flt false = true) /\
  (forall a b, (a < b)%nat -> nth a (prune nbrs blocks flt) false = true -> nth b (prune nbrs blocks flt) false = true ->
     ~ In (nth a blocks 0%Z) (nbrs (nth b blocks 0%Z))).
Proof.
  unfold prune. set (inds := where_true flt).
  set (inner := fun i f j => if existsb (Z.eqb (nth (nth j inds 0%nat) blocks 0%Z)) (nbrs (nth (nth i inds 0%nat) blocks 0%Z)) then set_false (nth j inds 0%nat) f else f).
  change (fun f i => fold_left (fun f j => _) (seq 0 i) f) with (fun f i => fold_left (inner i) (seq 0 i) f).
  assert (M1 : forall k i f j, nth k (inner i f j) false = true -> nth k f false = true).
  { intros k i f j. unfold inner. destruct (existsb _ _); auto. rewrite set_false_nth. destruct (Nat.eqb _ _); [discriminate|auto]. }
  assert (M2 : forall k f i, nth k (fold_left (inner i) (seq 0 i) f) false = true -> nth k f false = true).
  { intros k f i. apply fold_mono. intros; eapply M1; eauto. }
  assert (MONO : forall k, nth k (fold_left (fun f i => fold_left (inner i) (seq 0 i) f) (seq 1 (length inds - 1)) flt) false = true -> nth k flt false = true).
  { intros k. apply fold_mono. intros; eapply M2; eauto. }
  split; [exact MONO|]. intros a b L Ha Hb HI.
  assert (Ia : In a inds) by (apply in_where_true, MONO; auto).
  assert (Ib : In b inds) by (apply in_where_true, MONO; auto).
  apply (In_nth _ _ 0%nat) in Ia as (j & Lj & Ej). apply (In_nth _ _ 0%nat) in Ib as (i & Li & Ei).
  assert (LT : (j < i)%nat).
  { destruct (Nat.lt_trichotomy j i) as [T|[T|T]]; auto; exfalso.
    - subst. lia.
    - pose proof (sorted_nth_lt inds (where_true_sorted flt) i j 0%nat (conj T Lj)). lia. }
  rewrite (fold_kill _ a (M2 a) _ _ i) in Ha; [discriminate|apply in_seq; lia|].
  intros f. apply (fold_kill (inner i) a) with j.
  - intros; eapply M1; eauto.
  - apply in_seq. lia.
  - intros f'. unfold inner. rewrite Ej, Ei.
    rewrite (proj2 (existsb_exists _ _)); [|exists (nth a blocks 0%Z); split; auto; apply Z.eqb_refl].
    rewrite set_false_nth, Nat.eqb_refl. reflexivity.
Qed.
Lemma prune_len nbrs blocks flt : length (prune nbrs blocks flt) = length flt.
Proof.
  unfold prune. set (inds := where_true flt).
  assert (G1 : forall i l f, length (fold_left (fun f j => if existsb (Z.eqb (nth (nth j inds 0%nat) blocks 0%Z)) (nbrs (nth (nth i inds 0%nat) blocks 0%Z)) then set_false (nth j inds 0%nat) f else f) l f) = length f).
  { intros i l. induction l as [|j l IH]; intros f; cbn; auto. rewrite IH. destruct (existsb _ _); auto. apply set_false_len. }
  generalize (seq 1 (length inds - 1)). intros l. revert flt inds G1. 
  intros flt inds G1. assert (G : forall f, length f = length flt -> length (fold_left (fun f i => fold_left (fun f j => if existsb (Z.eqb (nth (nth j inds 0%nat) blocks 0%Z)) (nbrs (nth (nth i inds 0%nat) blocks 0%Z)) then set_false (nth j inds 0%nat) f else f) (seq 0 i) f) l f) = length flt); [|apply G; auto].
  induction l as [|i l IH]; intros f E; cbn; auto. apply IH. rewrite G1. exact E.
Qed.

(* -- trim -- *)
Lemma trim_sub room l k : nth k (trim room l) false = true -> nth k l false = true.
Proof.
  revert room k. induction l as [|b l IH]; intros room k H; cbn in *; [destruct k; auto|].
  destruct b; [destruct room|]; destruct k; cbn in *; eauto; discriminate.
Qed.
Lemma trim_length {A} room m (l : list A) : length m = length l ->
  length (compress (trim room m) l) = Nat.min room (length (compress m l)).
Proof.
  revert room l. induction m as [|b m IH]; intros room [|x l] E; cbn in *; try discriminate; try lia.
  destruct b; [destruct room|]; cbn; rewrite ?IH by lia; lia.
Qed.
Lemma trim_id {A} room m (l : list A) : length m = length l -> (length (compress m l) <= room)%nat -> trim room m = m.
Proof.
  revert room l. induction m as [|b m IH]; intros room [|x l] E L; cbn in *; auto; try discriminate.
  destruct b; cbn in L; [destruct room; [lia|]|]; f_equal; eapply IH with (l := l); lia.
Qed.

(* -- unique -- *)
Lemma unique_index_lt l i : In i (np_unique_index l) -> (i < length l)%nat.
Proof.
  unfold np_unique_index. intros H. apply in_map_iff in H as ([v j] & <- & H). cbn.
  assert (G : forall l s v j, In (v, j) (unique_from s l) -> (s <= j < s + length l)%nat); [|apply G in H; lia].
  clear. assert (HI : forall l v i w j, In (w, j) (unique_insert v i l) -> (w, j) = (v, i) \/ In (w, j) l).
  { induction l as [|[a b] l IH]; intros v i w j H; cbn in H; [destruct H as [H|[]]; auto|].
    destruct (v <? a)%Z; [destruct H as [H|H]; auto|]. destruct (Z.eqb_spec v a) as [->|].
    - destruct H as [H|H]; [|right; right; exact H]. inversion H; subst.
      destruct (Nat.min_spec i b) as [[_ ->]|[_ ->]]; [left|right; left]; reflexivity.
    - destruct H as [H|H]; [right; left; auto|]. apply IH in H. cbn. tauto. }
  induction l as [|x l IH]; intros s v j H; cbn in H; [contradiction|]. apply HI in H as [H|H].
  - inversion H; subst. cbn. lia.
  - apply IH in H. cbn. lia.
Qed.
Lemma map_nth_map {A B} (f : A -> B) l idx da db : (forall i, In i idx -> (i < length l)%nat) ->
  map (fun i => nth i (map f l) db) idx = map f (map (fun i => nth i l da) idx).
Proof.
  intros H. rewrite map_map. apply map_ext_in. intros i Hi. rewrite (nth_indep _ db (f da)) by (rewrite map_length; auto). apply map_nth.
Qed.

(* -- voxel contents -- *)
Lemma vox_fold_spec (l : list (nat * Z)) : forall v b x,
  In x (v b) \/ In (x, b) l ->
  In x (fold_left (fun v ib => fun b' => if (b' =? snd ib)%Z then v b' ++ [fst ib] else v b') l v b).
Proof.
  induction l as [|[i c] l IH]; intros v b x H; cbn; [destruct H; auto; contradiction|].
  apply IH. destruct H as [H|[H|H]]; auto; left; cbn.
  - destruct (Z.eqb_spec b c); auto. apply in_or_app. auto.
  - inversion H; subst. rewrite Z.eqb_refl. apply in_or_app. right. cbn. auto.
Qed.

(* -- padding -- *)
Lemma far_app dims md2 a b c : far_from_all dims md2 (a ++ b) c = true -> far_from_all dims md2 a c = true.
Proof. unfold far_from_all. rewrite forallb_app. intros H. apply andb_true_iff in H. tauto. Qed.
