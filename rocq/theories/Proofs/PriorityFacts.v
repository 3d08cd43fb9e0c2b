(** Facts about the priority-resolution model. *)
From Coq Require Import List ZArith Bool Lia Permutation Sorted Arith.
From Verif.Model Require Import Base Priority.
From Verif.Spec Require Import PrioritySpec.
Import ListNotations.

(* ---------- masks ---------- *)
Lemma compress_map_filter {A B} (f : A -> bool) (g : A -> B) (l : list A) :
  compress (map f l) (map g l) = map g (filter f l).
Proof. induction l; simpl; auto. destruct (f a); simpl; congruence. Qed.

Lemma compress_map {A} (f : A -> bool) (l : list A) :
  compress (map f l) l = filter f l.
Proof. induction l; simpl; auto. destruct (f a); simpl; congruence. Qed.

Lemma combine_compress {A B} (m : list bool) : forall (a : list A) (b : list B),
  combine (compress m a) (compress m b) = compress m (combine a b).
Proof.
  induction m as [|[] m IH]; intros [|x a] [|y b]; simpl; auto.
  - rewrite IH; auto.
  - destruct (compress m a); reflexivity.
Qed.

Lemma length_compress_eq {A B} (m : list bool) : forall (a : list A) (b : list B),
  length a = length b -> length (compress m a) = length (compress m b).
Proof.
  induction m as [|[] m IH]; intros [|x a] [|y b]; simpl; intros; auto; try discriminate;
  try (f_equal; apply IH; lia); apply IH; lia.
Qed.

Lemma compress_fst_combine {A B} (f : A -> bool) : forall (a : list A) (b : list B),
  compress (map f a) (combine a b) = filter (fun ps => f (fst ps)) (combine a b).
Proof.
  induction a; intros [|y b]; simpl; auto.
  - destruct (f a); reflexivity.
  - destruct (f a); simpl; rewrite IHa; auto.
Qed.

Lemma mask_and_map {A} (f g : A -> bool) (l : list A) :
  mask_and (map f l) (map g l) = map (fun x => f x && g x) l.
Proof. unfold mask_and. induction l; simpl; auto. f_equal; auto. Qed.
Lemma mask_or_map {A} (f g : A -> bool) (l : list A) :
  mask_or (map f l) (map g l) = map (fun x => f x || g x) l.
Proof. unfold mask_or. induction l; simpl; auto. f_equal; auto. Qed.
Lemma mask_not_map {A} (f : A -> bool) (l : list A) :
  mask_not (map f l) = map (fun x => negb (f x)) l.
Proof. unfold mask_not. rewrite map_map; auto. Qed.
Lemma ones_map {A} (l : list A) : ones (length l) = map (fun _ => true) l.
Proof. unfold ones; induction l; simpl; congruence. Qed.
Lemma zeros_map {A} (l : list A) : zeros (length l) = map (fun _ => false) l.
Proof. unfold zeros; induction l; simpl; congruence. Qed.

Lemma combine_app_eq {A B} : forall (a1 a2 : list A) (b1 b2 : list B),
  length a1 = length b1 ->
  combine (a1 ++ a2) (b1 ++ b2) = combine a1 b1 ++ combine a2 b2.
Proof. induction a1; intros a2 [|y b1] b2; simpl; intros; try discriminate; auto. f_equal; auto. Qed.

(* ---------- unique / levels / offsets on a sorted list ---------- *)
Definition countle (v : Z) (l : list Z) : nat := length (filter (fun w => (w <=? v)%Z) l).

Lemma unique_from_idx_ge : forall l i v j, In (v, j) (unique_from i l) -> (i <= j)%nat.
Proof.
  assert (Hins : forall l v i w j, In (w, j) (unique_insert v i l) ->
             (forall w' j', In (w', j') l -> i <= j') -> i <= j).
  { induction l as [|[w' j'] l IH]; simpl; intros v i w j Hin Hall.
    - destruct Hin as [E|[]]; inversion E; lia.
    - destruct (v <? w')%Z.
      + simpl in Hin. destruct Hin as [E|[E|Hin]].
        * inversion E; lia.
        * inversion E; subst. apply (Hall w j); auto.
        * apply (Hall w j); auto.
      + destruct (v =? w')%Z.
        * simpl in Hin. destruct Hin as [E|Hin].
          -- inversion E; subst. assert (i <= j') by (apply (Hall w j'); auto). lia.
          -- apply (Hall w j); auto.
        * simpl in Hin. destruct Hin as [E|Hin].
          -- inversion E; subst. apply (Hall w j); auto.
          -- eapply IH; eauto. }
  induction l as [|v l IH]; simpl; intros i w j Hin; [tauto|].
  eapply Hins; eauto. intros w' j' H. apply IH in H. lia.
Qed.

Lemma unique_from_sorted_head : forall l v i,
  StronglySorted Z.le (v :: l) ->
  exists rest, unique_from i (v :: l) = (v, i) :: rest /\
    (forall w j, In (w, j) rest -> (v < w)%Z /\ (i < j)%nat) /\
    (match l with
     | [] => rest = []
     | w :: _ => if (v =? w)%Z
                 then unique_from (S i) l = (w, S i) :: rest
                 else unique_from (S i) l = rest
     end).
Proof.
  induction l as [|w l IH]; intros v i Hs.
  - exists []. simpl. repeat split; tauto.
  - inversion Hs as [|? ? Hs' Hall]; subst.
    destruct (IH w (S i) Hs') as (rest & Heq & Hrest & _).
    inversion Hall; subst.
    change (unique_from i (v :: w :: l)) with (unique_insert v i (unique_from (S i) (w :: l))).
    rewrite Heq. simpl.
    destruct (v <? w)%Z eqn:E1.
    + exists ((w, S i) :: rest). assert (v < w)%Z by lia.
      destruct (v =? w)%Z eqn:E2; [lia|].
      split; [auto|]. split; [|auto].
      intros w' j [E|Hin]; [inversion E; subst; lia|].
      apply Hrest in Hin. lia.
    + destruct (v =? w)%Z eqn:E2; [|lia].
      assert (v = w) by lia; subst.
      exists rest. rewrite Nat.min_l by lia.
      split; [auto|]. split; [|auto].
      intros w' j Hin. apply Hrest in Hin. lia.
Qed.

Lemma nth_bump : forall l i k, (k < length l)%nat ->
  nth k (bump_from i l) 0 = nth k l 0 + (if (i <=? k)%nat then 1 else 0).
Proof.
  induction l as [|x l IH]; intros i k Hk; simpl in Hk; [lia|].
  destruct i, k; simpl.
  - lia.
  - rewrite IH by lia. simpl. auto.
  - lia.
  - rewrite IH by lia. simpl. auto.
Qed.
Lemma length_bump : forall l i, length (bump_from i l) = length l.
Proof. induction l; intros [|i]; simpl; auto. Qed.

Lemma nth_rel_gen : forall idx l k, (k < length l)%nat ->
  nth k (fold_left (fun r i => bump_from i r) idx l) 0
  = nth k l 0 + length (filter (fun i => i <=? k) idx).
Proof.
  induction idx as [|a idx IH]; intros l k Hk; simpl; [lia|].
  rewrite IH by (rewrite length_bump; auto). rewrite nth_bump by auto.
  destruct (a <=? k) eqn:E; simpl; lia.
Qed.

Lemma nth_rel : forall n idx k, (k < n)%nat ->
  nth k (rel_plevels n idx) 0 = length (filter (fun i => i <=? k) (tl idx)).
Proof.
  intros. unfold rel_plevels. rewrite nth_rel_gen by (rewrite repeat_length; auto).
  rewrite nth_repeat. lia.
Qed.

Lemma end_index_gen : forall l b i v,
  StronglySorted Z.le l -> nth_error l i = Some v ->
  let idx := map snd (unique_from b l) in
  nth (S (length (filter (fun x => x <=? b + i) (tl idx)))) (idx ++ [b + length l]) 0
  = b + countle v l.
Proof.
  induction l as [|v0 l IH]; intros b i v Hs Hn; [destruct i; discriminate|].
  destruct (unique_from_sorted_head l v0 b Hs) as (rest & Heq & Hrest & Hl).
  cbv zeta. rewrite Heq. simpl tl. simpl map.
  inversion Hs as [|? ? Hs' Hall]; subst.
  destruct l as [|w l].
  - subst rest. destruct i; simpl in Hn; [|destruct i; discriminate].
    inversion Hn; subst. unfold countle. simpl. rewrite Z.leb_refl. simpl. lia.
  - destruct (v0 =? w)%Z eqn:E.
    + assert (v0 = w) by lia; subst w.
      destruct i as [|i].
      * simpl in Hn; inversion Hn; subst.
        specialize (IH (S b) 0 v Hs' eq_refl). cbv zeta in IH. rewrite Hl in IH. simpl tl in IH. simpl map in IH.
        assert (F : forall c, c <= S b -> filter (fun x => x <=? c) (map snd rest) = []).
        { intros c Hc. clear IH Heq.
          assert (G : forall w j, In (w,j) rest -> S b < j).
          { intros w j Hin. 
            destruct (unique_from_sorted_head l v (S b) Hs') as (rest' & Heq' & Hrest' & _).
            rewrite Heq' in Hl. inversion Hl; subst. apply Hrest' in Hin. lia. }
          clear Hl Hrest. induction rest as [|[a c'] rest IHr]; simpl; auto.
          assert (S b < c') by (eapply G; left; eauto).
          destruct (c' <=? c) eqn:E'; [apply Nat.leb_le in E'; lia|].
          apply IHr. intros; eapply G; right; eauto. }
        rewrite F in IH by lia. rewrite F by lia. simpl in IH |- *.
        replace (b + S (S (length l))) with (S (b + S (length l))) by lia.
        rewrite IH. unfold countle. simpl. rewrite Z.leb_refl. simpl. lia.
      * simpl in Hn. specialize (IH (S b) i v Hs' Hn). cbv zeta in IH. rewrite Hl in IH.
        cbn [tl map snd length app nth] in IH |- *.
        replace (b + S i) with (S b + i) by lia.
        replace (b + S (S (length l))) with (S b + S (length l)) by lia.
        rewrite IH. unfold countle. simpl.
        assert (v0 <= v)%Z.
        { apply nth_error_In in Hn. rewrite Forall_forall in Hall. apply Hall. simpl. auto. }
        destruct (v0 <=? v)%Z eqn:E2; [|lia]. simpl. lia.
    + assert (v0 < w)%Z. { inversion Hall; subst. lia. }
      destruct (unique_from_sorted_head l w (S b) Hs') as (rest' & Heq' & Hrest' & _).
      rewrite <- Hl, Heq'.
      destruct i as [|i].
      * simpl in Hn; inversion Hn; subst.
        assert (F : filter (fun x => x <=? b + 0) (map snd ((w, S b) :: rest')) = []).
        { cbn [map filter snd]. rewrite (proj2 (Nat.leb_gt (S b) (b + 0))) by lia.
          clear - Hrest'. induction rest' as [|[a c'] rest IHr]; simpl; auto.
          assert (S b < c') by (eapply Hrest'; left; eauto).
          destruct (c' <=? b + 0) eqn:E'; [apply Nat.leb_le in E'; lia|].
          apply IHr. intros; eapply Hrest'; right; eauto. }
        rewrite F. simpl. unfold countle. simpl. rewrite Z.leb_refl.
        destruct (w <=? v)%Z eqn:E2; [lia|]. simpl.
        assert (G : filter (fun w0 => (w0 <=? v)%Z) l = []).
        { inversion Hs' as [|? ? ? Hall']; subst. clear - Hall' H.
          induction l; simpl; auto. inversion Hall'; subst.
          destruct (a <=? v)%Z eqn:E'; [lia|]. auto. }
        rewrite G. simpl. lia.
      * simpl in Hn. specialize (IH (S b) i v Hs' Hn). cbv zeta in IH. rewrite Heq' in IH.
        cbn [tl map snd length app nth] in IH |- *.
        replace (b + S i) with (S b + i) by lia. cbn [filter].
        destruct (S b <=? S b + i) eqn:E'; [|apply Nat.leb_gt in E'; lia].
        cbn [length].
        replace (b + S (S (length l))) with (S b + S (length l)) by lia.
        rewrite IH. unfold countle. simpl.
        assert (v0 <= v)%Z.
        { apply nth_error_In in Hn. rewrite Forall_forall in Hall. apply Hall. simpl. auto. }
        destruct (v0 <=? v)%Z eqn:E2; [|lia]. simpl. lia.
Qed.

(* ---------- stable sort ---------- *)
Section Sorting.
Context {Ob : Type} (prio : Ob -> Z).

Lemma insert_perm x l : Permutation (insert_by prio x l) (x :: l).
Proof.
  induction l; simpl; auto. destruct (prio x <=? prio a)%Z; auto.
  rewrite IHl. apply perm_swap.
Qed.
Lemma sort_perm l : Permutation (sort_by prio l) l.
Proof. induction l; simpl; auto. rewrite insert_perm. auto. Qed.

Lemma insert_sorted x l :
  StronglySorted Z.le (map prio l) -> StronglySorted Z.le (map prio (insert_by prio x l)).
Proof.
  induction l as [|y l IH]; simpl; intros Hs.
  - repeat constructor.
  - inversion Hs; subst. destruct (prio x <=? prio y)%Z eqn:E; simpl.
    + constructor; auto. constructor; [lia|].
      rewrite Forall_forall in *. intros z Hz. specialize (H2 z Hz). lia.
    + constructor; auto.
      rewrite Forall_forall in *. intros z Hz.
      rewrite in_map_iff in Hz. destruct Hz as (w & <- & Hw).
      apply (Permutation_in _ (insert_perm x l)) in Hw. destruct Hw as [<-|Hw]; [lia|].
      apply H2. apply in_map; auto.
Qed.
Lemma sort_sorted l : StronglySorted Z.le (map prio (sort_by prio l)).
Proof. induction l; simpl; [constructor|]. apply insert_sorted; auto. Qed.

Lemma insert_head x l : Forall (fun y => (prio x <= prio y)%Z) l -> insert_by prio x l = x :: l.
Proof.
  destruct l; simpl; auto. intros H; inversion H; subst.
  destruct (prio x <=? prio o)%Z eqn:E; auto; lia.
Qed.
Lemma sort_sorted_id l : StronglySorted Z.le (map prio l) -> sort_by prio l = l.
Proof.
  induction l as [|x l IH]; simpl; auto. intros Hs; inversion Hs; subst.
  rewrite IH by auto. apply insert_head. rewrite Forall_forall in *.
  intros y Hy. apply H2. apply in_map; auto.
Qed.
Lemma sort_idem l : sort_by prio (sort_by prio l) = sort_by prio l.
Proof. apply sort_sorted_id, sort_sorted. Qed.

Lemma insert_stable x l v :
  filter (fun y => (prio y =? v)%Z) (insert_by prio x l)
  = filter (fun y => (prio y =? v)%Z) (x :: l).
Proof.
  induction l as [|y l IH]; simpl; auto.
  destruct (prio x <=? prio y)%Z eqn:E; simpl; auto.
  rewrite IH. simpl. destruct (prio x =? v)%Z eqn:E1; destruct (prio y =? v)%Z eqn:E2; auto. lia.
Qed.
(** Objects of equal priority keep their relative order. *)
Lemma sort_stable l v :
  filter (fun y => (prio y =? v)%Z) (sort_by prio l) = filter (fun y => (prio y =? v)%Z) l.
Proof.
  induction l; simpl; auto. rewrite insert_stable. simpl. rewrite IHl. auto.
Qed.

Lemma firstn_count_filter {A} (key : A -> Z) v : forall l,
  StronglySorted Z.le (map key l) ->
  firstn (countle v (map key l)) l = filter (fun x => (key x <=? v)%Z) l.
Proof.
  induction l as [|x l IH]; simpl; intros Hs; auto.
  inversion Hs; subst. unfold countle in *. simpl.
  destruct (key x <=? v)%Z eqn:E; simpl.
  - f_equal; auto.
  - assert (F : filter (fun w => (w <=? v)%Z) (map key l) = []).
    { clear - H2 E. induction l; simpl; auto. inversion H2; subst.
      destruct (key a <=? v)%Z eqn:E'; [lia|auto]. }
    assert (G : filter (fun x => (key x <=? v)%Z) l = []).
    { clear - H2 E. induction l; simpl; auto. inversion H2; subst.
      destruct (key a <=? v)%Z eqn:E'; [lia|auto]. }
    rewrite F, G. reflexivity.
Qed.
End Sorting.

(* ---------- enumerate ---------- *)
Definition enum {A} (l : list A) : list (nat * A) := combine (seq 0 (length l)) l.
Lemma enum_from_spec {A} : forall (l : list A) b i x,
  In (i, x) (combine (seq b (length l)) l) <-> (b <= i /\ nth_error l (i - b) = Some x).
Proof.
  induction l as [|y l IH]; simpl; intros b i x.
  - split; [tauto|]. intros [_ H]. destruct (i - b); discriminate.
  - split.
    + intros [E|Hin].
      * inversion E; subst. rewrite Nat.sub_diag. auto.
      * apply IH in Hin. destruct Hin as [H1 H2]. split; [lia|].
        replace (i - b) with (S (i - S b)) by lia. auto.
    + intros [H1 H2]. destruct (i - b) eqn:E.
      * left. simpl in H2. inversion H2; subst. f_equal. lia.
      * right. apply IH. split; [lia|]. replace (i - S b) with n by lia. auto.
Qed.
Lemma enum_spec {A} (l : list A) i x : In (i, x) (enum l) <-> nth_error l i = Some x.
Proof. unfold enum. rewrite enum_from_spec. rewrite Nat.sub_0_r. intuition lia. Qed.
Lemma map_snd_enum {A} (l : list A) : map snd (enum l) = l.
Proof.
  unfold enum. generalize 0. induction l; simpl; intros; auto. f_equal; auto.
Qed.
Lemma map_enum_key {A B} (f : A -> B) (l : list A) : map (fun io => f (snd io)) (enum l) = map f l.
Proof. rewrite <- (map_snd_enum l) at 2. rewrite map_map. auto. Qed.

Lemma each_with_others_enum {Ob} (l : list Ob) :
  each_with_others l = map (fun io => (snd io, firstn (fst io) l ++ skipn (S (fst io)) l)) (enum l).
Proof.
  unfold enum. induction l as [|x l IH]; simpl; auto. f_equal.
  rewrite IH. rewrite map_map. simpl.
  rewrite <- seq_shift.
  assert (G : forall (s : list nat) (m : list Ob), combine (map S s) m = map (fun io => (S (fst io), snd io)) (combine s m)).
  { induction s; intros [|y m]; simpl; auto. f_equal; auto. }
  rewrite G, map_map. apply map_ext. intros [i o]. simpl. reflexivity.
Qed.

Lemma nth_error_others {Ob} (l : list Ob) i k o' :
  nth_error (firstn i l ++ skipn (S i) l) k = Some o' ->
  exists j, j <> i /\ nth_error l j = Some o'.
Proof.
  intros H. destruct (Nat.lt_ge_cases k (length (firstn i l))) as [Hlt|Hge].
  - rewrite nth_error_app1 in H by auto.
    exists k. rewrite firstn_length in Hlt. split; [lia|].
    rewrite <- (firstn_skipn i l). rewrite nth_error_app1 by (rewrite firstn_length; lia). auto.
  - rewrite nth_error_app2 in H by auto.
    exists (S i + (k - length (firstn i l))). split; [lia|].
    assert (G : forall (m : list Ob) a b, nth_error (skipn a m) b = nth_error m (a + b)).
    { induction m; intros [|a'] b; simpl; auto; destruct b; auto. }
    rewrite G in H. auto.
Qed.
Lemma nth_error_others_conv {Ob} (l : list Ob) i j o' :
  j <> i -> nth_error l j = Some o' ->
  In o' (firstn i l ++ skipn (S i) l).
Proof.
  intros Hne H. apply in_or_app.
  destruct (Nat.lt_ge_cases j i).
  - left. apply (nth_error_In _ j).
    rewrite <- (firstn_skipn i l) in H. rewrite nth_error_app1 in H; auto.
    rewrite firstn_length. apply Nat.min_glb_lt; auto.
    rewrite firstn_skipn in H. apply nth_error_Some. congruence.
  - right. apply (nth_error_In _ (j - S i)).
    assert (G : forall (m : list Ob) a b, nth_error (skipn a m) b = nth_error m (a + b)).
    { induction m; intros [|a'] b; simpl; auto; destruct b; auto. }
    rewrite G. replace (S i + (j - S i)) with j by lia. auto.
Qed.

Lemma existsb_others {Ob} (f : Ob -> bool) (l : list Ob) i :
  existsb f (firstn i l ++ skipn (S i) l)
  = existsb (fun jo => negb (Nat.eqb i (fst jo)) && f (snd jo)) (enum l).
Proof.
  apply Bool.eq_iff_eq_true. rewrite !existsb_exists. split.
  - intros (o' & Hin & Hf). apply In_nth_error in Hin. destruct Hin as [k Hk].
    apply nth_error_others in Hk. destruct Hk as (j & Hne & Hj).
    exists (j, o'). split; [apply enum_spec; auto|]. simpl. rewrite Hf, andb_true_r.
    apply negb_true_iff, Nat.eqb_neq. auto.
  - intros ([j o'] & Hin & Hf). simpl in Hf. apply andb_true_iff in Hf. destruct Hf as [Hn Hf].
    apply enum_spec in Hin. exists o'. split; auto.
    apply (nth_error_others_conv l i j); auto.
    apply negb_true_iff, Nat.eqb_neq in Hn. auto.
Qed.

(* ---------- the main characterisation ---------- *)
Section Main.
Context {Ob Pt Sp : Type}.
Variable prio : Ob -> Z.
Variable atoms : Ob -> list Pt.
Variable species : Ob -> list Sp.
Variable inside : Ob -> Pt -> bool.

Let checks := checks prio atoms inside.
Let stack_atoms := stack_atoms (Pt:=Pt) atoms.
Let stack_species := stack_species (Sp:=Sp) species.
Let contents := contents prio atoms species inside.
Let contribution := contribution prio atoms species inside.

Lemma check_object_eq objs i ob e :
  check_object atoms inside objs i ob e
  = map (fun p => negb (existsb (fun jo => negb (Nat.eqb i (fst jo)) && inside (snd jo) p)
                                (firstn e (enum objs)))) (atoms ob).
Proof.
  unfold check_object. fold (enum objs). rewrite ones_map.
  assert (G : forall l (f : Pt -> bool),
     fold_left (fun check jo => let '(j, oj) := jo in
        if Nat.eqb i j then check else mask_and check (mask_not (interior_mask inside oj (atoms ob)))) l
        (map f (atoms ob))
     = map (fun p => f p && negb (existsb (fun jo => negb (Nat.eqb i (fst jo)) && inside (snd jo) p) l)) (atoms ob)).
  { induction l as [|[j oj] l IH]; intros f; simpl.
    - apply map_ext. intros. rewrite andb_true_r. auto.
    - destruct (Nat.eqb i j) eqn:E; simpl.
      + rewrite IH. auto.
      + unfold interior_mask. rewrite mask_not_map, mask_and_map, IH.
        apply map_ext. intros p. rewrite negb_orb, andb_assoc. auto. }
  rewrite G. apply map_ext. intros. auto.
Qed.

Lemma end_index objs i o :
  StronglySorted Z.le (map prio objs) -> nth_error objs i = Some o ->
  let '(rel, offs) := get_priorities prio objs in
  nth (S (nth i rel 0)) offs 0 = countle (prio o) (map prio objs).
Proof.
  intros Hs Hn. unfold get_priorities, offsets, np_unique_index.
  assert (Hi : i < length objs) by (apply nth_error_Some; congruence).
  rewrite nth_rel by auto.
  pose proof (end_index_gen (map prio objs) 0 i (prio o) Hs) as H.
  cbv zeta in H. rewrite map_length in H. simpl Nat.add in H. apply H.
  apply map_nth_error; auto.
Qed.

Lemma check_sorted objs i o :
  StronglySorted Z.le (map prio objs) -> nth_error objs i = Some o ->
  nth_error (checks objs) i
  = Some (map (fun p => negb (loses prio inside o (firstn i objs ++ skipn (S i) objs) p)) (atoms o)).
Proof.
  intros Hs Hn. unfold checks, Priority.checks.
  pose proof (end_index objs i o Hs Hn) as He.
  destruct (get_priorities prio objs) as [rel offs].
  fold (enum objs).
  assert (Hnth : nth_error (enum objs) i = Some (i, o)).
  { unfold enum. clear - Hn.
    assert (G : forall (l : list Ob) b k, nth_error l k = Some o ->
               nth_error (combine (seq b (length l)) l) k = Some (b + k, o)).
    { induction l as [|y l IH]; intros b k H; [destruct k; discriminate|].
      destruct k; simpl in *.
      - inversion H; subst. f_equal. f_equal. lia.
      - rewrite (IH (S b) k) by auto. f_equal. f_equal. lia. }
    apply (G objs 0 i Hn). }
  rewrite (map_nth_error _ _ _ Hnth). f_equal.
  rewrite He, check_object_eq. apply map_ext. intros p. f_equal.
  unfold loses. rewrite existsb_others.
  replace (countle (prio o) (map prio objs))
    with (countle (prio o) (map (fun io => prio (snd io)) (enum objs)))
    by (rewrite map_enum_key; auto).
  rewrite firstn_count_filter by (rewrite map_enum_key; auto).
  generalize (enum objs). intros l. induction l as [|[j oj] l IH]; simpl; auto.
  destruct (prio oj <=? prio o)%Z eqn:E; simpl; rewrite IH; destruct (Nat.eqb i j); simpl; auto.
Qed.

Lemma checks_length objs : length (checks objs) = length objs.
Proof.
  unfold checks, Priority.checks. destruct (get_priorities prio objs).
  rewrite map_length, combine_length, seq_length. lia.
Qed.

Lemma checks_sorted_eq objs :
  StronglySorted Z.le (map prio objs) ->
  checks objs
  = map (fun io => map (fun p => negb (loses prio inside (snd io)
                          (firstn (fst io) objs ++ skipn (S (fst io)) objs) p)) (atoms (snd io)))
        (enum objs).
Proof.
  intros Hs.
  assert (G : forall (A : Type) (l1 l2 : list A), length l1 = length l2 ->
    (forall i x, nth_error l1 i = Some x -> nth_error l2 i = Some x) -> l1 = l2).
  { intros A l1; induction l1; intros [|b l2]; simpl; intros Hl H; try discriminate; auto.
    f_equal. { specialize (H 0 a eq_refl). simpl in H. congruence. }
    apply IHl1; [lia|]. intros i x Hx. apply (H (S i) x Hx). }
  symmetry. apply G.
  - rewrite map_length. unfold enum. rewrite combine_length, seq_length, checks_length. lia.
  - intros i x Hx.
    rewrite nth_error_map in Hx. destruct (nth_error (enum objs) i) as [[j o]|] eqn:E; [|discriminate].
    simpl in Hx. inversion Hx; subst; clear Hx.
    assert (nth_error objs i = Some o).
    { rewrite <- (map_snd_enum objs). rewrite nth_error_map, E. auto. }
    assert (j = i).
    { clear - E. unfold enum in E.
      assert (G : forall (l : list Ob) b k, nth_error (combine (seq b (length l)) l) k = Some (j, o) -> j = b + k).
      { induction l as [|y l IH]; intros b k H; [destruct k; discriminate|].
        destruct k; simpl in *. inversion H; subst; lia. apply IH in H. lia. }
      apply (G objs 0 i E). }
    subst j. simpl. apply check_sorted; auto.
Qed.

(** On a list sorted by priority the stacked result is exactly the specified contents. *)
Lemma resolve_sorted objs :
  StronglySorted Z.le (map prio objs) ->
  (forall o, In o objs -> length (atoms o) = length (species o)) ->
  combine (stack_atoms objs (checks objs)) (stack_species objs (checks objs)) = contents objs
  /\ length (stack_atoms objs (checks objs)) = length (stack_species objs (checks objs)).
Proof.
  intros Hs Hlen. rewrite checks_sorted_eq by auto.
  unfold contents, PrioritySpec.contents. rewrite each_with_others_enum.
  unfold stack_atoms, stack_species, Priority.stack_atoms, Priority.stack_species.
  assert (Hsub : forall io, In io (enum objs) -> In (snd io) objs).
  { intros [i o] H. apply enum_spec in H. eapply nth_error_In; eauto. }
  rewrite flat_map_concat_map, map_map.
  set (F := fun io => map (fun p => negb (loses prio inside (snd io)
                          (firstn (fst io) objs ++ skipn (S (fst io)) objs) p)) (atoms (snd io))).
  replace (combine (map F (enum objs)) objs) with (map (fun io => (F io, snd io)) (enum objs)).
  2:{ rewrite <- (map_snd_enum objs) at 3. generalize (enum objs). induction l; simpl; auto. f_equal; auto. }
  rewrite !map_map. simpl.
  revert Hsub. generalize (enum objs) as l.
  induction l as [|[i o] l IH]; intros Hsub; simpl; auto.
  destruct IH as [IH1 IH2]; [intros; apply Hsub; right; auto|].
  assert (Ho : length (atoms o) = length (species o)).
  { apply Hlen. apply (Hsub (i, o)). left; auto. }
  pose proof (length_compress_eq (F (i, o)) (atoms o) (species o) Ho) as HL.
  split.
  - rewrite combine_app_eq by auto. rewrite IH1. f_equal.
    rewrite combine_compress. unfold F. simpl. rewrite compress_fst_combine.
    reflexivity.
  - rewrite !app_length. lia.
Qed.

(** The specified contents do not depend on the order of the objects. *)
Lemma each_perm (g : Ob * list Ob -> list (Pt * Sp)) :
  (forall o r r', Permutation r r' -> g (o, r) = g (o, r')) ->
  forall l l', Permutation l l' ->
  Permutation (flat_map g (each_with_others l)) (flat_map g (each_with_others l')).
Proof.
  intros Hg l l' HP. revert g Hg.
  assert (FM : forall (A B C : Type) (f : A -> B) (g : B -> list C) (l : list A),
             flat_map g (map f l) = flat_map (fun x => g (f x)) l).
  { intros; rewrite !flat_map_concat_map, map_map; auto. }
  induction HP; intros g Hg; simpl; auto.
  - rewrite (Hg x l l') by auto. apply Permutation_app_head.
    rewrite !FM. apply (IHHP (fun yr => g (fst yr, x :: snd yr))).
    intros; simpl. apply Hg. auto.
  - rewrite !app_assoc. rewrite !FM. simpl.
    apply Permutation_app.
    + apply Permutation_app_comm.
    +  match goal with |- Permutation ?a ?b => assert (a = b) as -> end; auto.
      apply flat_map_ext. intros [a r]. simpl. apply Hg. apply perm_swap.
  - etransitivity; [apply IHHP1|apply IHHP2]; auto.
Qed.

Lemma existsb_perm {A} (f : A -> bool) l l' : Permutation l l' -> existsb f l = existsb f l'.
Proof.
  intros HP. apply Bool.eq_iff_eq_true. rewrite !existsb_exists.
  split; intros (x & H & E); exists x; split; auto.
  - eapply Permutation_in; eauto.
  - eapply Permutation_in; [symmetry|]; eauto.
Qed.

Lemma contents_perm l l' : Permutation l l' -> Permutation (contents l) (contents l').
Proof.
  apply each_perm. intros o r r' HP. unfold PrioritySpec.contribution. simpl.
  apply filter_ext. intros ps. f_equal. unfold loses. apply existsb_perm; auto.
Qed.

Lemma resolve_correct objs :
  (forall o, In o objs -> length (atoms o) = length (species o)) ->
  let s := sort_by prio objs in
  Permutation (combine (stack_atoms s (checks s)) (stack_species s (checks s))) (contents objs)
  /\ length (stack_atoms s (checks s)) = length (stack_species s (checks s)).
Proof.
  intros Hlen s. destruct (resolve_sorted s) as [H1 H2].
  - apply sort_sorted.
  - intros o Ho. apply Hlen. eapply Permutation_in; [apply (sort_perm prio)|]; auto.
  - split; auto. rewrite H1. apply contents_perm. apply sort_perm.
Qed.
End Main.
