(** Invariants of the two amorphous placement loops, for any relation that follows
    from the distance test or from not being in neighbouring voxels. *)
From Coq Require Import Reals List ZArith Bool Lra Lia.
From Flocq Require Import Core.Raux Core.Generic_fmt Core.Round_NE.
From Verif.Model Require Import Base Vec Voxel Priority Measure Amorphous.
From Verif.Spec Require Import Geometry AmorphSpec.
From Verif.Proofs Require Import VecFacts PriorityFacts AmorphFacts GridFacts BatchFacts.
Import ListNotations.
Open Scope R_scope.

Definition pos_box (L : vec) : Prop := 0 < vx L /\ 0 < vy L /\ 0 < vz L.
Lemma draw_in_box L u : pos_box L -> unit_draw u -> in_box L (vmul u L).
Proof.
  assert (G : forall l a, 0 < l -> 0 <= a < 1 -> 0 <= a * l < l) by (intros l a Hl [A B]; split; [apply Rmult_le_pos; lra|]; pose proof (Rmult_lt_compat_r l a 1 Hl B); lra).
  intros (A & B & C) (X & Y & Z). repeat split; apply G; auto.
Qed.
Lemma block_eqb_eq a b : block_eqb a b = true <-> a = b.
Proof.
  destruct a as [[? ?] ?], b as [[? ?] ?]. unfold block_eqb. rewrite !andb_true_iff, !Z.eqb_eq. split; [intros [[-> ->] ->]; auto|]. intros E; inversion E; auto.
Qed.
Lemma num_pos L density : 0 <= vx L -> 0 <= vy L -> 0 <= vz L -> (0 < num_atoms L density)%Z -> pos_box L.
Proof.
  intros X Y Z H. unfold num_atoms in H.
  assert (N : vx L * vy L * vz L * density <> 0) by (intros E; rewrite E, (Znearest_imp _ 0 0) in H; [lia|rewrite Rminus_0_r, Rabs_R0; lra]).
  destruct (Rle_lt_or_eq_dec _ _ X) as [X'|E]; [|exfalso; apply N; rewrite <- E; ring].
  destruct (Rle_lt_or_eq_dec _ _ Y) as [Y'|E]; [|exfalso; apply N; rewrite <- E; ring].
  destruct (Rle_lt_or_eq_dec _ _ Z) as [Z'|E]; [|exfalso; apply N; rewrite <- E; ring]. repeat split; auto.
Qed.
Lemma nth_error_snoc {A} (l : list A) c i p : nth_error (l ++ [c]) i = Some p -> nth_error l i = Some p \/ (i = length l /\ p = c).
Proof.
  intros H. destruct (Nat.lt_ge_cases i (length l)) as [L|L].
  - rewrite nth_error_app1 in H by auto. auto.
  - rewrite nth_error_app2 in H by auto. destruct (i - length l)%nat as [|k] eqn:E; cbn in H; [|destruct k; discriminate].
    inversion H. right. split; [lia|auto].
Qed.

Section Seq.
Context (dims : vec) (md : R) (R : vec -> vec -> Prop).
Hypothesis box : pos_box dims.
Hypothesis near_ok : forall p q, in_box dims p -> in_box dims q -> md * md <= p_dist dims p q -> R p q.
Hypothesis far_ok : forall p q, in_box dims p -> in_box dims q ->
  ~ In (block_of md p) (voxel_nbrs (num_blocks md dims) (block_of md q)) -> R p q.
Definition pinv (st : pstate) : Prop :=
  Forall (in_box dims) (ps_coords st) /\ ForallOrdPairs R (ps_coords st) /\
  (forall i p, nth_error (ps_coords st) i = Some p -> In i (ps_vox st (block_of md p))).
Lemma step_inv st u : unit_draw u -> pinv st -> pinv (step dims md st u).
Proof.
  intros U (I1 & I2 & I3). unfold step. set (c := vmul u dims).
  assert (C : in_box dims c) by (apply draw_in_box; auto).
  destruct (rejected dims md st c) eqn:E; [repeat split; auto|]. cbn. repeat split; cbn.
  - apply Forall_app. auto.
  - apply FOP_app. repeat split; auto; [constructor; constructor|]. intros p q Hp [<-|[]].
    assert (P : in_box dims p) by (rewrite Forall_forall in I1; auto).
    destruct (in_dec (fun a b : block => ltac:(repeat decide equality)) (block_of md p) (voxel_nbrs (num_blocks md dims) (block_of md c))) as [HI|HI]; [|apply far_ok; auto].
    apply near_ok; auto. apply Rnot_lt_le. intros HL. apply In_nth_error in Hp as [i Hi].
    unfold rejected in E. apply not_true_iff_false in E. apply E. apply existsb_exists. exists i. split.
    + unfold parts_of. apply in_flat_map. exists (block_of md p). auto.
    + apply Rltb_iff. erewrite nth_error_nth; eauto.
  - intros i p H. unfold vox_add. apply nth_error_snoc in H as [H|[-> ->]].
    + specialize (I3 _ _ H). destruct (block_eqb _ _); auto. apply in_or_app. auto.
    + rewrite (proj2 (block_eqb_eq _ _)) by reflexivity. apply in_or_app. right. left. reflexivity.
Qed.
Lemma step_len st u : (length (ps_coords (step dims md st u)) <= S (length (ps_coords st)))%nat.
Proof. unfold step. destruct (rejected _ _ _ _); cbn; [lia|]. rewrite app_length. cbn. lia. Qed.
Lemma gen_loop_inv draws : forall n st l, Forall unit_draw draws -> pinv st -> (length (ps_coords st) <= n)%nat ->
  gen_loop dims md n st draws = Ok l -> length l = n /\ Forall (in_box dims) l /\ ForallOrdPairs R l.
Proof.
  induction draws as [|u us IH]; intros n st l HU I HL H; cbn in H.
  - destruct (Nat.leb_spec n (length (ps_coords st))); [|discriminate]. inversion H; subst. destruct I as (I1 & I2 & _). repeat split; auto. lia.
  - destruct (Nat.leb_spec n (length (ps_coords st))) as [L|L].
    + inversion H; subst. destruct I as (I1 & I2 & _). repeat split; auto. lia.
    + inversion HU; subst. eapply IH; [| |..|exact H]; auto; [apply step_inv; auto|]. pose proof (step_len st u). lia.
Qed.
End Seq.

Lemma trim_firstn {A} room m (l : list A) : compress (trim room m) l = firstn room (compress m l).
Proof.
  revert room l. induction m as [|b m IH]; intros room l; [destruct l; cbn; rewrite ?firstn_nil; auto|].
  destruct l as [|x l]; [cbn; destruct b; [destruct room|]; cbn; rewrite ?firstn_nil; auto|].
  destruct b; [destruct room|]; cbn; rewrite ?IH; auto.
Qed.
Lemma nth_error_firstn {A} n (l : list A) i x : nth_error (firstn n l) i = Some x -> nth_error l i = Some x.
Proof. revert l i. induction n as [|n IH]; intros [|y l] [|i] H; cbn in *; try discriminate; auto. Qed.
Lemma FOP_firstn {A} (Q : A -> A -> Prop) n l : ForallOrdPairs Q l -> ForallOrdPairs Q (firstn n l).
Proof. intros H. rewrite <- (firstn_skipn n l) in H. apply FOP_app in H. tauto. Qed.
Lemma Forall_firstn {A} (Q : A -> Prop) n l : Forall Q l -> Forall Q (firstn n l).
Proof. intros H. rewrite <- (firstn_skipn n l) in H. apply Forall_app in H. tauto. Qed.
Lemma combine_seq_nth {A} (l : list A) s i x : nth_error l i = Some x -> In ((s + i)%nat, x) (combine (seq s (length l)) l).
Proof.
  revert s i. induction l as [|y l IH]; intros s [|i] H; cbn in *; try discriminate.
  - inversion H. left. f_equal. lia.
  - right. replace (s + S i)%nat with (S s + i)%nat by lia. apply IH. auto.
Qed.
Lemma nth_combine {A B} (l : list A) (l' : list B) k x : nth_error (combine l l') k = Some x ->
  nth_error l k = Some (fst x) /\ nth_error l' k = Some (snd x).
Proof. revert l' k. induction l as [|a l IH]; intros [|b l'] [|k] H; cbn in *; try discriminate; auto. inversion H; auto. Qed.
Lemma nth_map_true {A} (f : A -> bool) l k : nth k (map f l) false = true -> exists x, nth_error l k = Some x /\ f x = true.
Proof. revert k. induction l as [|a l IH]; intros [|k] H; cbn in *; try discriminate; eauto. Qed.

(** batch_step with the neighbour function as a parameter *)
Definition batch_step_with (nbrs : Z -> list Z) (bl : vec -> Z) (dims : vec) (md : R) (num_c : nat) (st : bstate) (us : list vec) : bstate :=
  let cand := map (fun u => vmul u dims) us in
  let blocks0 := map bl cand in
  let idx := np_unique_index blocks0 in
  let blocks := map (fun i => nth i blocks0 0%Z) idx in
  let cand := map (fun i => nth i cand v0) idx in
  let compare := map (fun b => map (fun i => nth i (bs_coords st) v0)
                                   (flat_map (bs_vox st) (nbrs b))) blocks in
  let maxc := fold_left (fun m l => Nat.max m (length l)) compare 0%nat in
  let padded := map (fun l => l ++ repeat pad (maxc - length l)) compare in
  let flt := map (fun rc => far_from_all dims (md * md) (fst rc) (snd rc)) (combine padded cand) in
  let flt := prune nbrs blocks flt in
  let acc_blocks := compress flt blocks in
  let nacc := length (bs_coords st) in
  let vox := fold_left (fun v ib => fun b' => if (b' =? snd ib)%Z then v b' ++ [fst ib] else v b')
                       (combine (seq nacc (length acc_blocks)) acc_blocks) (bs_vox st) in
  let flt := trim (num_c - nacc) flt in
  mkBS (bs_coords st ++ compress flt cand) vox.
Definition grid_nbrs (nb : block) : Z -> list Z := voxel_neighbors (fst (fst nb)) (snd (fst nb)) (snd nb) true true false.
Lemma batch_step_eq dims md vs n st us :
  batch_step dims md vs n st us = batch_step_with (grid_nbrs (num_blocks vs dims)) (block1d vs dims) dims md n st us.
Proof. unfold batch_step, batch_step_with, grid_nbrs. destruct (num_blocks vs dims) as [[n0 n1] n2]. reflexivity. Qed.

Section Batch.
Context (dims : vec) (md : R) (R : vec -> vec -> Prop) (nbrs : Z -> list Z) (bl : vec -> Z).
Hypothesis box : pos_box dims.
Hypothesis near_ok : forall p q, in_box dims p -> in_box dims q -> md * md < p_dist dims p q -> R p q.
Hypothesis far_ok : forall p q, in_box dims p -> in_box dims q ->
  ~ In (bl p) (nbrs (bl q)) -> R p q.
Definition binv (st : bstate) : Prop :=
  Forall (in_box dims) (bs_coords st) /\ ForallOrdPairs R (bs_coords st) /\
  (forall i p, nth_error (bs_coords st) i = Some p -> In i (bs_vox st (bl p))).
Lemma batch_step_inv n st us : Forall unit_draw us -> binv st -> (length (bs_coords st) <= n)%nat ->
  binv (batch_step_with nbrs bl dims md n st us) /\ (length (bs_coords (batch_step_with nbrs bl dims md n st us)) <= n)%nat.
Proof.
  intros U (I1 & I2 & I3) LN. unfold batch_step_with.
  set (cand0 := map (fun u => vmul u dims) us). set (idx := np_unique_index (map (bl) cand0)).
  assert (IDX : forall i, In i idx -> (i < length cand0)%nat) by (intros i Hi; apply unique_index_lt in Hi; rewrite map_length in Hi; exact Hi).
  rewrite (map_nth_map (bl) cand0 idx v0 0%Z IDX). set (cand := map (fun i => nth i cand0 v0) idx).
  assert (CB : Forall (in_box dims) cand).
  { apply Forall_forall. intros c Hc. apply in_map_iff in Hc as (i & <- & Hi).
    assert (In (nth i cand0 v0) cand0) by (apply nth_In; auto). apply in_map_iff in H as (u & <- & Hu).
    apply draw_in_box; auto. rewrite Forall_forall in U. auto. }
  clearbody cand. clear IDX idx cand0.
  set (blocks := map (bl) cand).
  set (compare := map (fun b => map (fun i => nth i (bs_coords st) v0) (flat_map (bs_vox st) (nbrs b))) blocks).
  set (maxc := fold_left _ compare 0%nat). set (padded := map (fun l => l ++ repeat pad (maxc - length l)) compare).
  set (flt0 := map _ (combine padded cand)). set (flt := prune nbrs blocks flt0).
  set (nacc := length (bs_coords st)). rewrite trim_firstn.
  destruct (prune_facts nbrs blocks flt0) as [PM PN]. fold flt in PM, PN.
  assert (NEW : Forall (in_box dims) (compress flt cand)).
  { apply Forall_forall. intros c Hc. apply compress_in in Hc as (k & _ & Hk). apply nth_error_In in Hk. rewrite Forall_forall in CB. auto. }
  assert (OLD : forall p c, In p (bs_coords st) -> In c (compress flt cand) -> R p c).
  { intros p c Hp Hc. apply compress_in in Hc as (k & Fk & Hk). apply PM in Fk.
    assert (Bp : in_box dims p) by (rewrite Forall_forall in I1; auto).
    assert (Bc : in_box dims c) by (rewrite Forall_forall in CB; apply CB; eapply nth_error_In; eauto).
    destruct (in_dec Z.eq_dec (bl p) (nbrs (bl c))) as [HI|HI]; [|apply far_ok; auto].
    apply nth_map_true in Fk as ([rows c'] & Hrc & Far). apply nth_combine in Hrc as [Hr Hc']. cbn [fst snd] in *.
    rewrite Hk in Hc'. inversion Hc'; subst c'. clear Hc'.
    unfold padded, compare, blocks in Hr. rewrite !nth_error_map, Hk in Hr. cbn [option_map] in Hr. inversion Hr; subst rows. clear Hr.
    apply far_app in Far. unfold far_from_all in Far. rewrite forallb_forall in Far.
    apply near_ok; auto. apply Rltb_iff. apply Far. apply In_nth_error in Hp as [i Hi].
    apply in_map_iff. exists i. split; [apply nth_error_nth; auto|]. apply in_flat_map. exists (bl p). auto. }
  assert (PAIR : ForallOrdPairs R (compress flt cand)).
  { apply compress_FOP. intros a b x y L Fa Fb Xa Xb. rewrite Forall_forall in CB.
    apply far_ok; [apply CB; eapply nth_error_In; eauto..|]. specialize (PN a b L Fa Fb). unfold blocks in PN.
    rewrite !(nth_error_nth _ _ 0%Z (map_nth_error (bl) _ _ Xa)), !(nth_error_nth _ _ 0%Z (map_nth_error (bl) _ _ Xb)) in PN. exact PN. }
  split; [repeat split; cbn [bs_coords bs_vox]|].
  - apply Forall_app. split; auto. apply Forall_firstn. auto.
  - apply FOP_app. repeat split; auto; [apply FOP_firstn; auto|]. intros x y Hx Hy. apply OLD; auto.
    rewrite <- (firstn_skipn (n - nacc) (compress flt cand)). apply in_or_app. auto.
  - intros i p H. apply vox_fold_spec. destruct (Nat.lt_ge_cases i nacc) as [L|L].
    + rewrite nth_error_app1 in H by exact L. left. apply I3. exact H.
    + rewrite nth_error_app2 in H by exact L. fold nacc in H. apply nth_error_firstn in H. right.
      replace i with (nacc + (i - nacc))%nat at 1 by lia. unfold blocks. rewrite compress_map.
      apply combine_seq_nth.
      apply (map_nth_error (bl)). exact H.
  - cbn [bs_coords]. rewrite app_length, firstn_length. fold nacc. fold nacc in LN. lia.
Qed.
End Batch.
Lemma batch_loop_inv dims md vs (R : vec -> vec -> Prop) : pos_box dims ->
  (forall p q, in_box dims p -> in_box dims q -> md * md < p_dist dims p q -> R p q) ->
  (forall p q, in_box dims p -> in_box dims q ->
     ~ In (block1d vs dims p) (grid_nbrs (num_blocks vs dims) (block1d vs dims q)) -> R p q) ->
  forall bs n st l, Forall (Forall unit_draw) bs -> binv dims R (block1d vs dims) st -> (length (bs_coords st) <= n)%nat ->
  batch_loop dims md vs n st bs = Ok l -> length l = n /\ Forall (in_box dims) l /\ ForallOrdPairs R l.
Proof.
  intros box near far.
  induction bs as [|us rest IH]; intros n st l HU I HL H; cbn [batch_loop] in H.
  - destruct (Nat.leb_spec n (length (bs_coords st))); [|discriminate]. inversion H; subst. destruct I as (I1 & I2 & _). repeat split; auto. lia.
  - destruct (Nat.leb_spec n (length (bs_coords st))) as [L|L].
    + inversion H; subst. destruct I as (I1 & I2 & _). repeat split; auto. lia.
    + inversion HU; subst. destruct (batch_step_inv dims md R _ _ box near far n st us) as [A B]; auto. rewrite batch_step_eq in H. eapply IH; [| | |exact H]; auto.
Qed.
