(** gen_p_substrate_batched in double precision. *)
From Coq Require Import Reals List ZArith Bool Lra Lia Psatz.
From Flocq Require Import Core.
From Verif.Model Require Import Base Vec Voxel Priority Measure Amorphous Float FloatAmorph FloatBatch.
From Verif.Spec Require Import Geometry AmorphSpec FloatSpec FloatAmorphSpec.
From Verif.Proofs Require Import VecFacts PriorityFacts VolumeFacts AmorphFacts GridFacts BatchFacts AmorphLoop FloatFacts FloatRotFacts FloatAmorphFacts.
Import ListNotations.
Open Scope R_scope.

Local Arguments IZR : simpl never.

Lemma f_far_app dims md2 a b c : f_far_from_all dims md2 (a ++ b) c = true -> f_far_from_all dims md2 a c = true.
Proof. unfold f_far_from_all. rewrite forallb_app. intros H. apply andb_true_iff in H. tauto. Qed.
Lemma f_block1d_cell s L c : f_block1d s L c =
  cell_index (Zceil (b64 (vx L / s))) (Zceil (b64 (vy L / s))) (Zfloor (b64 (vx c / s))) (Zfloor (b64 (vy c / s))) (Zfloor (b64 (vz c / s))).
Proof. unfold f_block1d, f_num_blocks, f_block_of, cell_index. cbn. ring. Qed.

Lemma cell_below a b c i j k : (0 <= i < a -> 0 <= j < b -> 0 <= k < c -> cell_index a b i j k < a * b * c)%Z.
Proof.
  intros X Y Z. unfold cell_index. assert (P : ((k + 1) * b <= c * b)%Z) by (apply Z.mul_le_mono_nonneg_r; lia).
  assert (Q : ((j + k * b + 1) * a <= c * b * a)%Z) by (apply Z.mul_le_mono_nonneg_r; lia). lia.
Qed.
Section Geometry.
Context (L : vec) (D md md2 vs : R).
Hypothesis okL : block_ok D L.
Hypothesis okm : / 2 ^ 100 <= md.
Hypothesis okm2 : Rabs (md2 - md * md) <= 2 * ulp1 * (md * md) + tiny.
Hypothesis okv : md <= vs.
Hypothesis wx : ~ is_whole (b64 (vx L / vs)).
Hypothesis wy : ~ is_whole (b64 (vy L / vs)).
Hypothesis wz : ~ is_whole (b64 (vz L / vs)).
Notation n0 := (Zceil (b64 (vx L / vs))).
Notation n1 := (Zceil (b64 (vy L / vs))).
Notation n2 := (Zceil (b64 (vz L / vs))).
Notation bl := (f_block1d vs L).
Notation nbrs := (grid_nbrs (f_num_blocks vs L)).
Lemma vs_pos : 0 < vs. Proof. pose proof (md_pos md okm). lra. Qed.
Lemma fb_grid c : in_box L c -> in_grid n0 n1 n2 (Zfloor (b64 (vx c / vs))) (Zfloor (b64 (vy c / vs))) (Zfloor (b64 (vz c / vs))).
Proof.
  intros (X & Y & Z). pose proof vs_pos.
  repeat split; first [apply voxel_pos; lra | apply voxel_below; auto; lra].
Qed.
Lemma fb_below c : in_box L c -> (bl c < n0 * n1 * n2)%Z.
Proof.
  intros H. destruct (fb_grid c H) as (X & Y & Z). rewrite f_block1d_cell. apply cell_below; auto.
Qed.
Lemma fb_far p q : in_box L p -> in_box L q -> ~ In (bl p) (nbrs (bl q)) -> gap D md <= dist p q.
Proof.
  intros Hp Hq N. pose proof (fb_grid p Hp) as Gp. pose proof (fb_grid q Hq) as Gq. rewrite !f_block1d_cell in N.
  pose proof (gap_far D md okm) as G. pose proof vs_pos as V. pose proof tiny_pos as T0.
  assert (G' : gap D md <= vs - 2 * ulp1 * D - 2 * tiny * vs).
  { pose proof (tiny_split 1 1 ltac:(lia)) as T. assert (2 * tiny <= 1) by lra. nra. }
  destruct (axis_le_dist p q) as (A1 & A2 & A3).
  destruct okL as ((_ & DX) & (_ & DY) & (_ & DZ)). destruct Hp as (X & Y & Z), Hq as (X' & Y' & Z').
  destruct (Z_le_dec 2 (Z.abs (Zfloor (b64 (vx p / vs)) - Zfloor (b64 (vx q / vs))))) as [F|F].
  { pose proof (voxels_apart (vx p) (vx q) vs D V ltac:(lra) ltac:(lra) F). lra. }
  destruct (Z_le_dec 2 (Z.abs (Zfloor (b64 (vy p / vs)) - Zfloor (b64 (vy q / vs))))) as [F'|F'].
  { pose proof (voxels_apart (vy p) (vy q) vs D V ltac:(lra) ltac:(lra) F'). lra. }
  destruct (Z_le_dec 2 (Z.abs (Zfloor (b64 (vz p / vs)) - Zfloor (b64 (vz q / vs))))) as [F''|F''].
  { pose proof (voxels_apart (vz p) (vz q) vs D V ltac:(lra) ltac:(lra) F''). lra. }
  exfalso. apply N. apply neighbors_spec; [exact Gq|]. do 3 eexists. split; [|split; [|split; [|reflexivity]]].
  - apply axis_step_near; [apply Gq|apply Gp|lia].
  - apply axis_step_near; [apply Gq|apply Gp|lia].
  - apply axis_step_near; [apply Gq|apply Gp|lia].
Qed.
End Geometry.

Definition f_batch_with (nbrs : Z -> list Z) (tot : Z) (bl : vec -> Z) (dims : vec) (md2 : R) (num_c : nat) (st : bstate) (us : list vec) : res bstate :=
  let cand := map (fun u => f_scale_draw u dims) us in
  let blocks0 := map bl cand in
  let idx := np_unique_index blocks0 in
  let blocks := map (fun i => nth i blocks0 0%Z) idx in
  let cand := map (fun i => nth i cand v0) idx in
  if negb (forallb (fun b => b <? tot)%Z blocks) then Err IndexError else
  let compare := map (fun b => map (fun i => nth i (bs_coords st) v0)
                                   (flat_map (bs_vox st) (nbrs b))) blocks in
  let maxc := fold_left (fun m l => Nat.max m (length l)) compare 0%nat in
  let padded := map (fun l => l ++ repeat pad (maxc - length l)) compare in
  let flt := map (fun rc => f_far_from_all dims md2 (fst rc) (snd rc)) (combine padded cand) in
  let flt := prune nbrs blocks flt in
  let acc_blocks := compress flt blocks in
  let nacc := length (bs_coords st) in
  let vox := fold_left (fun v ib => fun b' => if (b' =? snd ib)%Z then v b' ++ [fst ib] else v b')
                       (combine (seq nacc (length acc_blocks)) acc_blocks) (bs_vox st) in
  let flt := trim (num_c - nacc) flt in
  Ok (mkBS (bs_coords st ++ compress flt cand) vox).
Definition total (nb : block) : Z := (fst (fst nb) * snd (fst nb) * snd nb)%Z.
Lemma f_batch_step_eq dims md2 vs n st us :
  f_batch_step dims md2 vs n st us = f_batch_with (grid_nbrs (f_num_blocks vs dims)) (total (f_num_blocks vs dims)) (f_block1d vs dims) dims md2 n st us.
Proof. unfold f_batch_step, f_batch_with, grid_nbrs, total. generalize (f_block1d vs dims). intros bl. destruct (f_num_blocks vs dims) as [[n0 n1] n2]. reflexivity. Qed.

Section Batch.
Context (L : vec) (D md md2 : R) (nbrs : Z -> list Z) (tot : Z) (bl : vec -> Z).
Hypothesis okL : block_ok D L.
Hypothesis okm : / 2 ^ 100 <= md.
Hypothesis okm2 : Rabs (md2 - md * md) <= 2 * ulp1 * (md * md) + tiny.
Hypothesis below : forall c, in_box L c -> (bl c < tot)%Z.
Hypothesis fb_far : forall p q, in_box L p -> in_box L q -> ~ In (bl p) (nbrs (bl q)) -> gap D md <= dist p q.
Definition fbinv (st : bstate) : Prop :=
  Forall (in_box L) (bs_coords st) /\ ForallOrdPairs (fun p q => gap D md <= dist p q) (bs_coords st) /\
  (forall i p, nth_error (bs_coords st) i = Some p -> In i (bs_vox st (bl p))).
Lemma f_batch_inv n st us : Forall draw53 us -> fbinv st -> (length (bs_coords st) <= n)%nat ->
  exists st', f_batch_with nbrs tot bl L md2 n st us = Ok st' /\ fbinv st' /\ (length (bs_coords st') <= n)%nat.
Proof.
  intros U (I1 & I2 & I3) LN. unfold f_batch_with.
  set (cand0 := map (fun u => f_scale_draw u L) us). set (idx := np_unique_index (map bl cand0)).
  assert (IDX : forall i, In i idx -> (i < length cand0)%nat) by (intros i Hi; apply unique_index_lt in Hi; rewrite map_length in Hi; exact Hi).
  rewrite (map_nth_map bl cand0 idx v0 0%Z IDX). set (cand := map (fun i => nth i cand0 v0) idx).
  assert (CB : Forall (in_box L) cand).
  { apply Forall_forall. intros c Hc. apply in_map_iff in Hc as (i & <- & Hi).
    assert (In (nth i cand0 v0) cand0) by (apply nth_In; auto). apply in_map_iff in H as (u & <- & Hu).
    eapply draw_in_fbox; eauto. rewrite Forall_forall in U. auto. }
  clearbody cand. clear IDX idx cand0.
  set (blocks := map bl cand).
  assert (OKB : forallb (fun b => (b <? tot)%Z) blocks = true).
  { apply forallb_forall. intros b Hb. apply in_map_iff in Hb as (c & <- & Hc). apply Z.ltb_lt, below. rewrite Forall_forall in CB. auto. }
  rewrite OKB. cbn [negb].
  set (compare := map (fun b => map (fun i => nth i (bs_coords st) v0) (flat_map (bs_vox st) (nbrs b))) blocks).
  set (maxc := fold_left _ compare 0%nat). set (padded := map (fun l => l ++ repeat pad (maxc - length l)) compare).
  set (flt0 := map _ (combine padded cand)). set (flt := prune nbrs blocks flt0).
  set (nacc := length (bs_coords st)). rewrite trim_firstn.
  destruct (prune_facts nbrs blocks flt0) as [PM PN]. fold flt in PM, PN.
  assert (NEW : Forall (in_box L) (compress flt cand)).
  { apply Forall_forall. intros c Hc. apply compress_in in Hc as (k & _ & Hk). apply nth_error_In in Hk. rewrite Forall_forall in CB. auto. }
  assert (OLD : forall p c, In p (bs_coords st) -> In c (compress flt cand) -> gap D md <= dist p c).
  { intros p c Hp Hc. apply compress_in in Hc as (k & Fk & Hk). apply PM in Fk.
    assert (Bp : in_box L p) by (rewrite Forall_forall in I1; auto).
    assert (Bc : in_box L c) by (rewrite Forall_forall in CB; apply CB; eapply nth_error_In; eauto).
    destruct (in_dec Z.eq_dec (bl p) (nbrs (bl c))) as [HI|HI]; [|apply fb_far; auto].
    apply nth_map_true in Fk as ([rows c'] & Hrc & Far). apply nth_combine in Hrc as [Hr Hc']. cbn [fst snd] in *.
    rewrite Hk in Hc'. inversion Hc'; subst c'. clear Hc'.
    unfold padded, compare, blocks in Hr. rewrite !nth_error_map, Hk in Hr. cbn [option_map] in Hr. inversion Hr; subst rows. clear Hr.
    apply f_far_app in Far. unfold f_far_from_all in Far. rewrite forallb_forall in Far.
    eapply Rle_trans; [apply (gap_near L D md okL)|]. apply (f_passed L D md md2); auto. apply Rlt_le, Rltb_iff. apply Far. apply In_nth_error in Hp as [i Hi].
    apply in_map_iff. exists i. split; [apply nth_error_nth; auto|]. apply in_flat_map. exists (bl p). auto. }
  assert (PAIR : ForallOrdPairs (fun p q => gap D md <= dist p q) (compress flt cand)).
  { apply compress_FOP. intros a b x y Lt Fa Fb Xa Xb. rewrite Forall_forall in CB.
    apply fb_far; [apply CB; eapply nth_error_In; eauto..|]. specialize (PN a b Lt Fa Fb). unfold blocks in PN.
    rewrite !(nth_error_nth _ _ 0%Z (map_nth_error bl _ _ Xa)), !(nth_error_nth _ _ 0%Z (map_nth_error bl _ _ Xb)) in PN. exact PN. }
  eexists. split; [reflexivity|]. split; [repeat split; cbn [bs_coords bs_vox]|].
  - apply Forall_app. split; auto. apply Forall_firstn. auto.
  - apply FOP_app. repeat split; auto; [apply FOP_firstn; auto|]. intros x y Hx Hy. apply OLD; auto.
    rewrite <- (firstn_skipn (n - nacc) (compress flt cand)). apply in_or_app. auto.
  - intros i p H. apply vox_fold_spec. destruct (Nat.lt_ge_cases i nacc) as [Lt|Lt].
    + rewrite nth_error_app1 in H by exact Lt. left. apply I3. exact H.
    + rewrite nth_error_app2 in H by exact Lt. fold nacc in H. apply nth_error_firstn in H. right.
      replace i with (nacc + (i - nacc))%nat at 1 by lia. unfold blocks. rewrite compress_map.
      apply combine_seq_nth. apply (map_nth_error bl). exact H.
  - cbn [bs_coords]. rewrite app_length, firstn_length. fold nacc. fold nacc in LN. lia.
Qed.
End Batch.
Lemma f_batch_loop_inv L D md md2 vs : block_ok D L -> / 2 ^ 100 <= md -> Rabs (md2 - md * md) <= 2 * ulp1 * (md * md) + tiny -> md <= vs ->
  ~ is_whole (b64 (vx L / vs)) -> ~ is_whole (b64 (vy L / vs)) -> ~ is_whole (b64 (vz L / vs)) ->
  forall bs n st, Forall (Forall draw53) bs -> fbinv L D md (f_block1d vs L) st -> (length (bs_coords st) <= n)%nat ->
  f_batch_loop L md2 vs n st bs = Err NeedMore \/
  exists l, f_batch_loop L md2 vs n st bs = Ok l /\ length l = n /\ Forall (in_box L) l /\ ForallOrdPairs (fun p q => gap D md <= dist p q) l.
Proof.
  intros okL okm okm2 okv wx wy wz.
  induction bs as [|us rest IH]; intros n st HU I HL; cbn [f_batch_loop].
  - destruct (Nat.leb_spec n (length (bs_coords st))); [|auto]. right. eexists. split; [reflexivity|]. destruct I as (I1 & I2 & _). repeat split; auto. lia.
  - destruct (Nat.leb_spec n (length (bs_coords st))) as [Q|Q].
    + right. eexists. split; [reflexivity|]. destruct I as (I1 & I2 & _). repeat split; auto. lia.
    + inversion HU; subst. rewrite f_batch_step_eq.
      destruct (f_batch_inv L D md md2 (grid_nbrs (f_num_blocks vs L)) (total (f_num_blocks vs L)) (f_block1d vs L) okL okm okm2) with (n := n) (st := st) (us := us) as (st' & E & I' & Q'); auto.
      * intros c Hc. apply (fb_below L md vs); auto.
      * intros p q Hp Hq. apply (fb_far L D md vs); auto.
      * rewrite E. cbn [bind]. apply IH; auto.
Qed.
Lemma fb_empty L D md bl : fbinv L D md bl (mkBS [] (fun _ => [])).
Proof. split; [constructor|split; [constructor|]]. intros [|i] p H; discriminate. Qed.
