(** get_voxel_grid: index arithmetic. *)
From Coq Require Import List ZArith Bool Lia.
From Verif.Model Require Import Base Measure.
From Verif.Spec Require Import AmorphSpec.
Import ListNotations.
Open Scope Z_scope.

Lemma idx_facts d0 d1 d2 x y z : in_grid d0 d1 d2 x y z ->
  let i := cell_index d0 d1 x y z in
  i mod d0 = x /\ (i / d0) mod d1 = y /\ i / (d0 * d1) = z /\ 0 <= i < d0 * d1 * d2.
Proof.
  intros ((X0 & X1) & (Y0 & Y1) & (Z0 & Z1)) i. unfold i, cell_index.
  assert (E : x + y * d0 + z * (d0 * d1) = x + (y + z * d1) * d0) by ring.
  split; [rewrite E, Z_mod_plus_full; apply Z.mod_small; lia|].
  split; [rewrite E, Z_div_plus_full by lia; rewrite (Z.div_small x) by lia; rewrite Z.add_0_l, Z_mod_plus_full; apply Z.mod_small; lia|].
  split.
  - rewrite Z_div_plus_full by nia. rewrite Z.div_small by nia. lia.
  - assert (A : 0 <= x + y * d0 < d0 * d1) by nia. set (P := d0 * d1) in *. nia.
Qed.
Lemma cell_index_inj d0 d1 d2 x y z x' y' z' : in_grid d0 d1 d2 x y z -> in_grid d0 d1 d2 x' y' z' ->
  cell_index d0 d1 x y z = cell_index d0 d1 x' y' z' -> x = x' /\ y = y' /\ z = z'.
Proof.
  intros H H' E. destruct (idx_facts _ _ _ _ _ _ H) as (A & B & C & _). destruct (idx_facts _ _ _ _ _ _ H') as (A' & B' & C' & _).
  cbv zeta in *. rewrite E in *. lia.
Qed.
Lemma cell_index_onto d0 d1 d2 i : 1 <= d0 -> 1 <= d1 -> 1 <= d2 -> 0 <= i < d0 * d1 * d2 ->
  exists x y z, in_grid d0 d1 d2 x y z /\ i = cell_index d0 d1 x y z.
Proof.
  intros D0 D1 D2 H. exists (i mod d0), ((i / d0) mod d1), (i / (d0 * d1)).
  pose proof (Z.mod_pos_bound i d0 ltac:(lia)). pose proof (Z.mod_pos_bound (i / d0) d1 ltac:(lia)).
  assert (0 <= i / (d0 * d1)) by (apply Z.div_pos; nia).
  assert (i / (d0 * d1) < d2) by (apply Z.div_lt_upper_bound; nia).
  split; [unfold in_grid; lia|]. unfold cell_index.
  pose proof (Z.div_mod i d0 ltac:(lia)). pose proof (Z.div_mod (i / d0) d1 ltac:(lia)).
  rewrite Z.div_div in * by lia. nia.
Qed.

(** offsets *)
Definition off (sx sy sz : Z) : Z := (sx + 1) + 3 * (sy + 1) + 9 * (sz + 1).
Definition step3 (s : Z) : Prop := -1 <= s <= 1.
Lemma off_facts sx sy sz : step3 sx -> step3 sy -> step3 sz ->
  let j := off sx sy sz in
  0 <= j < 27 /\ nn_x j = sx /\ nn_y j = sy /\ nn_z j = sz /\ j mod 3 = sx + 1 /\ (j / 3) mod 3 = sy + 1 /\ j / 9 = sz + 1.
Proof.
  intros A B C j. unfold j, off, nn_x, nn_y, nn_z, step3 in *.
  assert (M : (sx + 1 + 3 * (sy + 1) + 9 * (sz + 1)) mod 3 = sx + 1).
  { replace (sx + 1 + 3 * (sy + 1) + 9 * (sz + 1)) with (sx + 1 + (sy + 1 + 3 * (sz + 1)) * 3) by ring. rewrite Z_mod_plus_full. apply Z.mod_small. lia. }
  assert (D : (sx + 1 + 3 * (sy + 1) + 9 * (sz + 1)) / 3 = sy + 1 + (sz + 1) * 3).
  { replace (sx + 1 + 3 * (sy + 1) + 9 * (sz + 1)) with (sx + 1 + (sy + 1 + (sz + 1) * 3) * 3) by ring. rewrite Z_div_plus_full by lia. rewrite Z.div_small; lia. }
  assert (D9 : (sx + 1 + 3 * (sy + 1) + 9 * (sz + 1)) / 9 = sz + 1).
  { rewrite (Z.mul_comm 9). rewrite Z_div_plus_full by lia. rewrite Z.div_small; lia. }
  rewrite M, D, D9, Z_mod_plus_full, (Z.mod_small (sy + 1)) by lia. lia.
Qed.
Lemma off_onto j : 0 <= j < 27 -> exists sx sy sz, step3 sx /\ step3 sy /\ step3 sz /\ j = off sx sy sz.
Proof.
  intros H. exists (nn_x j), (nn_y j), (nn_z j). unfold nn_x, nn_y, nn_z, step3, off.
  pose proof (Z.mod_pos_bound j 3 ltac:(lia)). pose proof (Z.mod_pos_bound (j / 3) 3 ltac:(lia)).
  pose proof (Z.div_mod j 3 ltac:(lia)). pose proof (Z.div_mod (j / 3) 3 ltac:(lia)). rewrite Z.div_div in * by lia. change (3 * 3) with 9 in *.
  assert (0 <= j / 9 < 3) by (split; [apply Z.div_pos; lia|apply Z.div_lt_upper_bound; lia]). lia.
Qed.
Lemma in_idx27 j : In j idx27 <-> 0 <= j < 27.
Proof.
  unfold idx27. rewrite in_map_iff. split.
  - intros (k & <- & Hk). apply in_seq in Hk. lia.
  - intros H. exists (Z.to_nat j). rewrite in_seq. lia.
Qed.

(** the two corrections of measure.py 55-66 wrap the coordinate *)
Lemma wrap_axis d x s : 0 <= x < d -> step3 s ->
  x + s + (if (x =? 0) && (s =? -1) then d else 0) - (if (x =? d - 1) && (s =? 1) then d else 0) = (x + s) mod d.
Proof.
  intros H S. unfold step3 in S.
  destruct (Z.eqb_spec x 0) as [X0|X0], (Z.eqb_spec s (-1)) as [S1|S1], (Z.eqb_spec x (d - 1)) as [XD|XD], (Z.eqb_spec s 1) as [S2|S2];
    cbn [andb]; try lia.
  all: try (rewrite Z.mod_small; lia).
  all: first [ (assert (E : x + s = d - 1 + (-1) * d) by lia; rewrite E, Z_mod_plus_full, Z.mod_small; lia)
             | (assert (E : x + s = 0 + 1 * d) by lia; rewrite E, Z_mod_plus_full, Z.mod_small; lia) ].
Qed.
Lemma mod_prod a b P d : 0 <= a < P -> 0 < d -> (a + b * P) mod (P * d) = a + (b mod d) * P.
Proof.
  intros H Hd. symmetry. apply Z.mod_unique with (b / d).
  - left. pose proof (Z.mod_pos_bound b d Hd). nia.
  - pose proof (Z.div_mod b d ltac:(lia)). nia.
Qed.

Lemma vg_entry_value d0 d1 d2 x y z sx sy sz : in_grid d0 d1 d2 x y z -> step3 sx -> step3 sy -> step3 sz ->
  vg_entry d0 d1 d2 (cell_index d0 d1 x y z) (off sx sy sz) =
  cell_index d0 d1 ((x + sx) mod d0) ((y + sy) mod d1) ((z + sz) mod d2).
Proof.
  intros G SX SY SZ. destruct (idx_facts _ _ _ _ _ _ G) as (IX & IY & IZ & _).
  destruct (off_facts sx sy sz SX SY SZ) as (_ & NX & NY & NZ & JM & _). cbv zeta in *.
  destruct G as (GX & GY & GZ).
  unfold vg_entry. rewrite IX, IY, NX, NY, NZ, JM. unfold vgN.
  replace (sx + 1 =? 0) with (sx =? -1) by (destruct (Z.eqb_spec sx (-1)), (Z.eqb_spec (sx + 1) 0); auto; lia).
  replace (sx + 1 =? 2) with (sx =? 1) by (destruct (Z.eqb_spec sx 1), (Z.eqb_spec (sx + 1) 2); auto; lia).
  rewrite <- (wrap_axis d0 x sx), <- (wrap_axis d1 y sy) by auto.
  set (A1 := (x =? 0) && (sx =? -1)). set (A2 := (x =? d0 - 1) && (sx =? 1)).
  set (B1 := (y =? 0) && (sy =? -1)). set (B2 := (y =? d1 - 1) && (sy =? 1)).
  set (wx := x + sx + (if A1 then d0 else 0) - (if A2 then d0 else 0)).
  set (wy := y + sy + (if B1 then d1 else 0) - (if B2 then d1 else 0)).
  assert (WX : 0 <= wx < d0) by (unfold wx, A1, A2; rewrite wrap_axis by auto; apply Z.mod_pos_bound; lia).
  assert (WY : 0 <= wy < d1) by (unfold wy, B1, B2; rewrite wrap_axis by auto; apply Z.mod_pos_bound; lia).
  transitivity ((wx + wy * d0 + (z + sz) * (d0 * d1)) mod (d0 * d1 * d2)).
  - f_equal. unfold cell_index, wx, wy. destruct A1, A2, B1, B2; ring.
  - rewrite mod_prod by nia. unfold cell_index. reflexivity.
Qed.

Lemma absorb (p q : bool) : (q = true -> p = true) -> p || q = p.
Proof. destruct p, q; auto; intros H; discriminate (H eq_refl). Qed.
Lemma ex2 (l1 l2 : list (bool * bool)) :
  existsb (fun a => existsb (fun b => fst a && fst b && (snd a && snd b)) l2) l1 = true ->
  existsb (fun a => fst a && snd a) l1 = true.
Proof.
  rewrite !existsb_exists. intros (a & Ha & E). exists a. split; auto. apply existsb_exists in E as (b & _ & E).
  rewrite !andb_true_iff in *. tauto.
Qed.
Lemma ex3 (l1 l2 l3 : list (bool * bool)) :
  existsb (fun a => existsb (fun b => existsb (fun c => fst b && fst c && fst a && (snd b && snd c && snd a)) l3) l2) l1 = true ->
  existsb (fun a => fst a && snd a) l1 = true.
Proof.
  rewrite !existsb_exists. intros (a & Ha & E). exists a. split; auto. apply existsb_exists in E as (b & _ & E).
  apply existsb_exists in E as (c & _ & E). rewrite !andb_true_iff in *. tauto.
Qed.
Lemma vg_nan_simpl d0 d1 d2 px py pz i j :
  vg_nan d0 d1 d2 px py pz i j =
    (negb px && (xi_face d0 i && nn_xi j || xf_face d0 i && nn_xf j))
    || (negb py && (yi_face d0 d1 i && nn_yi j || yf_face d0 d1 i && nn_yf j))
    || (negb pz && (zi_face d0 d1 i && nn_zi j || zf_face d0 d1 d2 i && nn_zf j)).
Proof.
  unfold vg_nan. cbv zeta.
  set (xs := [(xi_face d0 i, nn_xi j); (xf_face d0 i, nn_xf j)]).
  set (ys := [(yi_face d0 d1 i, nn_yi j); (yf_face d0 d1 i, nn_yf j)]).
  set (zs := [(zi_face d0 d1 i, nn_zi j); (zf_face d0 d1 d2 i, nn_zf j)]).
  transitivity (negb px && existsb (fun a => fst a && snd a) xs || negb py && existsb (fun a => fst a && snd a) ys || negb pz && existsb (fun a => fst a && snd a) zs).
  - rewrite (absorb _ (negb px && negb py && negb pz && _)), (absorb _ (negb py && negb pz && _)), (absorb _ (negb px && negb pz && _)), (absorb _ (negb px && negb py && _)); auto.
    + rewrite !andb_true_iff. intros ((A & B) & C). apply ex2 in C. rewrite A, C. reflexivity.
    + rewrite !andb_true_iff. intros ((A & B) & C). apply ex2 in C. rewrite A, C. reflexivity.
    + rewrite !andb_true_iff. intros ((A & B) & C). apply ex2 in C. rewrite A, C. cbn. rewrite orb_true_r. reflexivity.
    + rewrite !andb_true_iff. intros (((A & B) & D) & C). apply ex3 in C. rewrite A, C. reflexivity.
  - unfold xs, ys, zs. cbn [existsb fst snd]. rewrite !orb_false_r. reflexivity.
Qed.

Definition clipped (per : bool) (d x s : Z) : bool := negb per && ((x =? 0) && (s =? -1) || (x =? d - 1) && (s =? 1)).
Lemma vg_nan_value d0 d1 d2 x y z sx sy sz px py pz : in_grid d0 d1 d2 x y z -> step3 sx -> step3 sy -> step3 sz ->
  vg_nan d0 d1 d2 px py pz (cell_index d0 d1 x y z) (off sx sy sz) =
  clipped px d0 x sx || clipped py d1 y sy || clipped pz d2 z sz.
Proof.
  intros G SX SY SZ. destruct (idx_facts _ _ _ _ _ _ G) as (IX & IY & IZ & _).
  destruct (off_facts sx sy sz SX SY SZ) as (_ & _ & _ & _ & JX & JY & JZ). cbv zeta in *.
  rewrite vg_nan_simpl. unfold xi_face, xf_face, yi_face, yf_face, zi_face, zf_face, nn_xi, nn_xf, nn_yi, nn_yf, nn_zi, nn_zf.
  rewrite IX, IY, IZ, JX, JY, JZ. unfold clipped.
  assert (EM : forall s, (s + 1 =? 0) = (s =? -1)) by (intros s; destruct (Z.eqb_spec s (-1)), (Z.eqb_spec (s + 1) 0); auto; lia).
  assert (EP : forall s, (s + 1 =? 2) = (s =? 1)) by (intros s; destruct (Z.eqb_spec s 1), (Z.eqb_spec (s + 1) 2); auto; lia).
  rewrite !EM, !EP. reflexivity.
Qed.
Lemma clipped_false per d x s : 0 <= x < d -> step3 s ->
  clipped per d x s = false <-> (per = false -> 0 <= x + s < d).
Proof.
  intros H S. unfold clipped, step3 in *. destruct per; cbn; [split; [intros _ E; discriminate|auto]|].
  destruct (Z.eqb_spec x 0), (Z.eqb_spec s (-1)), (Z.eqb_spec x (d - 1)), (Z.eqb_spec s 1); cbn; split; intros E; try discriminate; try lia; auto;
    specialize (E eq_refl); lia.
Qed.
Lemma axis_step_iff per d x x' : 0 <= x < d ->
  axis_step per d x x' <-> exists s, step3 s /\ clipped per d x s = false /\ x' = (x + s) mod d.
Proof.
  intros H. unfold axis_step. split.
  - intros (s & S & E). exists s. split; [exact S|]. destruct per.
    + split; [reflexivity|exact E].
    + destruct E as [R E]. split; [apply clipped_false; auto; lia|]. rewrite Z.mod_small; lia.
  - intros (s & S & C & E). exists s. split; [exact S|]. destruct per; [exact E|].
    pose proof (proj1 (clipped_false false d x s H S) C) as C0; clear C; rename C0 into C. specialize (C eq_refl). rewrite Z.mod_small in E by lia. split; lia.
Qed.
Lemma neighbors_spec d0 d1 d2 px py pz x y z n : in_grid d0 d1 d2 x y z ->
  In n (voxel_neighbors d0 d1 d2 px py pz (cell_index d0 d1 x y z)) <->
  exists x' y' z', axis_step px d0 x x' /\ axis_step py d1 y y' /\ axis_step pz d2 z z' /\ n = cell_index d0 d1 x' y' z'.
Proof.
  intros G. assert (E : In n (voxel_neighbors d0 d1 d2 px py pz (cell_index d0 d1 x y z)) <->
    exists j, (0 <= j < 27) /\ vg_nan d0 d1 d2 px py pz (cell_index d0 d1 x y z) j = false /\ vg_entry d0 d1 d2 (cell_index d0 d1 x y z) j = n).
  { unfold voxel_neighbors. destruct (px && py && pz) eqn:EP.
    - rewrite in_map_iff. setoid_rewrite in_idx27. split.
      + intros (j & <- & Hj). exists j. split; auto. split; auto.
        apply andb_true_iff in EP as [EP ->]. apply andb_true_iff in EP as [-> ->]. reflexivity.
      + intros (j & Hj & _ & E). eauto.
    - rewrite nodup_In, in_map_iff. setoid_rewrite filter_In. setoid_rewrite in_idx27. setoid_rewrite negb_true_iff.
      split; [intros (j & E & Hj & HN); eauto|intros (j & Hj & HN & E); eauto]. }
  rewrite E. destruct G as (GX & GY & GZ). assert (G : in_grid d0 d1 d2 x y z) by (split; auto). split.
  - intros (j & Hj & HN & HV). destruct (off_onto j Hj) as (sx & sy & sz & SX & SY & SZ & ->).
    rewrite vg_nan_value in HN by auto. apply orb_false_iff in HN as [HN C3]. apply orb_false_iff in HN as [C1 C2].
    rewrite vg_entry_value in HV by auto. exists ((x + sx) mod d0), ((y + sy) mod d1), ((z + sz) mod d2).
    rewrite !axis_step_iff by auto. split; [|split; [|split]]; eauto.
  - intros (x' & y' & z' & A & B & C & ->). apply axis_step_iff in A as (sx & SX & C1 & ->); auto.
    apply axis_step_iff in B as (sy & SY & C2 & ->); auto. apply axis_step_iff in C as (sz & SZ & C3 & ->); auto.
    exists (off sx sy sz). split; [apply off_facts; auto|]. rewrite vg_nan_value, C1, C2, C3 by auto. split; auto. apply vg_entry_value; auto.
Qed.
Lemma axis_step_range per d x x' : 0 <= x < d -> axis_step per d x x' -> 0 <= x' < d.
Proof.
  intros H (s & S & E). destruct per; [subst; apply Z.mod_pos_bound; lia|apply E].
Qed.
Lemma axis_step_refl per d x : 0 <= x < d -> axis_step per d x x.
Proof. intros H. exists 0. split; [lia|]. rewrite Z.add_0_r. destruct per; [rewrite Z.mod_small; lia|lia]. Qed.
Lemma axis_step_sym per d x x' : 0 <= x < d -> axis_step per d x x' -> axis_step per d x' x.
Proof.
  intros H (s & S & E). exists (- s). split; [lia|]. destruct per.
  - subst x'. rewrite Zplus_mod_idemp_l. replace (x + s + - s) with x by ring. rewrite Z.mod_small; lia.
  - lia.
Qed.
Lemma axis_step_near per d x x' : 0 <= x < d -> 0 <= x' < d -> Z.abs (x' - x) <= 1 -> axis_step per d x x'.
Proof.
  intros H H' A. exists (x' - x). split; [lia|]. replace (x + (x' - x)) with x' by ring. destruct per; [rewrite Z.mod_small; lia|lia].
Qed.
