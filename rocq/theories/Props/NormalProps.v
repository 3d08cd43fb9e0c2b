(** C138, C139: the weights of the neighbours and the surface normal found from them. *)
From Coq Require Import String Reals List ZArith Bool Lra Lia.
From Verif.Model Require Import Base Vec Transform Volume Molecule AlphaShape Adsorbate.
From Verif.Spec Require Import Geometry.
From Verif.Proofs Require Import VecFacts AlgFacts VolumeFacts.
From Verif.Props Require Import TransformProps MoleculeProps AdsorbateProps.
Import ListNotations.
Open Scope R_scope.

(** the least element of a list, the greatest element *)
Definition least (l : list R) (m : R) : Prop := In m l /\ Forall (fun x => m <= x) l.
Definition greatest (l : list R) (m : R) : Prop := In m l /\ Forall (fun x => x <= m) l.
Lemma fold_Rmin_least l : forall x, least (x :: l) (fold_left Rmin l x).
Proof.
  induction l as [|y l IH]; intros x; cbn; [split; [left; reflexivity|repeat constructor; lra]|].
  destruct (IH (Rmin x y)) as [A B]. inversion B as [|? ? B1 B2]; subst. pose proof (Rmin_l x y). pose proof (Rmin_r x y). split.
  - destruct A as [A|A]; [|right; right; exact A]. rewrite <- A. assert (Q : Rmin x y = x \/ Rmin x y = y) by (unfold Rmin; destruct (Rle_dec x y); auto); destruct Q as [Q|Q]; rewrite Q; [left|right; left]; reflexivity.
  - constructor; [lra|]. constructor; [lra|exact B2].
Qed.
Lemma fold_Rmax_greatest l : forall x, greatest (x :: l) (fold_left Rmax l x).
Proof.
  induction l as [|y l IH]; intros x; cbn; [split; [left; reflexivity|repeat constructor; lra]|].
  destruct (IH (Rmax x y)) as [A B]. inversion B as [|? ? B1 B2]; subst. pose proof (Rmax_l x y). pose proof (Rmax_r x y). split.
  - destruct A as [A|A]; [|right; right; exact A]. rewrite <- A. assert (Q : Rmax x y = x \/ Rmax x y = y) by (unfold Rmax; destruct (Rle_dec x y); auto); destruct Q as [Q|Q]; rewrite Q; [left|right; left]; reflexivity.
  - constructor; [lra|]. constructor; [lra|exact B2].
Qed.

(** C138: the direction to a neighbour at distance d counts with weight dmin/d, the nearest with
    weight 1. *)
Theorem C138_weights : forall atoms target nn, nn <> [] ->
  Forall (fun i => nth i atoms v0 <> nth target atoms v0) nn ->
  let far i := dist (nth i atoms v0) (nth target atoms v0) in
  exists vecs dmin, neighbor_vectors atoms target nn = Ok vecs /\ least (map far nn) dmin /\ 0 < dmin /\
    length vecs = length nn /\
    forall k i, nth_error nn k = Some i -> exists v, nth_error vecs k = Some v /\
      v = vscale (dmin / far i) (unit_vec (vsub (nth i atoms v0) (nth target atoms v0))) /\ norm v = dmin / far i /\ norm v <= 1.
Proof.
  intros atoms target nn NE D far. unfold neighbor_vectors.
  set (pos := map (fun i => vsub (nth i atoms v0) (nth target atoms v0)) nn).
  assert (PE : map norm pos = map far nn) by (unfold pos; rewrite map_map; reflexivity).
  assert (FP : Forall (fun i => 0 < far i) nn).
  { eapply Forall_impl; [|exact D]. intros i Hi. unfold far, dist. cbn. pose proof (norm_pos (vsub (nth i atoms v0) (nth target atoms v0))) as P.
    destruct (Req_EM_T (norm (vsub (nth i atoms v0) (nth target atoms v0))) 0) as [E|]; [|lra]. apply norm_zero in E. exfalso. apply Hi.
    apply vec_eq; [apply (f_equal vx) in E|apply (f_equal vy) in E|apply (f_equal vz) in E]; cbn in *; lra. }
  rewrite PE. destruct (map far nn) as [|n ns] eqn:EN; [destruct nn; [congruence|discriminate]|].
  destruct (existsb (fun r => Reqb r 0) (n :: ns)) eqn:EX.
  { exfalso. apply existsb_exists in EX as (r & Hr & E). apply Reqb_iff in E. rewrite <- EN in Hr. apply in_map_iff in Hr as (i & E' & Hi).
    rewrite Forall_forall in FP. specialize (FP i Hi). lra. }
  pose proof (fold_Rmin_least ns n) as L. set (mn := fold_left Rmin ns n) in *. rewrite <- EN in L.
  assert (MP : 0 < mn). { destruct L as [L _]. apply in_map_iff in L as (i & E & Hi). rewrite <- E. rewrite Forall_forall in FP. auto. }
  exists (map (fun p => vscale (/ ((norm p / mn) ^ 2)) (vscale (/ mn) p)) pos), mn. split; [reflexivity|]. rewrite <- EN. split; [exact L|]. split; [exact MP|].
  split; [unfold pos; rewrite !map_length; reflexivity|].
  intros k i Hk. unfold pos. rewrite map_map. rewrite nth_error_map, Hk. cbn [option_map]. eexists. split; [reflexivity|].
  assert (Hi : In i nn) by (eapply nth_error_In; eauto). rewrite Forall_forall in FP. specialize (FP i Hi).
  assert (DM : mn <= far i). { destruct L as [_ L]. rewrite Forall_forall in L. apply L, in_map, Hi. }
  set (p := vsub (nth i atoms v0) (nth target atoms v0)) in *. change (norm p) with (far i).
  assert (E : vscale (/ (far i / mn) ^ 2) (vscale (/ mn) p) = vscale (mn / far i) (unit_vec p)).
  { unfold unit_vec. change (norm p) with (far i). clearbody p. destruct p as [x y z]. apply vec_eq; cbn; field; lra. }
  rewrite E. split; [reflexivity|].
  assert (N : norm (vscale (mn / far i) (unit_vec p)) = mn / far i).
  { unfold unit_vec. change (norm p) with (far i). rewrite !norm_scale. change (norm p) with (far i).
    assert (0 < mn / far i) by (apply Rdiv_lt_0_compat; lra). assert (0 < / far i) by (apply Rinv_0_lt_compat; lra).
    rewrite (Rabs_pos_eq (mn / far i)) by lra. rewrite (Rabs_pos_eq (/ far i)) by lra. field. lra. }
  rewrite N. split; [reflexivity|]. apply Rmult_le_reg_r with (far i); [lra|]. unfold Rdiv. rewrite Rmult_assoc, Rinv_l; lra.
Qed.

(** every run draws exactly the neighbours, each at least once *)
Definition covers (n : nat) (s : list nat) : Prop := forall k, In k s <-> (k < n)%nat.

Lemma max_margin_greatest w nn : nn <> [] -> greatest (map (dot w) nn) (max_margin w nn).
Proof. unfold max_margin. destruct nn as [|b nn]; [congruence|]. intros _. cbn [map]. apply fold_Rmax_greatest. Qed.

Lemma margin_loop_unit vecs : vecs <> [] -> Forall (fun x => norm x <= 1 /\ x <> guess) vecs ->
  forall seqs, Forall (covers (length vecs)) seqs ->
  forall best j w0 r, (j = 0%nat -> exists u, w0 = Some u /\ norm u = 1) -> margin_loop vecs seqs best j w0 = Ok r -> exists u, r = Some u /\ norm u = 1.
Proof.
  intros NE P. induction seqs as [|s seqs IH]; intros C best j w0 r J H.
  - destruct j; cbn in H; [injection H as <-; auto|discriminate].
  - destruct j as [|j]; cbn [margin_loop] in H; [injection H as <-; auto|].
    inversion C as [|? ? C1 C2]; subst. 
    assert (NL : (0 < length vecs)%nat) by (destruct vecs; [congruence|cbn; lia]).
    assert (SN : s <> []) by (intros ->; destruct (proj2 (C1 0%nat) NL)).
    assert (SV : Forall (fun k => (k < length vecs)%nat) s) by (apply Forall_forall; intros k Hk; apply C1, Hk).
    destruct (C66_unit_normal_partial vecs (95 / 100) (/ 10 ^ 4) best s) as (u & E & U1 & U2); auto; [lra|].
    rewrite E in H. cbn [bind] in H.
    destruct (Exists_dec (fun k => best <= dot guess (nth k vecs v0)) s) as [X|X]; [intros k; apply Rle_dec| |].
    + specialize (U1 X). destruct (Rltb (max_margin u vecs) best); apply (IH C2) in H; auto; intros; eauto.
    + assert (F : Forall (fun k => dot guess (nth k vecs v0) < best) s).
      { apply Forall_forall. intros k Hk. apply Rnot_le_lt. intros L. apply X. apply Exists_exists. eauto. }
      specialize (U2 F). subst u.
      assert (B : max_margin guess vecs < best).
      { destruct (max_margin_greatest guess vecs NE) as [G _]. apply in_map_iff in G as (b & <- & Hb). apply In_nth with (d := v0) in Hb as (k & Hk & <-).
        rewrite Forall_forall in F. apply F, C1, Hk. }
      rewrite (proj2 (Rltb_iff _ _) B) in H. apply (IH C2) in H; auto. discriminate.
Qed.

(** ... so the normal has length 1 and the bonding atom lands at the bond length, provided every
    seeded run draws each neighbour at least once and no neighbour is a billion times farther
    than another. *)
Theorem C138_bond_length : forall wd vol sh pick seqs mol z bl mvec rot filters N so t m' ok nn,
  paired mol ->
  add_adsorbate wd vol sh pick seqs mol (PInt z) bl mvec rot filters N so = Ok (t, (m', ok)) ->
  get_nearest_neighbors t sh N so = Ok nn -> Forall (covers (length nn)) seqs ->
  let far i := dist (nth i (vol_atoms vol) v0) (nth t (vol_atoms vol) v0) in
  (forall i j, In i nn -> In j nn -> far i <= 10 ^ 9 * far j) ->
  exists i p, denotes (length (m_atoms mol)) z i /\ nth_error (m_atoms m') i = Some p /\
    dist p (nth t (vol_atoms vol) v0) = Rabs bl.
Proof.
  intros wd vol sh pick seqs mol z bl mvec rot filters N so t m' ok nn P H HN C far FAR.
  pose proof (C65_add_adsorbate _ _ _ _ _ _ _ _ _ _ _ _ _ _ _ _ P H) as (normal0 & _). clear normal0.
  unfold add_adsorbate in H. inv_bind H. inv_bind H. inv_bind H. inv_bind H. inv_bind H. inv_bind H. injection H as -> ->.
  rewrite HN in Ha1. injection Ha1 as <-.
  destruct a3 as [normal|]; [|unfold place_adsorbate in Ha4; destruct (set_origin_idx mol (PInt z)) as [? [|]]; discriminate].
  destruct (C65_rigid_placement _ _ _ _ _ _ _ _ _ _ _ P Ha4) as (Q & s & i & _ & _ & _ & _ & D & B & _).
  exists i, (vadd (nth t (vol_atoms vol) v0) (vscale bl normal)). split; [exact D|]. split; [exact B|].
  assert (NE : nn <> []) by (intros ->; discriminate).
  assert (ND : Forall (fun i => nth i (vol_atoms vol) v0 <> nth t (vol_atoms vol) v0) nn).
  { unfold neighbor_vectors in Ha2. destruct (map norm (map (fun i => vsub (nth i (vol_atoms vol) v0) (nth t (vol_atoms vol) v0)) nn)) as [|x xs] eqn:EM; [discriminate|].
    destruct (existsb (fun r => Reqb r 0) (x :: xs)) eqn:EX; [discriminate|]. rewrite <- EM in EX. apply Forall_forall. intros k Hk E.
    assert (T : existsb (fun r => Reqb r 0) (map norm (map (fun i => vsub (nth i (vol_atoms vol) v0) (nth t (vol_atoms vol) v0)) nn)) = true).
    { apply existsb_exists. exists 0. split; [|apply Reqb_iff; reflexivity]. rewrite map_map. apply in_map_iff. exists k. split; [|exact Hk]. rewrite E.
      replace (vsub (nth t (vol_atoms vol) v0) (nth t (vol_atoms vol) v0)) with v0 by (symmetry; generalize (nth t (vol_atoms vol) v0); vring).
      unfold norm. replace (dot v0 v0) with 0 by vring. apply sqrt_0. }
    congruence. }
  destruct (C138_weights (vol_atoms vol) t nn NE ND) as (vecs & dmin & E & L & MP & LV & W). fold far in L, W. rewrite Ha2 in E. injection E as ->.
  assert (UN : norm normal = 1).
  { destruct (margin_loop_unit vecs) with (seqs := seqs) (best := 0) (j := 10%nat) (w0 := @None vec) (r := Some normal) as (u & EU & UU); auto.
    - intros ->. destruct nn; [congruence|discriminate].
    - apply Forall_forall. intros v Hv. apply In_nth_error in Hv as (k & Hk).
      assert (KL : (k < length nn)%nat) by (rewrite <- LV; apply nth_error_Some; congruence).
      destruct (nth_error nn k) as [j|] eqn:Ej; [|apply nth_error_None in Ej; lia].
      destruct (W k j Ej) as (v' & Ev & _ & NV & N1). rewrite Hk in Ev. injection Ev as <-. split; [exact N1|].
      intros EG. destruct L as [L _]. apply in_map_iff in L as (i0 & E0 & Hi0). assert (Hj : In j nn) by (eapply nth_error_In; eauto).
      specialize (FAR j i0 Hj Hi0). rewrite E0 in FAR.
      assert (FJ : 0 < far j). { unfold far, dist. pose proof (norm_pos (vsub (nth j (vol_atoms vol) v0) (nth t (vol_atoms vol) v0))) as PP.
        destruct (Req_EM_T (norm (vsub (nth j (vol_atoms vol) v0) (nth t (vol_atoms vol) v0))) 0) as [Z0|]; [|lra]. apply norm_zero in Z0. exfalso.
        rewrite Forall_forall in ND. apply (ND j Hj). apply vec_eq; [apply (f_equal vx) in Z0|apply (f_equal vy) in Z0|apply (f_equal vz) in Z0]; cbn in *; lra. }
      assert (G : / 10 ^ 9 <= norm v). { rewrite NV. apply Rmult_le_reg_r with (far j); [lra|]. unfold Rdiv. rewrite Rmult_assoc, Rinv_l by lra. lra. }
      assert (G2 : norm v * norm v = 3 * (/ 10 ^ 10 * / 10 ^ 10)). { rewrite EG, norm_sq. unfold guess. vunfold. cbn [vx vy vz]. ring. }
      assert (0 < / 10 ^ 9) by (apply Rinv_0_lt_compat; lra). assert (G3 : / 10 ^ 9 * / 10 ^ 9 <= norm v * norm v) by nra. rewrite G2 in G3. lra.
    - rewrite LV. exact C.
    - discriminate.
    - injection EU as ->. exact UU. }
  unfold dist. replace (vsub (vadd (nth t (vol_atoms vol) v0) (vscale bl normal)) (nth t (vol_atoms vol) v0)) with (vscale bl normal)
    by (symmetry; generalize (nth t (vol_atoms vol) v0); clear; revert bl normal; vring).
  rewrite norm_scale, UN. ring.
Qed.

(** a target at the origin with neighbours on the axes *)
Definition ex_vecs : list vec := [mkV 1 0 0; mkV 0 1 0; mkV 0 0 1].
Lemma ex_run : exists W, (forall best, best <= 0 -> find_approximate_normal ex_vecs (95 / 100) (/ 10 ^ 4) best [0; 1; 2]%nat = Ok (Some W)) /\
  vx W < 0 /\ vy W < 0 /\ vz W < 0.
Proof.
  set (g := / 10 ^ 10). assert (G : 0 < g < 1 / 2) by (unfold g; split; [apply Rinv_0_lt_compat; lra|lra]).
  set (u1 := vsub w_init (vscale ((95 / 100) ^ 0) (mkV 1 0 0))). set (w1 := vscale (/ norm u1) u1).
  set (u2 := vsub w1 (vscale ((95 / 100) ^ 1) (mkV 0 1 0))). set (w2 := vscale (/ norm u2) u2).
  set (u3 := vsub w2 (vscale ((95 / 100) ^ 2) (mkV 0 0 1))). set (w3 := vscale (/ norm u3) u3).
  assert (NP : forall u, vx u <> 0 -> 0 < norm u).
  { intros u U. pose proof (norm_pos u). destruct (Req_EM_T (norm u) 0) as [E|]; [|lra]. apply norm_zero in E. rewrite E in U. cbn in U. lra. }
  assert (X1 : vx u1 = g - 1 /\ vy u1 = g /\ vz u1 = g) by (unfold u1, w_init, g; cbn; repeat split; lra). destruct X1 as (X1 & Y1 & Z1).
  assert (N1 : 0 < norm u1) by (apply NP; lra). assert (I1 : 0 < / norm u1) by (apply Rinv_0_lt_compat; exact N1).
  assert (X1' : vx w1 < 0 /\ 0 < vy w1 /\ 0 < vz w1). { change (vx w1) with (/ norm u1 * vx u1); change (vy w1) with (/ norm u1 * vy u1); change (vz w1) with (/ norm u1 * vz u1). rewrite X1, Y1, Z1. repeat split; nra. } destruct X1' as (A1 & B1 & C1).
  assert (U1 : vy w1 <= / 2).
  { change (vy w1) with (/ norm u1 * vy u1). rewrite Y1. apply Rmult_le_reg_l with (norm u1); [lra|]. rewrite <- Rmult_assoc, Rinv_r, Rmult_1_l by lra.
    assert (1 - g <= norm u1). { rewrite <- (Rabs_pos_eq (1 - g)) by lra. unfold norm. rewrite <- sqrt_Rsqr_abs. apply sqrt_le_1_alt. unfold dot, Rsqr. rewrite X1, Y1, Z1. nra. }
    assert (4 * g < 1) by (unfold g; lra). lra. }
  assert (X2 : vx u2 < 0 /\ vy u2 < 0 /\ 0 < vz u2) by (change (vx u2) with (vx w1 - (95 / 100) ^ 1 * 0); change (vy u2) with (vy w1 - (95 / 100) ^ 1 * 1); change (vz u2) with (vz w1 - (95 / 100) ^ 1 * 0); repeat split; lra). destruct X2 as (X2 & Y2 & Z2).
  assert (N2 : 0 < norm u2) by (apply NP; lra). assert (I2 : 0 < / norm u2) by (apply Rinv_0_lt_compat; exact N2).
  assert (X2' : vx w2 < 0 /\ vy w2 < 0 /\ 0 < vz w2). { change (vx w2) with (/ norm u2 * vx u2); change (vy w2) with (/ norm u2 * vy u2); change (vz w2) with (/ norm u2 * vz u2). repeat split; nra. } destruct X2' as (A2 & B2 & C2).
  assert (U2 : vz w2 <= / 2).
  { change (vz w2) with (/ norm u2 * vz u2). apply Rmult_le_reg_l with (norm u2); [lra|]. rewrite <- Rmult_assoc, Rinv_r, Rmult_1_l by lra.
    replace (vz u2) with (vz w1) by (change (vz u2) with (vz w1 - (95 / 100) ^ 1 * 0); lra).
    assert (V : - vx w1 <= norm u2). { rewrite <- (Rabs_pos_eq (- vx w1)) by lra. unfold norm. rewrite <- sqrt_Rsqr_abs. apply sqrt_le_1_alt.
      unfold dot, Rsqr. replace (vx u2) with (vx w1) by (change (vx u2) with (vx w1 - (95 / 100) ^ 1 * 0); lra). nra. }
    assert (V2 : 4 * vz w1 <= - vx w1). { change (vx w1) with (/ norm u1 * vx u1); change (vz w1) with (/ norm u1 * vz u1). rewrite X1, Z1. assert (4 * g < 1 - g) by (unfold g; lra). nra. } nra. }
  assert (X3 : vx u3 < 0 /\ vy u3 < 0 /\ vz u3 < 0) by (change (vx u3) with (vx w2 - (95 / 100) ^ 2 * 0); change (vy u3) with (vy w2 - (95 / 100) ^ 2 * 0); change (vz u3) with (vz w2 - (95 / 100) ^ 2 * 1); repeat split; lra). destruct X3 as (X3 & Y3 & Z3).
  assert (N3 : 0 < norm u3) by (apply NP; lra). assert (I3 : 0 < / norm u3) by (apply Rinv_0_lt_compat; exact N3).
  exists w3. split; [|change (vx w3) with (/ norm u3 * vx u3); change (vy w3) with (/ norm u3 * vy u3); change (vz w3) with (/ norm u3 * vz u3); repeat split; nra].
  intros best HB. unfold find_approximate_normal, normal_loop, ex_vecs. cbn [nth]. unfold normal_update.
  rewrite (proj2 (Rleb_iff best (dot w_init (mkV 1 0 0)))) by (unfold dot, w_init; cbn [vx vy vz]; fold g; lra). fold u1.
  rewrite (proj2 (Reqb_false (norm u1) 0)) by lra. fold w1. cbn [stop_now length Nat.ltb Nat.leb andb].
  rewrite (proj2 (Rleb_iff best (dot w1 (mkV 0 1 0)))) by (unfold dot; cbn [vx vy vz]; lra). fold u2.
  rewrite (proj2 (Reqb_false (norm u2) 0)) by lra. fold w2. cbn [stop_now length Nat.ltb Nat.leb andb].
  rewrite (proj2 (Rleb_iff best (dot w2 (mkV 0 0 1)))) by (unfold dot; cbn [vx vy vz]; lra). fold u3.
  rewrite (proj2 (Reqb_false (norm u3) 0)) by lra. fold w3. reflexivity.
Qed.
Lemma ex_margin : exists W, margin_loop ex_vecs (repeat [0; 1; 2]%nat 11) 0 10 None = Ok (Some W) /\ vx W < 0 /\ vy W < 0 /\ vz W < 0.
Proof.
  destruct ex_run as (W & R & NX & NY & NZ). exists W. split; [|auto].
  assert (M : max_margin W ex_vecs < 0).
  { destruct (max_margin_greatest W ex_vecs) as [G _]; [discriminate|]. cbn [ex_vecs map In] in G.
    assert (D1 : dot W (mkV 1 0 0) = vx W) by (destruct W; vunfold; cbn; ring). assert (D2 : dot W (mkV 0 1 0) = vy W) by (destruct W; vunfold; cbn; ring).
    assert (D3 : dot W (mkV 0 0 1) = vz W) by (destruct W; vunfold; cbn; ring). rewrite D1, D2, D3 in G. destruct G as [<-|[<-|[<-|[]]]]; lra. }
  assert (S : forall j, margin_loop ex_vecs (repeat [0; 1; 2]%nat j) (max_margin W ex_vecs) j (Some W) = Ok (Some W)).
  { induction j as [|j IH]; [reflexivity|]. cbn [repeat margin_loop]. rewrite R by lra. cbn [bind].
    rewrite (proj2 (Rltb_false _ _)) by lra. exact IH. }
  change (repeat [0; 1; 2]%nat 11) with ([0; 1; 2]%nat :: repeat [0; 1; 2]%nat 10). cbn [margin_loop]. rewrite R by lra. cbn [bind].
  rewrite (proj2 (Rltb_iff _ _)) by lra. exact (S 10%nat).
Qed.
Definition ex_vol : volume :=
  VLeaf (mkLeaf PNone None None [] None 0%Z 0 (Some ([v0; mkV 1 0 0; mkV 0 1 0; mkV 0 0 1], [6; 6; 6; 6]%Z))).
Definition ex_alpha : shape := mkShape [0; 1; 2; 3]%nat (mkTri [[0; 1; 2; 3]%nat] []) [true] [true].
Example C138_nonvacuous : forall wd bl rot, exists mvec t r, 
  add_adsorbate wd ex_vol ex_alpha 0 (repeat [0; 1; 2]%nat 11) ex_mol (PInt 1) bl mvec rot [] 1 true = Ok (t, r) /\
  get_nearest_neighbors t ex_alpha 1 true = Ok [1; 2; 3]%nat /\ Forall (covers 3) (repeat [0; 1; 2]%nat 11) /\
  (forall i j, In i [1; 2; 3]%nat -> In j [1; 2; 3]%nat ->
     dist (nth i (vol_atoms ex_vol) v0) (nth t (vol_atoms ex_vol) v0) <= 10 ^ 9 * dist (nth j (vol_atoms ex_vol) v0) (nth t (vol_atoms ex_vol) v0)).
Proof.
  intros wd bl rot. destruct ex_margin as (W & EM & NX & NY & NZ).
  assert (D : forall i, In i [1; 2; 3]%nat -> dist (nth i (vol_atoms ex_vol) v0) v0 = 1).
  { intros i Hi. unfold dist, norm. replace (dot _ _) with 1; [apply sqrt_1|]. destruct Hi as [<-|[<-|[<-|[]]]]; vunfold; cbn; ring. }
  assert (NV : neighbor_vectors (vol_atoms ex_vol) 0 [1; 2; 3]%nat = Ok ex_vecs).
  { destruct (C138_weights (vol_atoms ex_vol) 0 [1; 2; 3]%nat) as (vecs & dmin & E & [L _] & _ & LV & Q); [discriminate| |].
    - repeat constructor; cbn; intros Z; inversion Z; lra.
    - rewrite E. f_equal. change (nth 0 (vol_atoms ex_vol) v0) with v0 in *.
      apply in_map_iff in L as (i & L & Hi). rewrite (D i Hi) in L. subst dmin.
      destruct vecs as [|a [|b [|c [|]]]]; try discriminate LV.
      destruct (Q 0%nat 1%nat eq_refl) as (a' & EA & VA & _ & _). destruct (Q 1%nat 2%nat eq_refl) as (b' & EB & VB & _ & _). destruct (Q 2%nat 3%nat eq_refl) as (c' & EC & VC & _ & _).
      cbn in EA, EB, EC. injection EA as <-. injection EB as <-. injection EC as <-.
      assert (U : forall i, In i [1; 2; 3]%nat -> vscale (1 / dist (nth i (vol_atoms ex_vol) v0) v0) (unit_vec (vsub (nth i (vol_atoms ex_vol) v0) v0)) = nth i (vol_atoms ex_vol) v0).
      { intros k Hk. unfold unit_vec. change (norm (vsub (nth k (vol_atoms ex_vol) v0) v0)) with (dist (nth k (vol_atoms ex_vol) v0) v0). rewrite (D k Hk).
        generalize (nth k (vol_atoms ex_vol) v0). intros [x y z]. unfold v0. apply vec_eq; cbn; field. }
      rewrite VA, VB, VC. rewrite !U by (cbn; auto). reflexivity. }
  assert (NW : norm W <> 0). { intros E. apply norm_zero in E. rewrite E in NX. cbn in NX. lra. }
  set (mvec := mkV (vy W) (- vx W) 0).
  assert (MV : mv (m_orient ex_mol) mvec = mvec) by (change (m_orient ex_mol) with mI; clearbody mvec; revert mvec; vring).
  assert (NM : norm mvec <> 0). { intros E. apply norm_zero in E. unfold mvec, v0 in E. inversion E. lra. }
  assert (DT : dot mvec W = 0) by (unfold mvec, dot; cbn; ring).
  destruct (C65_placement_succeeds wd ex_vol ex_mol 1 bl mvec rot v0 W) as (r & ER).
  { exact (proj1 C65_nonvacuous). }
  { exact (proj1 (proj2 C65_nonvacuous)). }
  { rewrite MV. exact NM. }
  { exact NW. }
  { rewrite MV, DT. replace (0 / (norm mvec * norm W)) with 0 by (field; auto). rewrite acos_0. pose proof PI_RGT_0. pose proof PI2_3_2. unfold eps. lra. }
  exists mvec, 0%nat, r. split; [|split; [vm_compute; reflexivity|]].
  - unfold add_adsorbate. assert (CA : candidates (vol_atoms ex_vol) (vol_species ex_vol) (sh_points ex_alpha) [] = Ok [0; 1; 2; 3]%nat) by (vm_compute; reflexivity).
    rewrite CA. cbn [bind nth_error]. assert (GN : get_nearest_neighbors 0 ex_alpha 1 true = Ok [1; 2; 3]%nat) by (vm_compute; reflexivity).
    rewrite GN. cbn [bind]. rewrite NV. cbn [bind]. rewrite EM. cbn [bind]. change (nth 0 (vol_atoms ex_vol) v0) with v0. rewrite ER. reflexivity.
  - split.
    + apply Forall_forall. intros s Hs. apply repeat_spec in Hs. subst. intros k. cbn. lia.
    + intros i j Hi Hj. change (nth 0 (vol_atoms ex_vol) v0) with v0. rewrite !D by assumption. lra.
Qed.

(** C139.  The neighbours (-1,0,0) and (3/5,-4/5,0) lie behind the plane with normal (3/5,4/5,0),
    and the first run finds a direction that has both of them behind it; but the normal returned
    has the first neighbour in front of it.  Every run draws both, and may be
    as long as one likes. *)
Definition two_vecs : list vec := [mkV (-1) 0 0; mkV (3 / 5) (- (4 / 5)) 0].
Lemma loop_still points decay tol margin k wl : stop_now tol wl = false -> forall n w j, dot w (nth k points v0) < margin ->
  normal_loop points decay tol margin (repeat k (S n)) (Some w) j wl = Ok (Some w).
Proof.
  intros ST. induction n as [|n IH]; intros w j H.
  - cbn [repeat normal_loop normal_update]. rewrite (proj2 (Rleb_false _ _) H), ST. reflexivity.
  - change (repeat k (S (S n))) with (k :: repeat k (S n)). cbn [normal_loop normal_update]. rewrite (proj2 (Rleb_false _ _) H), ST.
    change (repeat k (S n)) with (k :: repeat k n) at 1. cbv iota. apply IH. exact H.
Qed.
Theorem C139_points_away_refuted : forall n, exists w b first,
  Forall (fun x => dot (mkV (3 / 5) (4 / 5) 0) x < 0) two_vecs /\ Forall (fun x => norm x = 1) two_vecs /\
  (let seqs := repeat (0 :: 1 :: repeat 1 n)%nat 11 in
   Forall (covers 2) seqs /\ Forall (fun s => length s = n + 2)%nat seqs /\
   margin_loop two_vecs seqs 0 10 None = Ok (Some w) /\
   find_approximate_normal two_vecs (95 / 100) (/ 10 ^ 4) 0 (hd [] seqs) = Ok (Some first)) /\
  Forall (fun x => dot first x < 0) two_vecs /\ In b two_vecs /\ 0 < dot w b.
Proof.
  intros n. set (g := / 10 ^ 10). assert (G : 0 < g < / 10) by (unfold g; split; [apply Rinv_0_lt_compat; lra|lra]).
  set (b1 := mkV (-1) 0 0). set (b2 := mkV (3 / 5) (- (4 / 5)) 0). set (u := mkV (g - 3 / 5) (g + 4 / 5) g).
  assert (NU : 0 < norm u). { pose proof (norm_pos u). destruct (Req_EM_T (norm u) 0) as [E|]; [|lra]. apply norm_zero in E. unfold u, v0 in E. inversion E. lra. }
  assert (IU : 0 < / norm u) by (apply Rinv_0_lt_compat; exact NU).
  assert (NU2 : norm u <= 2).
  { unfold norm. replace 2 with (sqrt (2 * 2)) by (apply sqrt_square; lra). apply sqrt_le_1_alt. unfold dot, u. cbn [vx vy vz]. nra. }
  assert (GB1 : dot w_init b1 = - g) by (unfold dot, w_init, b1, g; cbn [vx vy vz]; ring).
  assert (GB2 : dot w_init b2 = - (g / 5)) by (unfold dot, w_init, b2, g; cbn [vx vy vz]; field).
  set (W := vscale (/ norm u) u).
  assert (WB1 : dot W b1 = / norm u * (3 / 5 - g)) by (unfold W, u, b1, dot, vscale; cbn [vx vy vz]; ring).
  assert (WB2 : dot W b2 = / norm u * (- (g / 5) - 1)) by (unfold W; generalize (/ norm u); intros k; unfold u, b2, dot, vscale; cbn [vx vy vz]; field).
  assert (P1 : 0 < dot W b1) by (rewrite WB1; nra).
  assert (P2 : dot W b2 < - (g / 5)). { rewrite WB2. apply Rmult_lt_reg_l with (norm u); [lra|]. rewrite <- Rmult_assoc, Rinv_r, Rmult_1_l by lra. nra. }
  assert (R0 : find_approximate_normal two_vecs (95 / 100) (/ 10 ^ 4) 0 (0 :: 1 :: repeat 1 n)%nat = Ok (Some w_init)).
  { apply loop_idle; [discriminate|]. constructor; [|constructor; [|apply Forall_forall; intros k Hk; apply repeat_spec in Hk; subst]]; cbn [nth two_vecs]; fold b1 b2; lra. }
  assert (MX : forall x, max_margin x two_vecs = Rmax (dot x b1) (dot x b2)) by reflexivity.
  assert (M0 : max_margin w_init two_vecs = - (g / 5)) by (rewrite MX, GB1, GB2; apply Rmax_right; lra).
  assert (R1 : find_approximate_normal two_vecs (95 / 100) (/ 10 ^ 4) (- (g / 5)) (0 :: 1 :: repeat 1 n)%nat = Ok (Some W)).
  { unfold find_approximate_normal. cbn [normal_loop normal_update nth two_vecs]. fold b1 b2.
    rewrite (proj2 (Rleb_false _ _)) by lra. cbv beta iota. rewrite stop_nil. cbn [normal_update]. rewrite (proj2 (Rleb_iff _ _)) by lra.
    replace (vsub w_init (vscale ((95 / 100) ^ 0) b2)) with u by (unfold u, w_init, b2, g; apply vec_eq; cbn; ring).
    rewrite (proj2 (Reqb_false _ _)) by lra. fold W. set (d := Some _).
    replace (stop_now (/ 10 ^ 4) [d]) with false by reflexivity.
    destruct n as [|n]; [reflexivity|]. change (repeat 1%nat (S n)) with (1%nat :: repeat 1%nat n) at 1. cbv iota.
    apply (loop_still two_vecs (95 / 100) (/ 10 ^ 4) (- (g / 5)) 1 [d] eq_refl n W). exact P2. }
  assert (S : forall j, margin_loop two_vecs (repeat (0 :: 1 :: repeat 1 n)%nat j) (- (g / 5)) j (Some W) = Ok (Some W)).
  { induction j as [|j IH]; [reflexivity|]. change (repeat (0 :: 1 :: repeat 1 n)%nat (S j)) with ((0 :: 1 :: repeat 1 n)%nat :: repeat (0 :: 1 :: repeat 1 n)%nat j). cbn [margin_loop]. rewrite R1. cbn [bind].
    rewrite (proj2 (Rltb_false _ _)); [exact IH|]. rewrite MX. pose proof (Rmax_l (dot W b1) (dot W b2)). lra. }
  exists W, b1, w_init. split; [|split; [|split; [|split; [|split]]]].
  - repeat constructor; vunfold; cbn [vx vy vz]; lra.
  - repeat constructor; unfold norm; rewrite <- sqrt_1; f_equal; vunfold; cbn [vx vy vz]; field.
  - cbn zeta. split; [|split; [|split]].
    + apply Forall_forall. intros s Hs. apply repeat_spec in Hs. subst. intros k. split.
      * intros [<-|[<-|Hk]]; [lia|lia|]. apply repeat_spec in Hk. lia.
      * intros Hk. destruct k as [|[|k]]; [left; reflexivity|right; left; reflexivity|lia].
    + apply Forall_forall. intros s Hs. apply repeat_spec in Hs. subst. cbn [length]. rewrite repeat_length. lia.
    + change (repeat (0 :: 1 :: repeat 1 n)%nat 11) with ((0 :: 1 :: repeat 1 n)%nat :: repeat (0 :: 1 :: repeat 1 n)%nat 10). cbn [margin_loop].
      rewrite R0. cbn [bind]. rewrite M0. rewrite (proj2 (Rltb_iff _ _)) by lra. exact (S 10%nat).
    + exact R0.
  - constructor; [fold b1; lra|]. constructor; [fold b2; lra|constructor].
  - left. reflexivity.
  - exact P1.
Qed.

(** What remains: the normal is that of the last of ten runs in a row, none of which has all
    neighbours farther behind than the best normal found so far (or behind at all, if none was
    found). *)
Definition misses (vecs : list vec) (best : R) (s : list nat) : Prop :=
  exists r, find_approximate_normal vecs (95 / 100) (/ 10 ^ 4) best s = Ok r /\
    forall w, r = Some w -> exists b, In b vecs /\ best <= dot w b.
Definition reaches (vecs : list vec) (runs : list (list nat)) (best : R) : Prop :=
  exists s before w, In s runs /\ find_approximate_normal vecs (95 / 100) (/ 10 ^ 4) before s = Ok (Some w) /\ greatest (map (dot w) vecs) best.
Lemma margin_loop_tail vecs : vecs <> [] -> forall seqs best j w0 r, margin_loop vecs seqs best j w0 = Ok r ->
  (exists run rest, seqs = run ++ rest /\ length run = j /\ Forall (misses vecs best) run /\ (j = 0%nat -> r = w0) /\
     (j <> 0%nat -> find_approximate_normal vecs (95 / 100) (/ 10 ^ 4) best (last run []) = Ok r)) \/
  (exists before ten rest best', seqs = before ++ ten ++ rest /\ length ten = 10%nat /\ best' < best /\ reaches vecs before best' /\
     Forall (misses vecs best') ten /\ find_approximate_normal vecs (95 / 100) (/ 10 ^ 4) best' (last ten []) = Ok r).
Proof.
  intros NE. induction seqs as [|s seqs IH]; intros best j w0 r H.
  - destruct j; cbn in H; [|discriminate]. injection H as <-. left. exists [], []. repeat split; auto. congruence.
  - destruct j as [|j]; cbn [margin_loop] in H; [injection H as <-; left; exists [], (s :: seqs); repeat split; auto; congruence|].
    destruct (find_approximate_normal vecs (95 / 100) (/ 10 ^ 4) best s) as [w|] eqn:E; [|discriminate]. cbn [bind] in H.
    assert (ST : misses vecs best s -> margin_loop vecs seqs best j w = Ok r ->
      (exists run rest, s :: seqs = run ++ rest /\ length run = S j /\ Forall (misses vecs best) run /\ (S j = 0%nat -> r = w0) /\
         (S j <> 0%nat -> find_approximate_normal vecs (95 / 100) (/ 10 ^ 4) best (last run []) = Ok r)) \/
      (exists before ten rest best', s :: seqs = before ++ ten ++ rest /\ length ten = 10%nat /\ best' < best /\ reaches vecs before best' /\
         Forall (misses vecs best') ten /\ find_approximate_normal vecs (95 / 100) (/ 10 ^ 4) best' (last ten []) = Ok r)).
    { intros M Q. apply IH in Q as [(run & rest & E1 & L & F & Z & NZ)|(before & ten & rest & best' & E1 & L & B & (s' & q & w' & I & Fw & G) & F & Rr)].
      - left. exists (s :: run), rest. split; [rewrite E1; reflexivity|]. split; [cbn; congruence|]. split; [constructor; assumption|]. split; [discriminate|]. intros _.
        destruct run as [|a run]; [cbn in L; subst j; cbn; rewrite (Z eq_refl); exact E|]. change (last (s :: a :: run) []) with (last (a :: run) []). apply NZ. subst j. discriminate.
      - right. exists (s :: before), ten, rest, best'. split; [rewrite E1; reflexivity|]. repeat split; auto. exists s', q, w'. split; [right; exact I|]. auto. }
    destruct w as [wv|].
    + destruct (Rltb (max_margin wv vecs) best) eqn:B.
      * apply Rltb_iff in B. right. assert (G := max_margin_greatest wv vecs NE).
        apply IH in H as [(run & rest & E1 & L & F & Z & NZ)|(before & ten & rest & best' & E1 & L & B' & (s' & q & w' & I & Fw & G') & F & Rr)].
        -- exists [s], run, rest, (max_margin wv vecs). split; [rewrite E1; reflexivity|]. split; [exact L|]. split; [exact B|]. split; [exists s, best, wv; cbn; auto|]. split; [exact F|]. apply NZ. discriminate.
        -- exists (s :: before), ten, rest, best'. split; [rewrite E1; reflexivity|]. split; [exact L|]. split; [lra|]. split; [exists s', q, w'; cbn; auto|]. auto.
      * apply Rltb_false in B. apply ST; [|exact H]. exists (Some wv). split; [exact E|]. intros w [= <-].
        destruct (max_margin_greatest wv vecs NE) as [G _]. apply in_map_iff in G as (b & Eb & Hb). exists b. split; [exact Hb|]. lra.
    + apply ST; [|exact H]. exists None. split; [exact E|]. discriminate.
Qed.
Theorem C139_last_of_ten_partial : forall vecs seqs w, vecs <> [] -> margin_loop vecs seqs 0 10 None = Ok (Some w) ->
  exists before ten rest best, seqs = before ++ ten ++ rest /\ length ten = 10%nat /\
    ((best = 0 /\ before = []) \/ (best < 0 /\ reaches vecs before best)) /\
    Forall (misses vecs best) ten /\
    find_approximate_normal vecs (95 / 100) (/ 10 ^ 4) best (last ten []) = Ok (Some w) /\
    exists b, In b vecs /\ best <= dot w b.
Proof.
  intros vecs seqs w NE H.
  assert (K : forall best ten, length ten = 10%nat -> Forall (misses vecs best) ten -> find_approximate_normal vecs (95 / 100) (/ 10 ^ 4) best (last ten []) = Ok (Some w) ->
    exists b, In b vecs /\ best <= dot w b).
  { intros best ten L F E. assert (I : In (last ten []) ten).
    { clear -L. induction ten as [|a [|b t] IH]; [discriminate|left; reflexivity|]. right. clear IH L. revert b. induction t as [|c t IH]; intros b; [left; reflexivity|]. right. apply IH. }
    rewrite Forall_forall in F. destruct (F _ I) as (r & E' & Q). apply Q. congruence. }
  apply (margin_loop_tail vecs NE) in H as [(run & rest & E1 & L & F & _ & NZ)|(before & ten & rest & best' & E1 & L & B & R' & F & Rr)].
  - specialize (NZ ltac:(discriminate)). exists [], run, rest, 0. split; [exact E1|]. split; [exact L|]. split; [left; auto|]. split; [exact F|]. split; [exact NZ|]. eapply K; eauto.
  - exists before, ten, rest, best'. split; [exact E1|]. split; [exact L|]. split; [right; auto|]. split; [exact F|]. split; [exact Rr|]. eapply K; eauto.
Qed.
Example C139_nonvacuous : exists w, margin_loop ex_vecs (repeat [0; 1; 2]%nat 11) 0 10 None = Ok (Some w) /\ ex_vecs <> [].
Proof. destruct ex_margin as (w & E & _). exists w. split; [exact E|discriminate]. Qed.
