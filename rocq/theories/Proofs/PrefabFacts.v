(** Facts about the defect prefabs. *)
From Coq Require Import Reals List ZArith Bool Lra Lia.
From Verif.Model Require Import Base Vec Algebraic Transform Voxel Generator Volume Misc Snap Prefab.
From Verif.Spec Require Import Geometry.
From Verif.Proofs Require Import VecFacts AlgFacts VolumeFacts VolTransFacts.
Import ListNotations.
Open Scope R_scope.

Lemma foldM_app {A St} (f : St -> A -> res St) l l' s : foldM f (l ++ l') s = (s' <- foldM f l s ;; foldM f l' s').
Proof. revert s. induction l as [|a l IH]; intros s; cbn [foldM app bind]; auto. destruct (f s a); cbn [bind]; auto. Qed.
Lemma zrange_S n : zrange 0 (Z.of_nat (S n)) = zrange 0 (Z.of_nat n) ++ [Z.of_nat n].
Proof.
  unfold zrange. rewrite !Z.sub_0_r, !Nat2Z.id, seq_S, map_app. cbn. f_equal.
Qed.
Lemma py_get_pos {A} (l : list A) i x : (0 <= i)%Z -> py_get l i = Ok x <-> nth_error l (Z.to_nat i) = Some x.
Proof.
  intros H. unfold py_get. rewrite (proj2 (Z.ltb_ge i 0)) by lia. rewrite (proj2 (Z.ltb_ge i 0)) by lia. cbn [orb].
  destruct (Z.leb_spec (Z.of_nat (length l)) i) as [L|L].
  - rewrite (proj2 (nth_error_None l (Z.to_nat i))) by lia. split; discriminate.
  - destruct (nth_error l (Z.to_nat i)); split; congruence.
Qed.

(** the copy made by from_volume(generator=g) *)
Lemma first_points w t p : (let '(l, r) := add_points w (empty_leaf t) (A2 p) in rmap (fun _ => l) r) =
  if Nat.leb (length p) 3 then Err AssertionError
  else if w_qhull w p then Ok (with_hull (with_points (empty_leaf t) (PArr p)) (Some p) (Some p)) else Err ValueError.
Proof. unfold add_points, createHull. cbn. destruct (length p) as [|[|[|[|?]]]]; auto. cbn. destruct (w_qhull w p); reflexivity. Qed.
Lemma leaf_copy w host g l : leaf_from_volume w host (Some g) [] = Ok l ->
  l_alg l = l_alg host /\ l_prio l = l_prio host /\ l_gen l = Some g /\ l_tol l = default_vtol /\ l_points l = l_points host /\
  l_tri l = match l_points host with PArr p => Some p | _ => None end.
Proof.
  intros H. unfold leaf_from_volume in H. inv_bind H. inv_bind H. cbn [foldM] in H. injection H as <-.
  assert (E : a0 = with_gen a (Some g)) by (destruct g; cbn [add_generator] in Ha0; congruence). subst a0. clear Ha0.
  destruct (l_points host) as [|pp|] eqn:P; [| |discriminate]; unfold new_volume in Ha.
  - cbn [bind] in Ha. injection Ha as <-. cbn. auto 10.
  - rewrite first_points in Ha. destruct (Nat.leb (length pp) 3); [discriminate|]. destruct (w_qhull w pp); [|discriminate].
    cbn [bind] in Ha. injection Ha as <-. cbn. auto 10.
Qed.
Lemma leaf_copy_total w host g : (l_points host = PNone \/ exists p, l_points host = PArr p /\ (3 < length p)%nat /\ w_qhull w p = true) ->
  exists l, leaf_from_volume w host (Some g) [] = Ok l.
Proof.
  intros H. unfold leaf_from_volume.
  assert (A : forall l, add_generator l g None = Ok (with_gen l (Some g))) by (intros; destruct g; reflexivity).
  destruct H as [->|(p & -> & L & Q)]; unfold new_volume.
  - cbn [bind]. rewrite A. cbn [bind foldM]. eauto.
  - rewrite first_points, (proj2 (Nat.leb_gt (length p) 3)) by lia. rewrite Q. cbn [bind]. rewrite A. cbn [bind foldM]. eauto.
Qed.

(** evenly spaced parallel planes *)
Definition level (n : vec) (pt : vec) (d : R) (k : nat) : plane := mkPlane n (vadd pt (vscale (INR k * d) n)) default_tol.
Lemma default_tol_pos : 0 < default_tol. Proof. unfold default_tol. lra. Qed.
Lemma new_plane_unit n p : norm n = 1 -> new_plane n p default_tol = Ok (mkPlane n p default_tol).
Proof. intros H. unfold new_plane. rewrite check_unit by auto. cbn [bind]. rewrite (proj2 (check_tol_Ok _ _) (conj default_tol_pos eq_refl)). reflexivity. Qed.
Lemma stack_planes_levels n d : norm n = 1 -> forall m pt pl0, p_point pl0 = pt -> p_normal pl0 = n -> p_tol pl0 = default_tol ->
  exists rest, stack_planes m n d pt = Ok rest /\ pl0 :: rest = map (level n pt d) (seq 0 (S m)).
Proof.
  intros U. assert (G : forall m k pt, stack_planes m n d (vadd pt (vscale (INR k * d) n)) = Ok (map (level n pt d) (seq (S k) m))).
  { induction m as [|m IH]; intros k pt; cbn [stack_planes seq map]; auto. cbv zeta. rewrite new_plane_unit by auto. cbn [bind].
    replace (vadd (vadd pt (vscale (INR k * d) n)) (vscale d n)) with (vadd pt (vscale (INR (S k) * d) n)) by (rewrite S_INR; vring).
    rewrite (IH (S k)). cbn [bind]. reflexivity. }
  intros m pt [n0 p0 t0] E1 E2 E3. cbn in E1, E2, E3. subst. exists (map (level n pt d) (seq 1 m)). split.
  - rewrite <- (G m 0%nat). f_equal. cbn [INR]. vring.
  - cbn [seq map]. f_equal. unfold level. f_equal. cbn [INR]. vring.
Qed.
Lemma snap_plane_form pt g h m pl : snap_plane pt g h m = Ok pl -> norm (p_normal pl) = 1 /\ p_tol pl = default_tol /\ vec_of h <> v0.
Proof.
  intros H. destruct h as [[h k] l]. unfold snap_plane in H. inv_bind H. inv_bind H.
  assert (NP : forall a b, new_plane a b default_tol = Ok pl -> norm (p_normal pl) = 1 /\ p_tol pl = default_tol /\ a <> v0).
  { intros u b E. unfold new_plane in E. inv_bind E. inv_bind E. apply check_normal_Ok in Ha1. destruct Ha1 as [L ->]. apply check_tol_Ok in Ha2. destruct Ha2 as [_ ->]. injection E as <-. cbn.
    pose proof eps_pos. split; [apply vscale_inv_unit; lra|]. split; auto. intros ->. rewrite norm_v0 in L. lra. }
  assert (Z0 : forall M u, mv M u <> v0 -> u <> v0). { intros M u N ->. apply N. vring. }
  destruct (g_strain g); inv_bind H; apply NP in H; destruct H as (H1 & H2 & H3); (split; [auto|split; [auto|]]); eapply Z0; exact H3.
Qed.
Lemma d_hkl_pos s h d : d_hkl s h = Ok d -> vec_of h <> v0 -> 0 < d.
Proof.
  unfold d_hkl, inv. intros H N. inv_bind H. injection H as <-. destruct (Reqb (det (st_matrix s)) 0) eqn:E; [discriminate|]. apply Reqb_false in E. injection Ha as <-.
  apply Rinv_0_lt_compat. pose proof (norm_pos (mv (minv (st_matrix s)) (vec_of h))) as P. destruct P as [P|P]; auto. exfalso. apply N.
  symmetry in P. apply norm_zero in P. rewrite <- (mv_minv_r (st_matrix s) (vec_of h) E), P. vring.
Qed.
(** the plane stack: unit normal, positive spacing d_hkl, planes at pt + k d n *)
Lemma plane_stack_levels g h a b planes : plane_stack g h a b = Ok planes ->
  exists n pt d m, norm n = 1 /\ 0 < d /\ d_hkl (g_structure g) h = Ok d /\ planes = map (level n pt d) (seq 0 (S m)).
Proof.
  intros H. unfold plane_stack in H. inv_bind H. inv_bind H. inv_bind H. inv_bind H. injection H as <-.
  destruct (snap_plane_form _ _ _ _ _ Ha) as (U & T & NZ).
  destruct (stack_planes_levels (p_normal a0) a2 U (Z.to_nat (np_round (dist_from_plane a1 (p_point a0) / a2))) (p_point a0) a0) as (rest & E & L); auto.
  rewrite E in Ha2. injection Ha2 as <-. exists (p_normal a0), (p_point a0), a2, (Z.to_nat (np_round (dist_from_plane a1 (p_point a0) / a2))).
  split; auto. split; [eapply d_hkl_pos; eauto|]. auto.
Qed.
Lemma level_interior n pt d k p : plane_interior (level n pt d k) p = Rltb (dot p n - dot (vadd pt (vscale (INR k * d) n)) n) default_tol.
Proof. reflexivity. Qed.

(** the loop *)
Section Loop.
Context (w : world) (host : leaf) {Aux : Type} (step : Aux -> crystal -> plane -> res (Aux * transform)).
Variables (N : Z) (splits : list Z) (planes : list plane).
(** the k-th member after the first one *)
Definition member_ok (k : nat) (gprev : crystal) (aux : Aux) (gk : crystal) (aux' : Aux) (v : volume) : Prop :=
  exists lk s pl t pl', v = VLeaf lk /\ py_get splits (Z.of_nat k) = Ok s /\ py_get planes s = Ok pl /\
    step aux gprev pl = Ok (aux', t) /\ crystal_transform gprev t = Ok gk /\ new_plane (p_normal pl) (p_point pl) default_tol = Ok pl' /\
    l_alg lk = l_alg host ++ [APlane pl'] /\ l_prio lk = (N - (Z.of_nat k + 1))%Z /\ l_gen lk = Some (GCrystal gk) /\
    l_tol lk = default_vtol /\ l_tri lk = match l_points host with PArr p => Some p | _ => None end.
Lemma pass_ok aux gen vols k aux' gen' vols' :
  defect_pass w host step N splits planes (aux, gen, vols) (Z.of_nat k) = Ok (aux', gen', vols') ->
  exists v, vols' = vols ++ [v] /\ member_ok k gen aux gen' aux' v.
Proof.
  intros H. unfold defect_pass in H. inv_bind H. inv_bind H. inv_bind H. inv_bind H. inv_bind H. inv_bind H.
  injection H as <- <- <-. destruct a1 as [ax t]. cbn [fst snd] in *.
  destruct (leaf_copy _ _ _ _ Ha3) as (A & P & G & T & PT & TR).
  eexists. split; [reflexivity|]. eexists. exists a, a0, t, a4. split; [reflexivity|]. split; [auto|]. split; [auto|]. split; [auto|]. split; [auto|]. split; [auto|].
  cbn. rewrite A, G, T, TR. auto 10.
Qed.
(** all members: the list of generators and loop states is explicit *)
Lemma loop_ok aux0 g0 v0 n aux gen vols :
  foldM (defect_pass w host step N splits planes) (zrange 0 (Z.of_nat n)) (aux0, g0, [v0]) = Ok (aux, gen, vols) ->
  exists gens auxs ms, vols = v0 :: ms /\ length ms = n /\ length gens = S n /\ length auxs = S n /\
    nth_error gens 0 = Some g0 /\ nth_error auxs 0 = Some aux0 /\ nth_error gens n = Some gen /\ nth_error auxs n = Some aux /\
    forall k v, nth_error ms k = Some v -> exists gp ap gk ak, nth_error gens k = Some gp /\ nth_error auxs k = Some ap /\
      nth_error gens (S k) = Some gk /\ nth_error auxs (S k) = Some ak /\ member_ok k gp ap gk ak v.
Proof.
  revert aux gen vols. induction n as [|n IH]; intros aux gen vols H.
  - cbn in H. injection H as <- <- <-. exists [g0], [aux0], []. cbn. repeat split; auto. intros [|k] v E; discriminate.
  - rewrite zrange_S, foldM_app in H. inv_bind H. destruct a as [[ax gx] vx]. destruct (IH _ _ _ Ha) as (gens & auxs & ms & -> & L & LG & LA & G0 & A0 & GN & AN & M).
    cbn [foldM bind] in H. inv_bind H. destruct a as [[ax' gx'] vx']. injection H as <- <- <-. apply pass_ok in Ha0. destruct Ha0 as (v & -> & MO).
    exists (gens ++ [gx']), (auxs ++ [ax']), (ms ++ [v]). split; [reflexivity|]. rewrite !app_length. cbn [length].
    split; [lia|]. split; [lia|]. split; [lia|]. split; [rewrite nth_error_app1 by lia; auto|]. split; [rewrite nth_error_app1 by lia; auto|].
    split; [rewrite nth_error_app2 by lia; replace (S n - length gens)%nat with 0%nat by lia; reflexivity|].
    split; [rewrite nth_error_app2 by lia; replace (S n - length auxs)%nat with 0%nat by lia; reflexivity|].
    intros k u E. assert (K : (k < length (ms ++ [v]))%nat) by (apply nth_error_Some; congruence). rewrite app_length in K. cbn in K.
    destruct (Nat.eq_dec k n) as [->|D].
    + rewrite nth_error_app2 in E by lia. replace (n - length ms)%nat with 0%nat in E by lia. injection E as <-.
      exists gx, ax, gx', ax'. rewrite !nth_error_app1 by lia. rewrite !nth_error_app2 by lia. replace (S n - length gens)%nat with 0%nat by lia. replace (S n - length auxs)%nat with 0%nat by lia. auto 10.
    + rewrite nth_error_app1 in E by lia. destruct (M k u E) as (gp & ap & gk & ak & M1 & M2 & M3 & M4 & M5). exists gp, ap, gk, ak. rewrite !nth_error_app1 by lia. auto.
Qed.
End Loop.
