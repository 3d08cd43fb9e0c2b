(** C158: the surface found by the alpha shape functions moves with the cloud of points,
    and does not depend on how points, tetrahedra and vertices are numbered. *)
From Coq Require Import Reals List ZArith Bool Lra Lia Permutation.
From Verif.Model Require Import Base Vec Molecule AlphaShape.
From Verif.Spec Require Import Geometry ComplexSpec.
From Verif.Proofs Require Import VecFacts VolumeFacts.
From Verif.Props Require Import CircumProps SurfaceProps.
Import ListNotations.
Open Scope nat_scope.

(* ---------------- circumscribed spheres ---------------- *)
Lemma dist_dot p q : (dist p q * dist p q = dot (vsub p q) (vsub p q))%R.
Proof. unfold dist, norm. apply sqrt_sqrt, dot_pos. Qed.
Lemma sim_dot k f p0 p q : similarity k f -> (dot (vsub (f p) (f p0)) (vsub (f q) (f p0)) = k * k * dot (vsub p p0) (vsub q p0))%R.
Proof.
  intros [K H].
  assert (P : forall a b c : vec, (2 * dot (vsub b a) (vsub c a) = dist b a * dist b a + dist c a * dist c a - dist b c * dist b c)%R).
  { intros a b c. rewrite !dist_dot. vring. }
  apply (Rmult_eq_reg_l 2); [|lra]. rewrite P, !H.
  replace (2 * (k * k * dot (vsub p p0) (vsub q p0)))%R with (k * k * (2 * dot (vsub p p0) (vsub q p0)))%R by ring. rewrite P. ring.
Qed.
Lemma gram a b c : (dot a (cross b c) * dot a (cross b c) =
  dot a a * (dot b b * dot c c - dot b c * dot b c) - dot a b * (dot a b * dot c c - dot b c * dot a c) + dot a c * (dot a b * dot b c - dot b b * dot a c))%R.
Proof. vring. Qed.
Lemma sim_volume k f p0 p1 p2 p3 : similarity k f -> (volume6 (f p0) (f p1) (f p2) (f p3) = 0 <-> volume6 p0 p1 p2 p3 = 0)%R.
Proof.
  intros S. pose proof S as [K _].
  assert (E : (volume6 (f p0) (f p1) (f p2) (f p3) * volume6 (f p0) (f p1) (f p2) (f p3) = k ^ 6 * (volume6 p0 p1 p2 p3 * volume6 p0 p1 p2 p3))%R).
  { unfold volume6. rewrite !gram, !(sim_dot k f) by auto. ring. }
  assert (K6 : (0 < k ^ 6)%R) by (apply pow_lt; auto). split; intros Z; rewrite Z in E.
  - assert (X : (volume6 p0 p1 p2 p3 * volume6 p0 p1 p2 p3 = 0)%R) by (apply (Rmult_eq_reg_l (k ^ 6)); lra). apply Rmult_integral in X. tauto.
  - assert (X : (volume6 (f p0) (f p1) (f p2) (f p3) * volume6 (f p0) (f p1) (f p2) (f p3) = 0)%R) by lra. apply Rmult_integral in X. tauto.
Qed.
Lemma sim_radius k f l : similarity k f -> radius_of (map f l) = option_map (Rmult k) (radius_of l).
Proof.
  intros S. destruct l as [|p0 [|p1 [|p2 [|p3 [|]]]]]; try reflexivity. cbn [map radius_of].
  destruct (Req_EM_T (volume6 p0 p1 p2 p3) 0) as [Z|Z].
  - rewrite (C63_flat _ _ _ _ Z). apply C63_flat. apply (sim_volume k f); auto.
  - destruct (C63_circumsphere _ _ _ _ Z) as (r & c & E & D & _). rewrite E. cbn [option_map].
    destruct (C63_circumsphere (f p0) (f p1) (f p2) (f p3)) as (r' & c' & E' & _ & U'); [rewrite (sim_volume k f); auto|].
    rewrite E'. destruct (U' (f c) (k * r)%R) as [_ ->]; auto.
    intros p Hp. assert (exists p', p = f p' /\ In p' [p0; p1; p2; p3]) as (p' & -> & Hp').
    { cbn in Hp. destruct Hp as [<-|[<-|[<-|[<-|[]]]]]; eexists; (split; [reflexivity|cbn; tauto]). }
    destruct S as [_ S]. rewrite S, (D p' Hp'). reflexivity.
Qed.
Lemma passes_radius pts probe s : simplex_passes pts probe s = match radius_of (map (fun k => nth k pts v0) s) with Some r => Rleb r probe | None => false end.
Proof. unfold simplex_passes, radius_of. destruct (map _ s) as [|p0 [|p1 [|p2 [|p3 [|]]]]]; reflexivity. Qed.
Lemma sim_passes k f n s q q' probe vs vs' : similarity k f -> taken n s f q q' -> Forall (fun v => v < n) vs -> Permutation vs' (map s vs) ->
  simplex_passes q' (k * probe) vs' = simplex_passes q probe vs.
Proof.
  intros S T F P. rewrite !passes_radius.
  assert (E : Permutation (map (fun v => nth v q' v0) vs') (map f (map (fun v => nth v q v0) vs))).
  { rewrite (Permutation_map (fun v => nth v q' v0) P), !map_map. erewrite map_ext_in; [reflexivity|].
    intros v Hv. rewrite Forall_forall in F. apply T, F, Hv. }
  rewrite (C63_relabelling _ _ E), (sim_radius k f) by auto.
  destruct radius_of as [r|]; cbn [option_map]; auto. destruct S as [K _].
  destruct (Rleb r probe) eqn:B; [apply Rleb_iff in B; apply Rleb_iff; apply Rmult_le_compat_l; lra|].
  apply Rleb_false in B. apply Rleb_false. apply Rmult_lt_compat_l; lra.
Qed.

(* ---------------- the complex ---------------- *)
Definition face (tri : triangulation) (i v : nat) (z : Z) : Prop :=
  exists vs ns, nth_error (simplices tri) i = Some vs /\ nth_error (neighbors tri) i = Some ns /\ In (v, z) (combine vs ns).
Lemma combine_nth_error {A B} (l : list A) (m : list B) k : nth_error (combine l m) k = match nth_error l k, nth_error m k with Some x, Some y => Some (x, y) | _, _ => None end.
Proof. revert m k. induction l as [|x l IH]; intros [|y m] [|k]; cbn; auto. destruct (nth_error l k); auto. Qed.
Lemma in_combine_iff {A B} (l : list A) (m : list B) x y : In (x, y) (combine l m) <-> exists k, nth_error l k = Some x /\ nth_error m k = Some y.
Proof.
  split.
  - intros H. apply In_nth_error in H as [k H]. rewrite combine_nth_error in H. exists k. destruct (nth_error l k), (nth_error m k); inversion H; auto.
  - intros (k & H1 & H2). apply nth_error_In with k. rewrite combine_nth_error, H1, H2. reflexivity.
Qed.
Lemma rows tri i : wf_tri tri -> i < length (simplices tri) -> exists vs ns, nth_error (simplices tri) i = Some vs /\ nth_error (neighbors tri) i = Some ns /\ length vs = 4 /\ length ns = 4.
Proof.
  intros (L & WS & WN) Hi. rewrite Forall_forall in WS, WN. destruct (nth_error (simplices tri) i) as [vs|] eqn:E1; [|apply nth_error_None in E1; lia].
  destruct (nth_error (neighbors tri) i) as [ns|] eqn:E2; [|apply nth_error_None in E2; lia]. exists vs, ns. split; auto. split; auto.
  split; [apply WS|apply WN]; eapply nth_error_In; eauto.
Qed.
Lemma neighbour_face tri i z : wf_tri tri -> ((exists ns, nth_error (neighbors tri) i = Some ns /\ In z ns) <-> exists v, face tri i v z).
Proof.
  intros W. split.
  - intros (ns & E & H). destruct (rows tri i W) as (vs & ns' & E1 & E2 & L1 & L2).
    { destruct W as (L & _). rewrite L. apply nth_error_Some. congruence. }
    rewrite E in E2. inversion E2; subst ns'. apply In_nth_error in H as [k Hk].
    destruct (nth_error vs k) as [v|] eqn:Ev; [|apply nth_error_None in Ev; assert (k < length ns) by (apply nth_error_Some; congruence); lia].
    exists v, vs, ns. split; auto. split; auto. apply in_combine_iff. eauto.
  - intros (v & vs & ns & E1 & E2 & H). exists ns. split; auto. apply in_combine_r in H. auto.
Qed.
Lemma face_range tri i v z : wf_tri tri -> face tri i v z -> i < length (simplices tri) /\ (-1 <= z < Z.of_nat (length (simplices tri)))%Z.
Proof.
  intros W (vs & ns & E1 & E2 & H). split; [apply nth_error_Some; congruence|]. destruct W as (_ & _ & WN). rewrite Forall_forall in WN.
  destruct (WN ns (nth_error_In _ _ E2)) as [_ F]. rewrite Forall_forall in F. apply F. apply in_combine_r in H. auto.
Qed.
(** which points are returned, by faces only *)
Lemma points_faces tri probe v : wf_tri tri -> length probe = length (simplices tri) ->
  (In v (out_points tri probe) <-> exists i j, surface_tet tri (passes probe) i /\ face tri i v (Z.of_nat j) /\ passes probe j).
Proof.
  intros W L. rewrite out_points_spec by auto. split.
  - intros (i & k & S & (vs & E1 & Ek) & NE). destruct (rows tri i W) as (vs' & ns & E1' & E2 & L1 & L2); [apply nth_error_Some; congruence|].
    rewrite E1 in E1'. inversion E1'; subst vs'.
    destruct (nth_error ns k) as [z|] eqn:Ez; [|apply nth_error_None in Ez; assert (k < length vs) by (apply nth_error_Some; congruence); lia].
    assert (F : face tri i v z) by (exists vs, ns; split; auto; split; auto; apply in_combine_iff; eauto).
    pose proof (face_range _ _ _ _ W F) as [_ RZ].
    destruct (Z.eq_dec z (-1)) as [->|NZ]; [exfalso; apply NE; exists ns, (-1)%Z; auto|].
    exists i, (Z.to_nat z). split; auto. rewrite Z2Nat.id by lia. split; auto.
    unfold passes. destruct (nth_error probe (Z.to_nat z)) as [[|]|] eqn:EP; auto; exfalso; apply NE; exists ns, z; (split; [auto|split; [auto|right; exists (Z.to_nat z); split; [lia|unfold passes; congruence]]]).
  - intros (i & j & S & (vs & ns & E1 & E2 & H) & P). apply in_combine_iff in H as (k & K1 & K2). exists i, k. split; auto. split; [exists vs; auto|].
    intros (ns' & z & X1 & X2 & X3). rewrite E2 in X1. inversion X1; subst ns'. rewrite K2 in X2. inversion X2; subst z.
    destruct X3 as [X3|(j' & X3 & NP)]; [lia|]. apply Nat2Z.inj in X3. subst j'. contradiction.
Qed.
Lemma combine_fst {A B} (l : list A) (m : list B) : length l = length m -> map fst (combine l m) = l.
Proof. revert m. induction l; intros [|]; cbn; intros; try lia; auto. f_equal. auto. Qed.

Lemma renumber_neg t z : (-1 <= z)%Z -> (renumber t z = -1 <-> z = -1)%Z.
Proof. intros Hz. unfold renumber. destruct (Z.ltb_spec z 0); lia. Qed.
Lemma renumber_nat t j : renumber t (Z.of_nat j) = Z.of_nat (t j).
Proof. unfold renumber. destruct (Z.ltb_spec (Z.of_nat j) 0); [lia|]. rewrite Nat2Z.id. auto. Qed.

Section Same.
Variables (n : nat) (s t : nat -> nat) (a b : triangulation).
Hypotheses (C : same_complex n s t a b) (Wa : wf_tri a) (Wb : wf_tri b).
Let na := length (simplices a).
Lemma face_there i v z : face a i v z -> face b (t i) (s v) (renumber t z).
Proof.
  intros (vs & ns & E1 & E2 & H). destruct C as (_ & D). destruct (D i vs ns E1 E2) as (_ & vs' & ns' & F1 & F2 & P).
  exists vs', ns'. split; auto. split; auto. apply (Permutation_in _ (Permutation_sym P)). apply in_map_iff. exists (v, z). auto.
Qed.
Lemma face_back i v' z' : i < na -> face b (t i) v' z' -> exists v z, face a i v z /\ v' = s v /\ z' = renumber t z.
Proof.
  intros Hi (vs' & ns' & F1 & F2 & H). destruct (rows a i Wa Hi) as (vs & ns & E1 & E2 & _). destruct C as (_ & D).
  destruct (D i vs ns E1 E2) as (_ & us & ms & G1 & G2 & P). rewrite F1 in G1. rewrite F2 in G2. inversion G1; inversion G2; subst us ms.
  apply (Permutation_in _ P) in H. apply in_map_iff in H as ((v & z) & E & H). cbn in E. inversion E; subst. exists v, z. split; [exists vs, ns; auto|auto].
Qed.
Lemma boundary_same i : i < na -> (on_boundary a i <-> on_boundary b (t i)).
Proof.
  intros Hi. unfold on_boundary. rewrite !neighbour_face by auto. split.
  - intros (v & F). exists (s v). apply face_there in F. exact F.
  - intros (v' & F). apply face_back in F as (v & z & F & _ & E); auto. exists v. pose proof (face_range _ _ _ _ Wa F) as [_ RZ]. destruct (renumber_neg t z) as [X _]; [lia|]. rewrite X in F; auto.
Qed.
Lemma face_back_nat i v' j' : i < na -> face b (t i) v' (Z.of_nat j') -> exists v j, face a i v (Z.of_nat j) /\ v' = s v /\ j' = t j /\ j < na.
Proof.
  intros Hi F. apply face_back in F as (v & z & F & -> & E); auto. pose proof (face_range _ _ _ _ Wa F) as [_ RZ]. unfold renumber in E. destruct (Z.ltb_spec z 0); [lia|].
  exists v, (Z.to_nat z). rewrite Z2Nat.id by lia. split; [exact F|]. split; [auto|]. split; [lia|]. unfold na. lia.
Qed.
Lemma adjacent_same i j : i < na -> adjacent a i j -> adjacent b (t i) (t j).
Proof.
  intros Hi H. unfold adjacent in *. rewrite neighbour_face in * by auto. destruct H as (v & F). exists (s v). rewrite <- renumber_nat. apply face_there, F.
Qed.
Lemma surface_same (P Q : nat -> Prop) i : (forall i, i < na -> (P i <-> Q (t i))) -> i < na -> (surface_tet a P i <-> surface_tet b Q (t i)).
Proof.
  intros H Hi. unfold surface_tet. rewrite (H i Hi), (boundary_same i Hi). split; (intros [A [B|B]]; split; [auto|left; auto|auto|right]).
  - destruct B as (j & AD & OB & NP). assert (Hj : j < na).
    { destruct OB as (ns & E & _). unfold na. destruct Wa as (L & _). rewrite L. apply nth_error_Some. congruence. }
    exists (t j). split; [apply adjacent_same; auto|]. split; [apply boundary_same; auto|]. rewrite <- H; auto.
  - destruct B as (j' & AD & OB & NP). unfold adjacent in AD. rewrite neighbour_face in AD by auto. destruct AD as (v' & F).
    apply face_back_nat in F as (v & j & F & -> & -> & Hj); auto. exists j. split; [|split; [apply boundary_same; auto|rewrite H; auto]].
    unfold adjacent. rewrite neighbour_face by auto. eauto.
Qed.
Lemma passing_same k f samples samples' probe i : similarity k f -> Forall2 (taken n s f) samples samples' -> i < na ->
  (passing a samples probe i <-> passing b samples' (k * probe) (t i)).
Proof.
  intros S T Hi. destruct (rows a i Wa Hi) as (vs & ns & E1 & E2 & L1 & L2). destruct C as (_ & D).
  destruct (D i vs ns E1 E2) as (FV & vs' & ns' & F1 & F2 & P).
  assert (LS : length vs' = 4 /\ length ns' = 4).
  { destruct Wb as (_ & X & Y). rewrite Forall_forall in X, Y. split; [apply X|apply Y]; eapply nth_error_In; eauto. }
  assert (PV : Permutation vs' (map s vs)).
  { apply (Permutation_map fst) in P. rewrite combine_fst in P by lia. rewrite map_map in P. cbn [fst] in P.
    rewrite <- (combine_fst vs ns) by lia. rewrite map_map. exact P. }
  assert (G : forall q q', taken n s f q q' -> (small_sphere q probe vs <-> small_sphere q' (k * probe) vs')).
  { intros q q' TQ. rewrite <- !simplex_passes_ok, (sim_passes k f n s q q' probe vs vs'); auto. reflexivity. }
  unfold passing. split.
  - intros (q & s0 & Hq & Es & SS). rewrite E1 in Es. inversion Es; subst s0.
    assert (exists q', In q' samples' /\ taken n s f q q') as (q' & Hq' & TQ).
    { clear - T Hq. induction T as [|x y l m X T IH]; [destruct Hq|]. destruct Hq as [<-|Hq]; [exists y; cbn; auto|]. destruct (IH Hq) as (q' & ? & ?). exists q'. cbn; auto. }
    exists q', vs'. split; auto. split; auto. apply (G q q' TQ), SS.
  - intros (q' & s0 & Hq & Es & SS). rewrite F1 in Es. inversion Es; subst s0.
    assert (exists q, In q samples /\ taken n s f q q') as (q & Hq' & TQ).
    { clear - T Hq. induction T as [|x y l m X T IH]; [destruct Hq|]. destruct Hq as [<-|Hq]; [exists x; cbn; auto|]. destruct (IH Hq) as (q & ? & ?). exists q. cbn; auto. }
    exists q, vs. split; auto. split; auto. apply (G q q' TQ), SS.
Qed.
End Same.

(** Two calls, on two clouds with two triangulations that are the same up to a similarity
    and the numbering, the probe scaled accordingly. *)
(** the same tetrahedra are on the surface *)
Theorem C158_tetrahedra : forall del del' points points' probe k f s t a b samples samples' sh sh' i,
  computed del points probe a samples sh -> computed del' points' (k * probe) b samples' sh' -> wf_tri a -> wf_tri b ->
  similarity k f -> same_complex (length points) s t a b -> Forall2 (taken (length points) s f) samples samples' ->
  i < length (simplices a) ->
  (nth_error (sh_surface sh) i = Some true <-> nth_error (sh_surface sh') (t i) = Some true).
Proof.
  intros * Ca Cb Wa Wb SIM CX T Hi. destruct (C64_surface_tetrahedra_partial _ _ _ _ _ _ Ca Wa) as [_ Ea]. destruct (C64_surface_tetrahedra_partial _ _ _ _ _ _ Cb Wb) as [_ Eb].
  rewrite Ea, Eb. apply (surface_same (length points) s t a b CX Wa Wb); auto.
  intros j Hj. apply (passing_same (length points) s t a b CX Wa Wb k f); auto.
Qed.
(** the same points are returned *)
Theorem C158_points : forall del del' points points' probe k f s t a b samples samples' sh sh' v,
  computed del points probe a samples sh -> computed del' points' (k * probe) b samples' sh' -> wf_tri a -> wf_tri b ->
  similarity k f -> same_complex (length points) s t a b -> Forall2 (taken (length points) s f) samples samples' ->
  renumbers (length points) (length points') s -> v < length points ->
  (In v (sh_points sh) <-> In (s v) (sh_points sh')).
Proof.
  intros * Ca Cb Wa Wb SIM CX T (_ & INJ & _) Hv. destruct (computed_mask _ _ _ _ _ _ Ca) as (pa & -> & La & Pa). destruct (computed_mask _ _ _ _ _ _ Cb) as (pb & -> & Lb & Pb).
  assert (PS : forall i, i < length (simplices a) -> (passes pa i <-> passes pb (t i))).
  { intros i Hi. rewrite Pa, Pb. apply (passing_same (length points) s t a b CX Wa Wb k f); auto. }
  pose proof (surface_same (length points) s t a b CX Wa Wb (passes pa) (passes pb)) as SS.
  cbn [shape_of sh_points]. rewrite !nodup_In, !points_faces by auto. split.
  - intros (i & j & ST & F & P). pose proof (face_range _ _ _ _ Wa F) as [Hi Hj]. exists (t i), (t j). split; [apply SS; auto|].
    split; [pose proof (face_there (length points) s t a b CX _ _ _ F) as F'; rewrite renumber_nat in F'; exact F'|]. apply PS; auto. lia.
  - intros (i' & j' & ST & F & P). pose proof (face_range _ _ _ _ Wb F) as [Hi' _].
    destruct (proj1 CX) as (_ & _ & ONTO). destruct (ONTO i' Hi') as (i & Hi & <-).
    apply (face_back_nat (length points) s t a b CX Wa) in F as (u & j & F & E & -> & Hj); auto.
    exists i, j. split; [apply SS; auto|]. split; [|apply PS; auto].
    assert (Hu : u < length points).
    { destruct F as (vs & ns & E1 & E2 & H). destruct (proj2 CX i vs ns E1 E2) as (FV & _). rewrite Forall_forall in FV. apply FV. apply in_combine_l in H. auto. }
    rewrite (INJ v u); auto.
Qed.
(** every rigid motion, with or without a mirror, and every dilation is a similarity *)
Theorem C158_similarities : forall m t k, orthogonal m -> (0 < k)%R -> similarity k (fun p => vadd (vscale k (mv m p)) t).
Proof.
  intros m t k O K. split; [exact K|]. intros p q. unfold dist.
  replace (vsub (vadd (vscale k (mv m p)) t) (vadd (vscale k (mv m q)) t)) with (vscale k (mv m (vsub p q))) by vring.
  unfold norm. replace (dot (vscale k (mv m (vsub p q))) (vscale k (mv m (vsub p q)))) with (k * k * dot (mv m (vsub p q)) (mv m (vsub p q)))%R by vring.
  rewrite orth_dot by auto. rewrite sqrt_mult by (try apply dot_pos; nra). rewrite sqrt_square by lra. reflexivity.
Qed.
(** a cloud moved by t, with the same noise: the same answer *)
Theorem C158_translated : forall del points probe t n1 n2,
  let tri := del (perturb points n1) in
  length n1 = length points -> length n2 = length points -> wf_tri tri ->
  (forall vs v, In vs (simplices tri) -> In v vs -> v < length points) ->
  del (map (vadd t) (perturb points n1)) = tri ->
  alpha_shape del (map (vadd t) points) probe n1 n2 = alpha_shape del points probe n1 n2.
Proof.
  intros del points probe t n1 n2 tri L1 L2 W IN DT. unfold alpha_shape.
  assert (PM : forall a n, perturb (map (vadd t) a) n = map (vadd t) (perturb a n)).
  { unfold perturb. induction a as [|p a IH]; intros [|q n]; cbn [map combine]; auto. rewrite IH. f_equal. cbn [fst snd]. vring. }
  rewrite !PM, DT. fold tri. f_equal. unfold probe_test. apply map_ext_in. intros vs Hvs.
  assert (S1 : similarity 1 (vadd t)).
  { split; [lra|]. intros p q. rewrite Rmult_1_l. unfold dist. f_equal. vring. }
  rewrite <- (Rmult_1_l probe) at 1. apply (sim_passes 1 (vadd t) (length points) (fun v => v)); auto.
  - intros v Hv. assert (LQ : length (perturb (perturb points n1) n2) = length points).
    { unfold perturb. rewrite map_length, combine_length, map_length, combine_length. lia. }
    rewrite (nth_indep _ v0 (vadd t v0)) by (rewrite map_length; lia). apply map_nth.
  - apply Forall_forall. intros v Hv. apply (IN vs); auto.
  - rewrite map_id. reflexivity.
Qed.

(** the cloud of C64_nonvacuous, doubled and listed backwards, with its tetrahedra listed
    backwards as well *)
Definition cap_back : triangulation :=
  mkTri [[6;5;0;3]; [6;1;4;3]; [2;5;4;3]; [3;4;5;6]] [[-1;-1;3;-1]; [-1;3;-1;-1]; [3;-1;-1;-1]; [-1;0;1;2]]%Z.
Definition cap_doubled : list vec := rev (map (vscale 2) cap_points).
Example C158_nonvacuous :
  computed (fun _ => cap_tri) cap_points 1 cap_tri [cap_points] (alpha_shape (fun _ => cap_tri) cap_points 1 cap_still cap_still) /\
  computed (fun _ => cap_back) cap_doubled (2 * 1) cap_back [cap_doubled] (alpha_shape (fun _ => cap_back) cap_doubled (2 * 1) cap_still cap_still) /\
  wf_tri cap_tri /\ wf_tri cap_back /\ similarity 2 (vscale 2) /\
  same_complex (length cap_points) (fun v => 6 - v) (fun i => 3 - i) cap_tri cap_back /\
  Forall2 (taken (length cap_points) (fun v => 6 - v) (vscale 2)) [cap_points] [cap_doubled] /\
  renumbers (length cap_points) (length cap_doubled) (fun v => 6 - v) /\
  In 1 (sh_points (alpha_shape (fun _ => cap_tri) cap_points 1 cap_still cap_still)).
Proof.
  assert (J : jitter cap_doubled cap_still cap_doubled).
  { split; [reflexivity|split; [reflexivity|]]. intros k Hk. cbn in Hk. destruct k as [|[|[|[|[|[|[|]]]]]]]; try lia; cbn; vring. }
  split; [apply C64_nonvacuous|]. split; [apply (by_single (fun _ => cap_back) cap_doubled (2 * 1) cap_still cap_still cap_doubled cap_doubled J J)|].
  split; [apply C64_nonvacuous|]. split; [repeat split; repeat constructor; cbn; lia|].
  split.
  { split; [lra|]. intros p q. unfold dist, norm. replace (dot _ _) with (2 * 2 * dot (vsub p q) (vsub p q))%R by vring.
    rewrite sqrt_mult by (try apply dot_pos; lra). rewrite sqrt_square by lra. reflexivity. }
  split.
  { split.
    - split; [|split]; cbn [length cap_tri cap_back simplices]; [intros i Hi; lia|intros i j Hi Hj; lia|intros j Hj; exists (3 - j); lia].
    - intros i vs ns E1 E2. destruct i as [|[|[|[|i]]]]; [| | | |destruct i; discriminate]; cbn in E1, E2; inversion E1; inversion E2; subst;
        (split; [repeat constructor; cbn; lia|]); eexists _, _; (split; [reflexivity|]); (split; [reflexivity|]); cbn; try apply Permutation_refl.
      apply Permutation_rev. }
  split.
  { repeat constructor. intros v Hv. cbn in Hv. destruct v as [|[|[|[|[|[|[|]]]]]]]; try lia; reflexivity. }
  split.
  { change (length cap_points) with 7. change (length cap_doubled) with 7. split; [|split]; [intros i Hi; lia|intros i j Hi Hj; lia|intros j Hj; exists (6 - j); lia]. }
  destruct C64_nonvacuous as (C & W & S & E & V). apply (C64_single_face_partial _ _ _ _ _ _ 0 3 1 1 C W S E V). lia.
Qed.
