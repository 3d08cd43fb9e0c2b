(** Circumscribed spheres: C63. *)
From Coq Require Import Reals List ZArith Bool Lra Lia Permutation Nsatz.
From Verif.Model Require Import Base Vec AlphaShape.
From Verif.Proofs Require Import VecFacts.
Import ListNotations.
Open Scope R_scope.

(** six times the signed volume of the tetrahedron *)
Definition volume6 (p0 p1 p2 p3 : vec) : R := dot (vsub p1 p0) (cross (vsub p2 p0) (vsub p3 p0)).

(** c (relative to p0) is equidistant from the four vertices *)
Definition eqs (q1 q2 q3 c : vec) : Prop :=
  2 * dot q1 c = dot q1 q1 /\ 2 * dot q2 c = dot q2 q2 /\ 2 * dot q3 c = dot q3 q3.
Lemma eqs_unique q1 q2 q3 c d : dot q1 (cross q2 q3) <> 0 -> eqs q1 q2 q3 c -> eqs q1 q2 q3 d -> c = d.
Proof.
  intros D (A1 & A2 & A3) (B1 & B2 & B3).
  assert (E1 : dot q1 (vsub c d) = 0) by (replace (dot q1 (vsub c d)) with (dot q1 c - dot q1 d) by vring; lra).
  assert (E2 : dot q2 (vsub c d) = 0) by (replace (dot q2 (vsub c d)) with (dot q2 c - dot q2 d) by vring; lra).
  assert (E3 : dot q3 (vsub c d) = 0) by (replace (dot q3 (vsub c d)) with (dot q3 c - dot q3 d) by vring; lra).
  clear A1 A2 A3 B1 B2 B3.
  assert (Z : vsub c d = v0).
  { remember (vsub c d) as e. clear Heqe c d. destruct q1 as [x1 y1 z1], q2 as [x2 y2 z2], q3 as [x3 y3 z3], e as [x y z]. revert D E1 E2 E3. vunfold. intros D E1 E2 E3.
    apply vec_eq; cbn; apply (Rmult_eq_reg_l (x1 * (y2 * z3 - z2 * y3) + y1 * (z2 * x3 - x2 * z3) + z1 * (x2 * y3 - y2 * x3))); try assumption; clear D; nsatz. }
  destruct c, d. unfold vsub, v0 in Z. cbn in Z. inversion Z. f_equal; lra.
Qed.
Lemma center_spec p0 p1 p2 p3 :
  (volume6 p0 p1 p2 p3 = 0 -> circum_center p0 p1 p2 p3 = None) /\
  (volume6 p0 p1 p2 p3 <> 0 -> exists c, circum_center p0 p1 p2 p3 = Some c /\ eqs (vsub p1 p0) (vsub p2 p0) (vsub p3 p0) c).
Proof.
  unfold volume6, circum_center, eqs. destruct (vsub p1 p0) as [x1 y1 z1], (vsub p2 p0) as [x2 y2 z2], (vsub p3 p0) as [x3 y3 z3].
  set (aa := x1 * (y2 * z3 - z2 * y3) - x2 * (y1 * z3 - z1 * y3) + x3 * (y1 * z2 - z1 * y2)).
  assert (E : dot (mkV x1 y1 z1) (cross (mkV x2 y2 z2) (mkV x3 y3 z3)) = aa) by (unfold aa; vunfold; cbn; ring). rewrite E. unfold Reqb. split; intros H.
  - destruct (Req_EM_T (2 * aa) 0); auto. lra.
  - destruct (Req_EM_T (2 * aa) 0); [lra|]. eexists. split; [reflexivity|]. unfold dot. cbn. unfold aa in *. repeat split; field; lra.
Qed.
Lemma eqs_dist p0 p1 p2 p3 c : eqs (vsub p1 p0) (vsub p2 p0) (vsub p3 p0) c <->
  forall p, In p [p0; p1; p2; p3] -> dist (vadd p0 c) p = norm c.
Proof.
  assert (G : forall p, 2 * dot (vsub p p0) c = dot (vsub p p0) (vsub p p0) <-> dist (vadd p0 c) p = norm c).
  { intros p. unfold dist, norm. assert (E : dot (vsub (vadd p0 c) p) (vsub (vadd p0 c) p) = dot c c - (2 * dot (vsub p p0) c - dot (vsub p p0) (vsub p p0))) by vring.
    split; intros H.
    - f_equal. lra.
    - apply sqrt_inj in H; [lra|apply dot_pos|apply dot_pos]. }
  unfold eqs. rewrite !G. cbn. split.
  - intros (A & B & C) p [<-|[<-|[<-|[<-|[]]]]]; auto. unfold dist. f_equal. vring.
  - intros H. repeat split; apply H; auto.
Qed.
(** The radius is that of the sphere through the four vertices, which is unique;
    flat tetrahedra have none. *)
Theorem C63_circumsphere p0 p1 p2 p3 : volume6 p0 p1 p2 p3 <> 0 ->
  exists r c, circumradius p0 p1 p2 p3 = Some r /\
    (forall p, In p [p0; p1; p2; p3] -> dist c p = r) /\
    forall c' r', (forall p, In p [p0; p1; p2; p3] -> dist c' p = r') -> c' = c /\ r' = r.
Proof.
  intros H. destruct (proj2 (center_spec p0 p1 p2 p3) H) as (c & C & E). exists (norm c), (vadd p0 c). unfold circumradius. rewrite C. split; [reflexivity|].
  pose proof (proj1 (eqs_dist _ _ _ _ _) E) as D. split; [exact D|]. intros c' r' D'.
  assert (E' : eqs (vsub p1 p0) (vsub p2 p0) (vsub p3 p0) (vsub c' p0)).
  { apply eqs_dist. intros p Hp. replace (vadd p0 (vsub c' p0)) with c' by vring. rewrite (D' p Hp).
    symmetry. change (norm (vsub c' p0)) with (dist c' p0). apply D'. left; auto. }
  pose proof (eqs_unique _ _ _ _ _ H E E') as U. assert (c' = vadd p0 c) by (rewrite U; vring). split; auto. subst c'.
  rewrite <- (D' p0), <- (D p0) by (cbn; auto). reflexivity.
Qed.
Theorem C63_flat p0 p1 p2 p3 : volume6 p0 p1 p2 p3 = 0 -> circumradius p0 p1 p2 p3 = None.
Proof. intros H. unfold circumradius. rewrite (proj1 (center_spec _ _ _ _) H). reflexivity. Qed.
Theorem C63_translation p0 p1 p2 p3 t :
  circumradius (vadd p0 t) (vadd p1 t) (vadd p2 t) (vadd p3 t) = circumradius p0 p1 p2 p3.
Proof.
  unfold circumradius, circum_center. replace (vsub (vadd p1 t) (vadd p0 t)) with (vsub p1 p0) by vring.
  replace (vsub (vadd p2 t) (vadd p0 t)) with (vsub p2 p0) by vring. replace (vsub (vadd p3 t) (vadd p0 t)) with (vsub p3 p0) by vring. reflexivity.
Qed.
Definition radius_of (l : list vec) : option R :=
  match l with [p0; p1; p2; p3] => circumradius p0 p1 p2 p3 | _ => None end.
Lemma radius_same p0 p1 p2 p3 q0 q1 q2 q3 : (forall p, In p [q0; q1; q2; q3] -> In p [p0; p1; p2; p3]) -> (forall p, In p [p0; p1; p2; p3] -> In p [q0; q1; q2; q3]) ->
  (volume6 q0 q1 q2 q3 = volume6 p0 p1 p2 p3 \/ volume6 q0 q1 q2 q3 = - volume6 p0 p1 p2 p3) ->
  circumradius p0 p1 p2 p3 = circumradius q0 q1 q2 q3.
Proof.
  intros I J V. destruct (Req_EM_T (volume6 p0 p1 p2 p3) 0) as [Z|Z].
  - rewrite (C63_flat _ _ _ _ Z). symmetry. apply C63_flat. lra.
  - destruct (C63_circumsphere _ _ _ _ Z) as (r & c & E & D & U). destruct (C63_circumsphere q0 q1 q2 q3 ltac:(lra)) as (r' & c' & E' & D' & U').
    rewrite E, E'. destruct (U c' r') as [_ ->]; auto.
Qed.
Lemma swap_radius l1 l2 x y : radius_of (l1 ++ x :: y :: l2) = radius_of (l1 ++ y :: x :: l2).
Proof.
  destruct l1 as [|a [|b [|c l1]]]; cbn [app].
  - destruct l2 as [|p2 [|p3 [|]]]; try reflexivity. apply radius_same; [cbn; tauto..|right; unfold volume6; vring].
  - destruct l2 as [|p3 [|]]; try reflexivity. apply radius_same; [cbn; tauto..|right; unfold volume6; vring].
  - destruct l2 as [|]; try reflexivity. apply radius_same; [cbn; tauto..|right; unfold volume6; vring].
  - destruct l1 as [|? [|]]; reflexivity.
Qed.
Theorem C63_relabelling l l' : Permutation l l' -> radius_of l = radius_of l'.
Proof.
  intros H. apply Permutation_Permutation_transp in H. induction H as [|x y l1 l2|l1 l2 l3 _ IH1 _ IH2]; [reflexivity|apply swap_radius|congruence].
Qed.
Example C63_nonvacuous : volume6 (mkV 0 0 0) (mkV 1 0 0) (mkV 0 1 0) (mkV 0 0 1) <> 0 /\
  circumradius (mkV 0 0 0) (mkV 1 0 0) (mkV 0 1 0) (mkV 0 0 1) = Some (sqrt (3/4)).
Proof.
  split; [unfold volume6; vunfold; cbn; lra|].
  unfold circumradius, circum_center. cbn. unfold Reqb. destruct (Req_EM_T _ _) as [E|E]; [exfalso; lra|]. cbn. f_equal. unfold norm. f_equal. unfold dot. cbn. field.
Qed.
