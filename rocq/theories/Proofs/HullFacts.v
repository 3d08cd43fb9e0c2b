(** Convex hulls of finite point lists. *)
From Coq Require Import Reals List Lra Lia Bool.
From Verif.Model Require Import Base Vec Algebraic Voxel Volume.
From Verif.Spec Require Import Geometry.
From Verif.Proofs Require Import VecFacts.
Import ListNotations.
Open Scope R_scope.

Notation rsum := (fold_right Rplus 0).

Lemma rsum_repeat0 n : rsum (repeat 0 n) = 0.
Proof. induction n; simpl; lra. Qed.
Lemma wsum_zeros : forall ps, wsum (repeat 0 (length ps)) ps = v0.
Proof.
  induction ps as [|p ps IH]; simpl; [reflexivity|]. rewrite IH. vring.
Qed.
Lemma rsum_nonneg ws : Forall (fun w => 0 <= w) ws -> 0 <= rsum ws.
Proof. induction 1; simpl; lra. Qed.
Lemma rsum_zero_all ws : Forall (fun w => 0 <= w) ws -> rsum ws = 0 -> ws = repeat 0 (length ws).
Proof.
  induction 1; simpl; intros E; [reflexivity|]. pose proof (rsum_nonneg _ H0).
  assert (x = 0) by lra. assert (rsum l = 0) by lra. rewrite <- IHForall by auto. subst. reflexivity.
Qed.

Lemma in_hull_mem ps p : In p ps -> in_hull ps p.
Proof.
  induction ps as [|x ps IH]; [easy|]. intros [->|H].
  - exists (1 :: repeat 0 (length ps)). simpl. rewrite repeat_length, rsum_repeat0, wsum_zeros.
    repeat split; try lra.
    + constructor; [lra|]. apply Forall_forall. intros y Hy. apply repeat_spec in Hy. lra.
    + vring.
  - destruct (IH H) as (ws & L & P & S & ->). exists (0 :: ws). simpl. repeat split; auto; try lra.
    + constructor; [lra|auto].
    + vring.
Qed.

(** the point between x and y at parameter t *)
Definition lerp (t : R) (x y : vec) : vec := vadd x (vscale t (vsub y x)).

Fixpoint mix (t : R) (u w : list R) : list R :=
  match u, w with a :: u', b :: w' => (a + t * (b - a)) :: mix t u' w' | _, _ => [] end.
Lemma mix_props t : 0 <= t <= 1 -> forall u w ps, length u = length ps -> length w = length ps ->
  Forall (fun w => 0 <= w) u -> Forall (fun w => 0 <= w) w ->
  length (mix t u w) = length ps /\ Forall (fun w => 0 <= w) (mix t u w) /\
  rsum (mix t u w) = rsum u + t * (rsum w - rsum u) /\
  wsum (mix t u w) ps = lerp t (wsum u ps) (wsum w ps).
Proof.
  intros Ht. induction u as [|a u IH]; intros [|b w] [|p ps] L1 L2 P1 P2; simpl in L1, L2; try discriminate.
  - simpl. repeat split; auto; try lra. unfold lerp. vring.
  - inversion P1; inversion P2; subst. destruct (IH w ps) as (A & B & C & D); auto. simpl. repeat split.
    + lia.
    + constructor; auto. nra.
    + rewrite C. ring.
    + rewrite D. unfold lerp. generalize (wsum u ps) (wsum w ps). intros. vring.
Qed.

Lemma in_hull_lerp ps x y t : in_hull ps x -> in_hull ps y -> 0 <= t <= 1 -> in_hull ps (lerp t x y).
Proof.
  intros (u & L1 & P1 & S1 & ->) (w & L2 & P2 & S2 & ->) Ht.
  destruct (mix_props t Ht u w ps) as (A & B & C & D); auto.
  exists (mix t u w). repeat split; auto. rewrite C, S1, S2. ring.
Qed.

(** A convex set containing the points contains their hull. *)
Lemma wsum_scale s : forall ws ps, wsum (map (Rmult s) ws) ps = vscale s (wsum ws ps).
Proof.
  induction ws as [|w ws IH]; intros [|p ps]; simpl; try (vring; fail).
  rewrite IH. generalize (wsum ws ps). intros. vring.
Qed.
Lemma rsum_scale s ws : rsum (map (Rmult s) ws) = s * rsum ws.
Proof. induction ws; simpl; [ring|]. rewrite IHws. ring. Qed.

Lemma in_hull_ind (P : vec -> Prop) :
  (forall x y t, P x -> P y -> 0 <= t <= 1 -> P (lerp t x y)) ->
  forall ps, (forall x, In x ps -> P x) -> forall p, in_hull ps p -> P p.
Proof.
  intros HC. induction ps as [|x ps IH]; intros HP p (ws & L & W & S & ->).
  - destruct ws; [simpl in S; lra|discriminate].
  - destruct ws as [|w ws]; [discriminate|]. simpl in *. inversion W; subst.
    pose proof (rsum_nonneg _ H2) as NN.
    destruct (Req_dec (rsum ws) 0) as [Z|NZ].
    + assert (w = 1) by lra. subst w. rewrite (rsum_zero_all ws) by auto.
      replace (length ws) with (length ps) by lia. rewrite wsum_zeros.
      replace (vadd (vscale 1 x) v0) with x by vring. apply HP; auto.
    + set (s := rsum ws) in *. assert (0 < s) by lra.
      assert (HH : in_hull ps (wsum (map (Rmult (/ s)) ws) ps)).
      { exists (map (Rmult (/ s)) ws). rewrite map_length. repeat split; try lia.
        - apply Forall_forall. intros z Hz. apply in_map_iff in Hz as (y & <- & Hy).
          rewrite Forall_forall in H2. apply Rmult_le_pos; auto. left. apply Rinv_0_lt_compat; auto.
        - rewrite rsum_scale. fold s. field. lra. }
      assert (PQ : P (wsum (map (Rmult (/ s)) ws) ps)) by (apply IH; auto).
      replace (vadd (vscale w x) (wsum ws ps)) with (lerp s x (wsum (map (Rmult (/ s)) ws) ps)).
      * apply HC; auto. lra.
      * rewrite wsum_scale. unfold lerp. replace w with (1 - s) by lra.
        generalize (wsum ws ps). intros q. destruct x, q; vunfold; f_equal; field; lra.
Qed.

Lemma in_hull_incl ps qs p : incl ps qs -> in_hull ps p -> in_hull qs p.
Proof.
  intros HI H. refine (in_hull_ind (in_hull qs) _ ps _ p H).
  - intros. apply in_hull_lerp; auto.
  - intros x Hx. apply in_hull_mem, HI, Hx.
Qed.

(** The corners of a parallelepiped: origin o, edge vectors a, b, c. *)
Definition corners (o a b c : vec) : list vec :=
  [o; vadd o a; vadd o b; vadd o c; vadd (vadd o a) b; vadd (vadd o a) c; vadd (vadd o b) c;
   vadd (vadd (vadd o a) b) c].

Lemma parallelepiped_hull o a b c p :
  in_hull (corners o a b c) p <->
  exists x y z, 0 <= x <= 1 /\ 0 <= y <= 1 /\ 0 <= z <= 1 /\
    p = vadd (vadd (vadd o (vscale x a)) (vscale y b)) (vscale z c).
Proof.
  split.
  - intros H. pattern p. refine (in_hull_ind _ _ _ _ p H).
    + intros p1 p2 t (x & y & z & Hx & Hy & Hz & ->) (x' & y' & z' & Hx' & Hy' & Hz' & ->) Ht.
      exists (x + t * (x' - x)), (y + t * (y' - y)), (z + t * (z' - z)).
      repeat split; try nra. unfold lerp. vring.
    + intros q Hq. simpl in Hq.
      assert (G : forall x y z, 0 <= x <= 1 -> 0 <= y <= 1 -> 0 <= z <= 1 ->
        q = vadd (vadd (vadd o (vscale x a)) (vscale y b)) (vscale z c) ->
        exists x y z, 0 <= x <= 1 /\ 0 <= y <= 1 /\ 0 <= z <= 1 /\
          q = vadd (vadd (vadd o (vscale x a)) (vscale y b)) (vscale z c)).
      { intros x y z Hx Hy Hz E. exists x, y, z. auto. }
      destruct Hq as [<-|[<-|[<-|[<-|[<-|[<-|[<-|[<-|[]]]]]]]]];
      [apply (G 0 0 0)|apply (G 1 0 0)|apply (G 0 1 0)|apply (G 0 0 1)
      |apply (G 1 1 0)|apply (G 1 0 1)|apply (G 0 1 1)|apply (G 1 1 1)]; try lra; vring.
  - intros (x & y & z & Hx & Hy & Hz & ->).
    assert (M : forall q, In q (corners o a b c) -> in_hull (corners o a b c) q) by (intros; apply in_hull_mem; auto).
    (* edges along a, then faces along b, then c *)
    assert (E00 : in_hull (corners o a b c) (lerp x o (vadd o a))) by (apply in_hull_lerp; auto; apply M; simpl; auto 10).
    assert (E10 : in_hull (corners o a b c) (lerp x (vadd o b) (vadd (vadd o a) b))) by (apply in_hull_lerp; auto; apply M; simpl; auto 10).
    assert (E01 : in_hull (corners o a b c) (lerp x (vadd o c) (vadd (vadd o a) c))) by (apply in_hull_lerp; auto; apply M; simpl; auto 10).
    assert (E11 : in_hull (corners o a b c) (lerp x (vadd (vadd o b) c) (vadd (vadd (vadd o a) b) c))) by (apply in_hull_lerp; auto; apply M; simpl; auto 10).
    pose proof (in_hull_lerp _ _ _ y E00 E10 Hy) as F0.
    pose proof (in_hull_lerp _ _ _ y E01 E11 Hy) as F1.
    pose proof (in_hull_lerp _ _ _ z F0 F1 Hz) as G.
    replace (vadd (vadd (vadd o (vscale x a)) (vscale y b)) (vscale z c))
      with (lerp z (lerp y (lerp x o (vadd o a)) (lerp x (vadd o b) (vadd (vadd o a) b)))
                   (lerp y (lerp x (vadd o c) (vadd (vadd o a) c)) (lerp x (vadd (vadd o b) c) (vadd (vadd (vadd o a) b) c)))); [exact G|].
    unfold lerp. vring.
Qed.
