(** What is assumed of the numerical libraries behind rot_vtv. *)
From Coq Require Import Reals ZArith.
From Verif.Model Require Import Vec Float FloatRot.
From Verif.Spec Require Import FloatSpec.
Open Scope R_scope.

(** a vector of small whole numbers *)
Definition whole (v : vec) : Prop := exists a b c : Z,
  v = mkV (IZR a) (IZR b) (IZR c) /\ (Z.abs a <= 2 ^ 20 /\ Z.abs b <= 2 ^ 20 /\ Z.abs c <= 2 ^ 20)%Z.

(** Dot products are accurate in the sense of FloatSpec, and exact on small whole numbers
    (as they are in any order of evaluation, fused or not); arccos is NaN outside [-1, 1], 0 at
    1, np.pi at -1, and otherwise, like sin and cos, off by at most 2^-50. *)
Record sound_lib (L : mathlib) : Prop := mkSound {
  sl_dot : accurate (lb_dot L);
  sl_whole : forall a b, whole a -> whole b -> lb_dot L a b = dot a b;
  sl_nan : forall q, q < -1 \/ 1 < q -> lb_acos L q = None;
  sl_one : lb_acos L 1 = Some 0;
  sl_minus_one : lb_acos L (-1) = Some pi64;
  sl_acos : forall q, -1 <= q <= 1 -> exists t, lb_acos L q = Some t /\ Rabs (t - acos q) <= / 2 ^ 50;
  sl_sin : forall t, Rabs (lb_sin L t - sin t) <= / 2 ^ 50;
  sl_cos : forall t, Rabs (lb_cos L t - cos t) <= / 2 ^ 50 }.

(** neither zero nor so small that squares underflow *)
Definition sizable (v : vec) : Prop := / 2 ^ 400 <= norm v.

(** All nine entries, or all three coordinates, differ by at most k. *)
Definition vec_near (k : R) (a b : vec) : Prop :=
  Rabs (vx a - vx b) <= k /\ Rabs (vy a - vy b) <= k /\ Rabs (vz a - vz b) <= k.
Definition mat_near (k : R) (a b : mat) : Prop :=
  vec_near k (r0 a) (r0 b) /\ vec_near k (r1 a) (r1 b) /\ vec_near k (r2 a) (r2 b).

(** binary64 coordinates, each zero or at least 2^-100 in size *)
Definition ordinary (v : vec) : Prop :=
  let ok x := b64 x = x /\ (x = 0 \/ / 2 ^ 100 <= Rabs x) in ok (vx v) /\ ok (vy v) /\ ok (vz v).
