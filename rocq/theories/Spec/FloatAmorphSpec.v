(** What numpy delivers to gen_p_substrate: doubles, uniform draws, and a square. *)
From Coq Require Import Reals List ZArith.
From Verif.Model Require Import Vec Float.
From Verif.Spec Require Import Geometry AmorphSpec FloatSpec.
Import ListNotations.
Open Scope R_scope.

(** a binary64 number *)
Definition double (x : R) : Prop := b64 x = x.
(** numpy's uniform generator returns multiples of 2^-53 in [0, 1) *)
Definition draw1 (x : R) : Prop := exists k : Z, (0 <= k < 2 ^ 53)%Z /\ x = IZR k / 2 ^ 53.
Definition draw53 (u : vec) : Prop := draw1 (vx u) /\ draw1 (vy u) /\ draw1 (vz u).
(** x ** 2.0, right up to two roundings *)
Definition sound_square (f : R -> R) : Prop :=
  forall x, Rabs (f x - x * x) <= 2 * ulp1 * (x * x) + tiny.
(** lengths and spacings that do not underflow *)
Definition length_ok (x : R) : Prop := double x /\ / 2 ^ 100 <= x.
Definition block_ok (D : R) (L : vec) : Prop :=
  (length_ok (vx L) /\ vx L <= D) /\ (length_ok (vy L) /\ vy L <= D) /\ (length_ok (vz L) /\ vz L <= D).
(** x is a whole number *)
Definition is_whole (x : R) : Prop := exists z : Z, x = IZR z.
