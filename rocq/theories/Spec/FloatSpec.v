(** The bodies a user has in mind, without any padding, and the sizes of numbers for
    which the rounded tests are reliable. *)
From Coq Require Import Reals List ZArith.
From Verif.Model Require Import Vec Algebraic Volume.
Import ListNotations.
Open Scope R_scope.

(** half the distance from 1 to the next binary64 number, and half the smallest one *)
Definition ulp1 : R := / 2 ^ 53.
Definition tiny : R := / 2 ^ 1075.

(** A dot product as accurate as any order of evaluation of rounded operations,
    fused or not *)
Definition accurate (f : vec -> vec -> R) : Prop := forall a b,
  Rabs (f a b - dot a b) <=
    4 * ulp1 * (Rabs (vx a * vx b) + Rabs (vy a * vy b) + Rabs (vz a * vz b)) + 8 * tiny.

(** [p] in the ball, half space or finite cylinder enlarged by [pad] on every side *)
Definition within (pad : R) (a : alg) (p : vec) : Prop :=
  match a with
  | ASphere s => dist p (s_center s) <= s_radius s + pad
  | APlane pl => dot (vsub p (p_point pl)) (p_normal pl) <= pad
  | ACyl c => exists k, let q := vadd (c_point c) (vscale k (c_axis c)) in
                dot (vsub p q) (c_axis c) = 0 /\
                dist p q <= c_radius c + pad /\ dist q (c_point c) <= c_length c / 2 + pad
  end.
Definition pad_of (a : alg) : R :=
  match a with ASphere s => s_tol s | APlane pl => p_tol pl | ACyl c => c_tol c end.

(** coordinates up to about a million (0.1 mm in Angstrom) *)
Definition big : R := 2 ^ 20.
Definition mid (x : R) : Prop := Rabs x <= big.
Definition vmid (v : vec) : Prop := mid (vx v) /\ mid (vy v) /\ mid (vz v).
(** sizes and tolerances in range; directions of length 1 up to rounding *)
Definition moderate (a : alg) : Prop :=
  / big <= pad_of a <= 1 /\
  match a with
  | ASphere s => vmid (s_center s) /\ 0 <= s_radius s <= big
  | APlane pl => vmid (p_point pl) /\ Rabs (norm (p_normal pl) - 1) <= / 2 ^ 50
  | ACyl c => vmid (c_point c) /\ Rabs (norm (c_axis c) - 1) <= / 2 ^ 50 /\
              0 <= c_radius c <= big /\ 0 <= c_length c <= big
  end.

(** The computed fractional coordinates of the corners are off by at most [delta]. *)
Definition corners_within (delta : R) (B : mat) (o : vec) (frac : vec -> vec) (box : list vec) : Prop :=
  forall p, In p box -> exists x, mv B x = vsub p o /\
    Rabs (vx (frac p) - vx x) <= delta /\ Rabs (vy (frac p) - vy x) <= delta /\ Rabs (vz (frac p) - vz x) <= delta.
(** fractional coordinates in the open interval (-1 + delta, 1 - delta); in particular
    those of a unit cell that keep clear of its far faces *)
Definition clear_of (delta : R) (f : vec) : Prop :=
  Rabs (vx f) < 1 - delta /\ Rabs (vy f) < 1 - delta /\ Rabs (vz f) < 1 - delta.
(** the terms of the products that give a site's coordinates add up to moderate numbers *)
Definition light (B : mat) (n : Z * Z * Z) (f : vec) : Prop :=
  let '(a, b, c) := n in
  let row r := Rabs (vx r) * (Rabs (IZR a) + Rabs (vx f)) + Rabs (vy r) * (Rabs (IZR b) + Rabs (vy f)) +
               Rabs (vz r) * (Rabs (IZR c) + Rabs (vz f)) in
  row (r0 B) <= 4 * big /\ row (r1 B) <= 4 * big /\ row (r2 B) <= 4 * big.
(** coordinates up to half a million *)
Definition inner (p : vec) : Prop := vmid (vscale 2 p).
(** the largest displacement of an atom by rounding *)
Definition slip : R := / 2 ^ 25.
