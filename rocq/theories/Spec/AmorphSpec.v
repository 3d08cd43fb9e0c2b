(** Vocabulary for amorphous blocks and voxel grids, independent of the model's
    helpers. *)
From Coq Require Import Reals List ZArith Bool.
From Verif.Model Require Import Vec.
From Verif.Spec Require Import Geometry.
Import ListNotations.
Open Scope R_scope.

(** A point of the half-open box [0,Lx) x [0,Ly) x [0,Lz). *)
Definition in_box (L p : vec) : Prop :=
  0 <= vx p < vx L /\ 0 <= vy p < vy L /\ 0 <= vz p < vz L.
(** A uniform draw of numpy's rng.uniform. *)
Definition unit_draw (u : vec) : Prop := in_box (mkV 1 1 1) u.
(** All pairs of different entries are at distance >= d. *)
Definition separated (d : R) (l : list vec) : Prop :=
  forall i j p q, nth_error l i = Some p -> nth_error l j = Some q -> i <> j -> d <= dist p q.
(** The image of p shifted by whole box lengths. *)
Definition image (L p : vec) (a b c : Z) : vec :=
  vadd p (mkV (IZR a * vx L) (IZR b * vy L) (IZR c * vz L)).
(** The same, across the x and y boundaries. *)
Definition separated_xy (d : R) (L : vec) (l : list vec) : Prop :=
  forall i j p q a b, nth_error l i = Some p -> nth_error l j = Some q -> i <> j ->
    d <= dist (image L p a b 0) q.
(** Shifts allowed by the periodicity flags *)
Definition allowed (px py pz : bool) (a b c : Z) : Prop :=
  (px = false -> a = 0%Z) /\ (py = false -> b = 0%Z) /\ (pz = false -> c = 0%Z).
(** s is the smallest squared distance between p's images and q. *)
Definition min_image (px py pz : bool) (L p q : vec) (s : R) : Prop :=
  (forall a b c, allowed px py pz a b c -> s <= dist (image L p a b c) q ^ 2) /\
  (exists a b c, allowed px py pz a b c /\ s = dist (image L p a b c) q ^ 2).

(** Voxel grids: the 1-D index of cell (x,y,z) in a grid of d0*d1*d2 cells, x fastest. *)
Definition cell_index (d0 d1 : Z) (x y z : Z) : Z := (x + y * d0 + z * (d0 * d1))%Z.
Definition in_grid (d0 d1 d2 x y z : Z) : Prop :=
  (0 <= x < d0 /\ 0 <= y < d1 /\ 0 <= z < d2)%Z.
(** A step of -1, 0 or 1 along one axis: wrapped if periodic, otherwise it must stay
    inside. *)
Definition axis_step (periodic : bool) (d x x' : Z) : Prop :=
  exists s, (-1 <= s <= 1)%Z /\
    if periodic then x' = ((x + s) mod d)%Z else (0 <= x' < d)%Z /\ x' = (x + s)%Z.
