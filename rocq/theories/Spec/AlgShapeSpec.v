(** What assigning to the attributes of a surface means, and which points are inside. *)
From Coq Require Import Reals List Bool.
From Verif.Model Require Import Base Vec Voxel Algebraic AlgShape.
From Verif.Spec Require Import Geometry StrainSpec.
Import ListNotations.
Open Scope R_scope.

(** an array that numpy could have made: as many numbers as the shape says *)
Definition real_array (a : nparray) : Prop := length (a_data a) = fold_right Nat.mul 1%nat (a_shape a).
(** three numbers, with the point they are the coordinates of *)
Definition three (a : nparray) (v : vec) : Prop := a_data a = [vx v; vy v; vz v] /\ fold_right Nat.mul 1%nat (a_shape a) = 3%nat.
(** a flat array of three numbers *)
Definition flat3 (a : nparray) (v : vec) : Prop := a_data a = [vx v; vy v; vz v] /\ a_shape a = [3%nat].
(** a column of three numbers *)
Definition column3 (a : nparray) (v : vec) : Prop := a_data a = [vx v; vy v; vz v] /\ a_shape a = [3%nat; 1%nat].

(** the three solids, padded by a tolerance *)
Definition in_ball (r : R) (c : vec) (t : R) (p : vec) : Prop := dist p c < r + t.
Definition in_half_space (n x : vec) (t : R) (p : vec) : Prop := dot (vsub p x) n < t * norm n.
Definition in_rod (a x : vec) (r l t : R) (p : vec) : Prop :=
  let foot := vadd x (vscale (dot (vsub p x) a / dot a a) a) in dist p foot < r + t /\ dist foot x < l / 2 + t.

(** one answer for every point, and the right one *)
Definition answers_right (f : surface) (inside : vec -> Prop) : Prop :=
  forall pts, exists l, check_interior f pts = Ok (Flags l) /\ Forall2 (fun p b => b = true <-> inside p) pts l.

(** a program that assigns one attribute after another, going on after refusals *)
Definition assigned (f : surface) (h : list assign) : surface := fold_left (fun f o => fst (assign_to f o)) h f.

(** the point an array of three numbers names *)
Definition three_of (a : nparray) : option vec := match a_data a with [x; y; z] => Some (mkV x y z) | _ => None end.
(** values a property takes *)
Definition asks_tol (o : assign) : option R := match o with AsTol t => if Rlt_dec 0 t then Some t else None | _ => None end.
Definition asks_radius (o : assign) : option R := match o with AsRadius r => if Rlt_dec 0 r then Some r else None | _ => None end.
Definition asks_center (o : assign) : option vec := match o with AsCenter a => three_of a | _ => None end.
Definition asks_point (o : assign) : option vec := match o with AsPoint a => three_of a | _ => None end.
(** directions shorter than machine precision are refused *)
Definition direction (a : nparray) : option vec :=
  match three_of a with Some v => if Rlt_dec eps (norm v) then Some v else None | None => None end.
Definition asks_normal (o : assign) : option vec := match o with AsNormal a => direction a | _ => None end.
Definition asks_axis (o : assign) : option vec := match o with AsAxis a => direction a | _ => None end.
(** and so are radii and lengths of cylinders *)
Definition asks_cyl_radius (o : assign) : option R := match o with AsRadius r => if Rle_dec eps r then Some r else None | _ => None end.
Definition asks_length (o : assign) : option R := match o with AsLength l => if Rle_dec eps l then Some l else None | _ => None end.

(** the arrays of an assignment *)
Definition arrays_of (o : assign) : list nparray :=
  match o with AsCenter a | AsNormal a | AsPoint a | AsAxis a => [a] | _ => [] end.
Definition real_assign (o : assign) : Prop := Forall real_array (arrays_of o).
(** no centre with more than one axis; no point with more than one axis longer than one *)
Definition flat_center (o : assign) : Prop := match o with AsCenter a => (length (a_shape a) <= 1)%nat | _ => True end.
Definition thin_point (o : assign) : Prop :=
  match o with AsPoint a => exists d, long_axes (a_shape a) d /\ (length d <= 1)%nat | _ => True end.
