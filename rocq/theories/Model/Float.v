(** The interior tests of czone/volume/algebraic.py in binary64 arithmetic: every
    operation is rounded to nearest even.  Simplification: no overflow (the exponent
    range is unbounded above), so statements are about moderate numbers. *)
From Coq Require Import Reals List Bool ZArith.
From Flocq Require Import Core.
From Verif.Model Require Import Base Vec Algebraic Voxel Generator Volume.
Import ListNotations.
Open Scope R_scope.

(** IEEE 754 binary64: 53 bit significand, smallest positive number 2^-1074.  The
    float64 arithmetic of numpy behind algebraic.py 94-96, 181-200, 302-311. *)
Definition b64 (x : R) : R := round radix2 (FLT_exp (-1074) 53) ZnearestE x.

(** Rounded elementwise difference of two (3,) arrays, algebraic.py 95, 303, 309 *)
Definition fsub (a b : vec) : vec :=
  mkV (b64 (vx a - vx b)) (b64 (vy a - vy b)) (b64 (vz a - vz b)).
(** Rounded sum of the squares of three numbers, from left to right:
    np.sum(x**2.0, axis=1), algebraic.py 95-96, and the one in np.linalg.norm, 303-305 *)
Definition fsumsq (d : vec) : R :=
  b64 (b64 (b64 (vx d * vx d) + b64 (vy d * vy d)) + b64 (vz d * vz d)).
(** np.cross, algebraic.py 303-304: each product and the difference are rounded *)
Definition fcross (a b : vec) : vec :=
  mkV (b64 (b64 (vy a * vz b) - b64 (vz a * vy b)))
      (b64 (b64 (vz a * vx b) - b64 (vx a * vz b)))
      (b64 (b64 (vx a * vy b) - b64 (vy a * vx b))).
(** np.linalg.norm(x, axis=1) on one row, algebraic.py 303-305 *)
Definition fnorm (d : vec) : R := b64 (sqrt (fsumsq d)).
(** np.dot of two (3,) arrays with products and sums rounded from left to right,
    algebraic.py 200, 309 *)
Definition fdot (a b : vec) : R :=
  b64 (b64 (b64 (vx a * vx b) + b64 (vy a * vy b)) + b64 (vz a * vz b)).

(** Sphere.checkIfInterior, algebraic.py 94-96 *)
Definition f_sphere_interior (s : sphere) (p : vec) : bool :=
  let d := fsub p (s_center s) in
  let rho := b64 (s_radius s + s_tol s) in
  Rltb (fsumsq d) (b64 (rho * rho)).

(** np.dot goes to a BLAS library, which may reorder the sum and use fused
    operations, and which uses different routines for one row and for an array:
    [dot1] is the one used for np.dot(testPoints, x), [dot2] the one for
    np.dot(self.point, x).  Plane.checkIfInterior, algebraic.py 181-182, 200 *)
Definition f_plane_interior (dot1 dot2 : vec -> vec -> R) (pl : plane) (p : vec) : bool :=
  Rltb (b64 (dot1 p (p_normal pl) - dot2 (p_point pl) (p_normal pl))) (p_tol pl).

(** Cylinder.checkIfInterior, algebraic.py 302-311 *)
Definition f_cyl_interior (dot1 : vec -> vec -> R) (c : cylinder) (p : vec) : bool :=
  let d := fsub p (c_point c) in
  Rltb (fnorm (fcross d (c_axis c))) (b64 (c_radius c + c_tol c))
  && Rltb (Rabs (dot1 d (c_axis c))) (b64 (b64 (c_length c / 2) + c_tol c)).

(** checkIfInterior dispatch *)
Definition f_alg_interior (dot1 dot2 : vec -> vec -> R) (a : alg) (p : vec) : bool :=
  match a with
  | ASphere s => f_sphere_interior s p
  | APlane pl => f_plane_interior dot1 dot2 pl p
  | ACyl c => f_cyl_interior dot1 c p
  end.

(** Volume.checkIfInterior for one point, volume.py 293-312 (the test against the
    triangulation is the one of scipy) *)
Definition f_leaf_inside (w : world) (dot1 dot2 : vec -> vec -> R) (l : leaf) (p : vec) : bool :=
  fold_left (fun c a => c && f_alg_interior dot1 dot2 a p) (l_alg l)
    (match l_tri l with Some t => w_find w t (l_tol l) p | None => true end).

(** ** Populating with rounded numbers *)
(** Rounded elementwise sum of two (3,) arrays, generator.py 220, 224 *)
Definition fadd (a b : vec) : vec :=
  mkV (b64 (vx a + vx b)) (b64 (vy a + vy b)) (b64 (vz a + vz b)).
(** bases @ x for one column, generator.py 216-218.  [dotm] is the row times column
    product of the matmul in use; the fourth column of the 4x4 matrix only adds zeros. *)
Definition f_mv (dotm : vec -> vec -> R) (m : mat) (x : vec) : vec :=
  mkV (dotm (r0 m) x) (dotm (r1 m) x) (dotm (r2 m) x).
(** Position of a site, generator.py 214-225: cell part plus site part, then the origin.
    Simplification: sbases is taken as it is (its product with the scale 1 is exact). *)
Definition f_site_pos (dotm : vec -> vec -> R) (v : voxel) (n : Z * Z * Z) (f : vec) : vec :=
  let '(a, b, c) := n in
  fadd (fadd (f_mv dotm (sbases v) (mkV (IZR a) (IZR b) (IZR c))) (f_mv dotm (sbases v) f)) (vo_origin v).
(** Voxel.get_extents, voxel.py 108-128.  [frac p] is what np.linalg.solve returns for
    the computed corner that stands for p, so that the rounding of the corners is part of
    it; minimum, maximum, floor and ceil are exact. *)
Definition f_extents (frac : vec -> vec) (box : list vec) : res ((Z * Z * Z) * (Z * Z * Z)) :=
  match map frac box with
  | [] => Err ValueError
  | e :: es => Ok (vfloor (rows_min e es), vceil (rows_max e es))
  end.
(** Generator.supply_atoms without strain and post transform, generator.py 200-231, as a
    list of (position, species) *)
Definition f_supply (dotm : vec -> vec -> R) (frac : vec -> vec) (g : crystal) (box : list vec)
  : res (list (vec * Z)) :=
  ext <- f_extents frac box ;;
  Ok (flat_map (fun n => map (fun fz => (f_site_pos dotm (g_voxel g) n (fst fz), snd fz))
                             (combine (st_frac (g_structure g)) (st_numbers (g_structure g))))
               (cells (fst ext) (snd ext))).
(** Volume.populate_atoms for such a generator, volume.py 347-353 *)
Definition f_populate (w : world) (dotm dot1 dot2 : vec -> vec -> R) (frac : vec -> vec) (l : leaf) (g : crystal)
  : res (list (vec * Z)) :=
  match get_bounding_box w l with
  | BArr box =>
      ats <- f_supply dotm frac g box ;;
      Ok (filter (fun q => f_leaf_inside w dot1 dot2 l (fst q)) ats)
  | _ => Err ValueError
  end.
