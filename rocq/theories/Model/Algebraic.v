(** czone/volume/algebraic.py: Sphere, Plane, Cylinder and the utility routines.
    Simplification: constructor arguments have the documented shapes ((3,) arrays,
    floats) and finite values; the domain checks (positive radius, non-zero normal, ...) are
    modelled here, arrays of any shape in Model/AlgShape.v, NaN and infinities in
    Model/AlgNan.v. *)
From Coq Require Import Reals List Bool ZArith.
From Flocq Require Import Core.Raux Core.Generic_fmt Core.Round_NE.
From Verif.Model Require Import Base Vec.
Import ListNotations.
Open Scope R_scope.

(** algebraic.py 73-125 *)
Record sphere := mkSphere { s_radius : R; s_center : vec; s_tol : R }.
(** algebraic.py 128-223 *)
Record plane := mkPlane { p_normal : vec; p_point : vec; p_tol : R }.
(** algebraic.py 226-341 *)
Record cylinder := mkCyl { c_axis : vec; c_point : vec; c_radius : R; c_length : R; c_tol : R }.

(** algebraic.py 17 (BaseAlgebraic and its three subclasses) *)
Inductive alg := ASphere (s : sphere) | APlane (p : plane) | ACyl (c : cylinder).

(** BaseAlgebraic.tol setter, algebraic.py 53-56 *)
Definition check_tol (t : R) : res R := if Rltb 0 t then Ok t else Err AssertionError.
(** Sphere.radius setter, algebraic.py 108-113 *)
Definition check_sphere_radius (r : R) : res R := if Rltb 0 r then Ok r else Err ValueError.
(** Plane.normal setter, algebraic.py 171-179 *)
Definition check_normal (n : vec) : res vec :=
  if Rltb eps (norm n) then Ok (vscale (/ norm n) n) else Err ValueError.
(** Cylinder.axis setter, algebraic.py 261-267 *)
Definition check_axis (a : vec) : res vec :=
  if Rleb (norm a) eps then Err ValueError else Ok (vscale (/ norm a) a).
(** Cylinder.radius and Cylinder.length setters, algebraic.py 283-288, 295-300 *)
Definition check_cyl_len (x : R) : res R := if Rltb x eps then Err ValueError else Ok x.

(** Sphere.__init__, algebraic.py 84-92 *)
Definition new_sphere (radius : R) (center : vec) (tol : R) : res sphere :=
  r <- check_sphere_radius radius ;;
  t <- check_tol tol ;;
  Ok (mkSphere r center t).
(** Plane.__init__, algebraic.py 141-148 *)
Definition new_plane (normal point : vec) (tol : R) : res plane :=
  n <- check_normal normal ;;
  t <- check_tol tol ;;
  Ok (mkPlane n point t).
(** Cylinder.__init__, algebraic.py 240-250 *)
Definition new_cylinder (axis point : vec) (radius length tol : R) : res cylinder :=
  a <- check_axis axis ;;
  r <- check_cyl_len radius ;;
  l <- check_cyl_len length ;;
  t <- check_tol tol ;;
  Ok (mkCyl a point r l t).

(** Default tolerance 1e-5 of all three constructors, algebraic.py 87, 144, 245 *)
Definition default_tol : R := / 100000.

(** The individual property setters, algebraic.py 53-56, 108-125, 160-179, 261-300.
    An exception leaves the object as it was. *)
Definition set_tol (a : alg) (t : R) : res alg :=
  t' <- check_tol t ;;
  Ok match a with
     | ASphere s => ASphere (mkSphere (s_radius s) (s_center s) t')
     | APlane p => APlane (mkPlane (p_normal p) (p_point p) t')
     | ACyl c => ACyl (mkCyl (c_axis c) (c_point c) (c_radius c) (c_length c) t')
     end.
Definition sphere_set_radius (s : sphere) (r : R) : res sphere :=
  r' <- check_sphere_radius r ;; Ok (mkSphere r' (s_center s) (s_tol s)).
Definition sphere_set_center (s : sphere) (c : vec) : sphere :=
  mkSphere (s_radius s) c (s_tol s).
Definition plane_set_normal (p : plane) (n : vec) : res plane :=
  n' <- check_normal n ;; Ok (mkPlane n' (p_point p) (p_tol p)).
Definition plane_set_point (p : plane) (x : vec) : plane :=
  mkPlane (p_normal p) x (p_tol p).
Definition cyl_set_axis (c : cylinder) (a : vec) : res cylinder :=
  a' <- check_axis a ;; Ok (mkCyl a' (c_point c) (c_radius c) (c_length c) (c_tol c)).
Definition cyl_set_point (c : cylinder) (x : vec) : cylinder :=
  mkCyl (c_axis c) x (c_radius c) (c_length c) (c_tol c).
Definition cyl_set_radius (c : cylinder) (r : R) : res cylinder :=
  r' <- check_cyl_len r ;; Ok (mkCyl (c_axis c) (c_point c) r' (c_length c) (c_tol c)).
Definition cyl_set_length (c : cylinder) (l : R) : res cylinder :=
  l' <- check_cyl_len l ;; Ok (mkCyl (c_axis c) (c_point c) (c_radius c) l' (c_tol c)).

(** Sphere.checkIfInterior, algebraic.py 94-96 *)
Definition sphere_interior (s : sphere) (p : vec) : bool :=
  let d := vsub p (s_center s) in
  Rltb (vx d * vx d + vy d * vy d + vz d * vz d)
       ((s_radius s + s_tol s) * (s_radius s + s_tol s)).

(** Plane.sdist_from_plane, algebraic.py 189-200 *)
Definition sdist_from_plane (pl : plane) (p : vec) : R :=
  dot p (p_normal pl) - dot (p_point pl) (p_normal pl).
(** Plane.dist_from_plane, algebraic.py 202-212 *)
Definition dist_from_plane (pl : plane) (p : vec) : R := Rabs (sdist_from_plane pl p).
(** Plane.checkIfInterior, algebraic.py 181-182 *)
Definition plane_interior (pl : plane) (p : vec) : bool :=
  Rltb (sdist_from_plane pl p) (p_tol pl).
(** Plane.flip_orientation, algebraic.py 184-187 (mutates; goes through the normal setter) *)
Definition flip_orientation (pl : plane) : res plane := plane_set_normal pl (vopp (p_normal pl)).
(** Plane.project_point on one row of an Nx3 array, algebraic.py 214-223 *)
Definition project_row (pl : plane) (p : vec) : vec :=
  vsub p (vscale (sdist_from_plane pl p) (p_normal pl)).

(** numpy arrays of points as the caller may pass them: one point of shape (3,)
    or an Nx3 array. *)
Inductive ndarray := A1 (v : vec) | A2 (l : list vec).
(** Plane.project_point, algebraic.py 223:  sdist(...)[:,None]  needs the signed
    distances to be an array, which is not the case for a single (3,) point. *)
Definition project_point (pl : plane) (a : ndarray) : res ndarray :=
  match a with
  | A1 _ => Err IndexError
  | A2 l => Ok (A2 (map (project_row pl) l))
  end.

(** Cylinder.checkIfInterior, algebraic.py 302-311 *)
Definition cyl_interior (c : cylinder) (p : vec) : bool :=
  let d := vsub p (c_point c) in
  Rltb (norm (cross d (c_axis c))) (c_radius c + c_tol c)
  && Rltb (Rabs (dot d (c_axis c))) (c_length c / 2 + c_tol c).

(** checkIfInterior dispatch *)
Definition alg_interior (a : alg) (p : vec) : bool :=
  match a with
  | ASphere s => sphere_interior s p
  | APlane pl => plane_interior pl p
  | ACyl c => cyl_interior c p
  end.

(** vs_0 after projecting out the axis and before the second normalisation.
    algebraic.py 318-323 *)
Definition cyl_vs0_raw (c : cylinder) : vec :=
  let ones := mkV 1 1 1 in
  let u := vscale (/ norm ones) ones in
  vsub u (vscale (dot u (c_axis c)) (c_axis c)).

(** Cylinder.get_bounding_box, algebraic.py 313-341.  [None] stands for an array
    of NaNs (0/0 in the second or third normalisation). *)
Definition cyl_bounding_box (c : cylinder) : option (list vec) :=
  let vs0r := cyl_vs0_raw c in
  if Reqb (norm vs0r) 0 then None else
  let vs0 := vscale (/ norm vs0r) vs0r in
  let vs1r := cross vs0 (c_axis c) in
  if Reqb (norm vs1r) 0 then None else
  let vs1 := vscale (/ norm vs1r) vs1r in
  let square := map (fun w => vadd (c_point c) (vscale (c_radius c) w))
                    [vadd vs0 vs1; vsub vs0 vs1; vadd (vopp vs0) vs1; vsub (vopp vs0) vs1] in
  let h := vscale (c_length c / 2) (c_axis c) in
  Some (map (fun p => vadd p h) square ++ map (fun p => vsub p h) square).

(** from_alg_object without transformation, algebraic.py 58-71: a deep copy, which
    in this value-semantics model is the object itself (aliasing: Model/Heap.v). *)

(** convex_hull_to_planes, algebraic.py 350-372.  [facets] are the index triples of
    scipy's Delaunay(points).convex_hull and [centroid_in] is
    find_simplex(mean) >= 0; both are arguments. *)
Definition facet_to_plane (points : list vec) (f : nat * nat * nat) : res plane :=
  let '(i, j, k) := f in
  match nth_error points i, nth_error points j, nth_error points k with
  | Some a, Some b, Some c =>
      new_plane (cross (vsub b a) (vsub c a)) a default_tol
  | _, _, _ => Err IndexError
  end.
(** np.mean(points, axis=0) *)
Definition vmean (points : list vec) : vec :=
  vscale (/ INR (length points)) (fold_right vadd v0 points).
Definition convex_hull_to_planes (points : list vec) (facets : list (nat * nat * nat))
           (centroid_in : bool) : res (list plane) :=
  planes <- mapM (facet_to_plane points) facets ;;
  let ipoint := vmean points in
  if negb centroid_in then Err AssertionError else
  mapM (fun pl => if plane_interior pl ipoint then Ok pl else flip_orientation pl) planes.

(** get_bounding_box(planes), algebraic.py 374-421: the shift and the half-space
    system handed to scipy.  algebraic.py 392-406 *)
Definition bb_shift (planes : list plane) : vec :=
  vscale (-3/2) (fold_left (fun s pl => vmin s (p_point pl)) planes v0).
(** One row (A_i, d_i, |n_i|) of the system; algebraic.py 402-406 *)
Definition bb_row (shift : vec) (pl : plane) : vec * R * R :=
  (p_normal pl, - dot (p_normal pl) (vadd (p_point pl) shift), norm (p_normal pl)).

(** What scipy answers: [LPok x] is linprog status 0 with solution x (first three
    coordinates), otherwise the status; and HalfspaceIntersection either returns
    vertices or raises QhullError.  Both solvers are arguments. *)
Inductive lp_result := LPok (x : vec) | LPfail (status : Z).
Definition bounding_box_planes
    (linprog : list (vec * R * R) -> lp_result)
    (halfspace : list (vec * R * R) -> vec -> option (list vec))
    (planes : list plane) : list vec * Z :=
  let shift := bb_shift planes in
  let rows := map (bb_row shift) planes in
  match linprog rows with
  | LPok x => match halfspace rows x with
              | Some vs => (map (fun v => vsub v shift) vs, 0%Z)
              | None => ([], 2%Z)
              end
  | LPfail st => ([], st)
  end.

(** np.round (half to even), np.fix and round_away, as integers.
    misc.py 7-16 (round_away), algebraic.py 467-478 *)
Definition np_round (x : R) : Z := ZnearestE x.
Definition np_fix (x : R) : Z := Ztrunc x.
Definition np_sign (x : R) : Z := if Rltb 0 x then 1%Z else if Rltb x 0 then (-1)%Z else 0%Z.
Definition round_away (x : R) : Z := (np_sign x * Zceil (Rabs x))%Z.
