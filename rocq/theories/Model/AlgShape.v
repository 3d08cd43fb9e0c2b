(** czone/volume/algebraic.py: the property setters of Sphere, Plane and Cylinder on arrays
    of any shape, and what checkIfInterior makes of a centre or point that was accepted
    although it is not a flat array of three numbers.
    (Model/Algebraic.v is the case of flat arrays.)
    Simplification: entries are real numbers (no NaN or infinity, see Model/AlgNan.v). *)
From Coq Require Import Reals List Bool Arith.
From Verif.Model Require Import Base Vec Algebraic Voxel Strain TransformObj.
Import ListNotations.
Open Scope R_scope.

(** The attributes as stored: _radius, _center and _tol of a Sphere (algebraic.py 84-92), _normal,
    _point and _tol of a Plane (141-148), those of a Cylinder (240-250), whose arrays are
    always flat. *)
Inductive surface :=
| FSphere (radius : R) (center : nparray) (tol : R)
| FPlane (normal : vec) (point : nparray) (tol : R)
| FCyl (c : cylinder).

(** Assignments to attributes, algebraic.py 53-56, 108-125, 160-179, 261-300 *)
Inductive assign :=
| AsTol (t : R)
| AsRadius (r : R)
| AsCenter (a : nparray)
| AsNormal (a : nparray)
| AsPoint (a : nparray)
| AsAxis (a : nparray)
| AsLength (l : R).

(** Sphere.center setter, algebraic.py 120-125 *)
Definition check_center (a : nparray) : res nparray :=
  if negb (Nat.eqb (asize a) 3) then Err ValueError
  else if negb (Nat.eqb (hd 0%nat (a_shape a)) 3) then Err ValueError
  else Ok a.
(** Plane.point setter, algebraic.py 160-163: shape[0] of a squeezed 0-d array raises IndexError *)
Definition check_point (a : nparray) : res nparray :=
  match squeeze (a_shape a) with
  | [] => Err IndexError
  | n :: s => if Nat.eqb n 3 then Ok (mkArr (n :: s) (a_data a)) else Err AssertionError
  end.
(** Plane.normal setter, algebraic.py 171-179 *)
Definition check_normal_arr (a : nparray) : res vec :=
  if negb (Nat.eqb (asize a) 3) then Err AssertionError else check_normal (arr_vec a).
(** np.array(arr).reshape((3,)), algebraic.py 262, 276 *)
Definition reshape3 (a : nparray) : res vec :=
  if Nat.eqb (asize a) 3 then Ok (arr_vec a) else Err ValueError.

(** The object and the outcome after one assignment.  A name that is not a property of
    the class (say the radius of a plane) becomes an ordinary instance attribute that
    nothing reads. *)
Definition assign_to (f : surface) (o : assign) : surface * res unit :=
  let put (r : res surface) := match r with Ok f' => (f', Ok tt) | Err e => (f, Err e) end in
  match f, o with
  | FSphere r c t, AsTol t' => put (x <- check_tol t' ;; Ok (FSphere r c x))
  | FSphere r c t, AsRadius r' => put (x <- check_sphere_radius r' ;; Ok (FSphere x c t))
  | FSphere r c t, AsCenter a => put (x <- check_center a ;; Ok (FSphere r x t))
  | FPlane n p t, AsTol t' => put (x <- check_tol t' ;; Ok (FPlane n p x))
  | FPlane n p t, AsNormal a => put (x <- check_normal_arr a ;; Ok (FPlane x p t))
  | FPlane n p t, AsPoint a => put (x <- check_point a ;; Ok (FPlane n x t))
  | FCyl c, AsTol t' => put (x <- check_tol t' ;; Ok (FCyl (mkCyl (c_axis c) (c_point c) (c_radius c) (c_length c) x)))
  | FCyl c, AsAxis a => put (v <- reshape3 a ;; x <- cyl_set_axis c v ;; Ok (FCyl x))
  | FCyl c, AsPoint a => put (v <- reshape3 a ;; Ok (FCyl (cyl_set_point c v)))
  | FCyl c, AsRadius r => put (x <- cyl_set_radius c r ;; Ok (FCyl x))
  | FCyl c, AsLength l => put (x <- cyl_set_length c l ;; Ok (FCyl x))
  | _, _ => (f, Ok tt)
  end.

(** The constructors, algebraic.py 84-92, 141-148, 240-250 *)
Definition make_sphere (radius : R) (center : nparray) (tol : R) : res surface :=
  r <- check_sphere_radius radius ;; c <- check_center center ;; t <- check_tol tol ;; Ok (FSphere r c t).
Definition make_plane (normal point : nparray) (tol : R) : res surface :=
  n <- check_normal_arr normal ;; p <- check_point point ;; t <- check_tol tol ;; Ok (FPlane n p t).
Definition make_cylinder (axis point : nparray) (radius length tol : R) : res surface :=
  a <- reshape3 axis ;; a' <- check_axis a ;; p <- reshape3 point ;;
  r <- check_cyl_len radius ;; l <- check_cyl_len length ;; t <- check_tol tol ;;
  Ok (FCyl (mkCyl a' p r l t)).

(** What checkIfInterior returns: a flat array of booleans, or one with more axes
    (whose entries are not modelled). *)
Inductive answers := Flags (l : list bool) | Grid.

(** testPoints - center with a (3,1) centre, algebraic.py 95: numpy stretches the single
    column along the coordinates, and a single test point along the rows *)
Definition ball_test (r t : R) (c p : vec) : bool := sphere_interior (mkSphere r c t) p.
Definition along3 (x : R) : vec := mkV x x x.
Definition sphere_answers (r : R) (c : nparray) (t : R) (pts : list vec) : res answers :=
  match a_shape c with
  | [3%nat] => Ok (Flags (map (ball_test r t (arr_vec c)) pts))
  | [3%nat; 1%nat] =>
      match pts with
      | [p] => Ok (Flags (map (fun i => ball_test r t (along3 (at_ c i)) p) [0; 1; 2]%nat))
      | [p0; p1; p2] => Ok (Flags [ball_test r t (along3 (at_ c 0)) p0; ball_test r t (along3 (at_ c 1)) p1; ball_test r t (along3 (at_ c 2)) p2])
      | _ => Err ValueError
      end
  | _ => Ok Grid
  end.

(** np.dot(testPoints, normal) - np.dot(point, normal) < tol, algebraic.py 181-182, 200: the
    last axis of the point must have length 3; the other axes remain and are broadcast
    against the N distances *)
Definition plane_test (n : vec) (t : R) (x p : vec) : bool := plane_interior (mkPlane n x t) p.
Definition row_of (a : nparray) (i : nat) : vec := mkV (at_ a (3 * i)) (at_ a (3 * i + 1)) (at_ a (3 * i + 2)).
Definition plane_answers (n : vec) (x : nparray) (t : R) (pts : list vec) : res answers :=
  let s := a_shape x in
  if negb (Nat.eqb (last s 0%nat) 3) then Err ValueError else
  match s with
  | [3%nat] => Ok (Flags (map (plane_test n t (arr_vec x)) pts))
  | [3%nat; 3%nat] =>
      match pts with
      | [p] => Ok (Flags (map (fun i => plane_test n t (row_of x i) p) [0; 1; 2]%nat))
      | [p0; p1; p2] => Ok (Flags [plane_test n t (row_of x 0) p0; plane_test n t (row_of x 1) p1; plane_test n t (row_of x 2) p2])
      | _ => Err ValueError
      end
  | _ =>
      let m := last (removelast s) 0%nat in
      if Nat.eqb (length pts) m || Nat.eqb (length pts) 1 then Ok Grid else Err ValueError
  end.

(** checkIfInterior on an Nx3 array, algebraic.py 94-96, 181-182, 302-311 *)
Definition check_interior (f : surface) (pts : list vec) : res answers :=
  match f with
  | FSphere r c t => sphere_answers r c t pts
  | FPlane n x t => plane_answers n x t pts
  | FCyl c => Ok (Flags (map (cyl_interior c) pts))
  end.
