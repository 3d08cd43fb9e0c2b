(** applyTransformation of czone/transform/transform.py on one point, on bases and on
    algebraic objects in binary64 arithmetic.  Simplification as in Float.v: no overflow. *)
From Coq Require Import Reals List Bool ZArith.
From Verif.Model Require Import Base Vec Algebraic Transform Float FloatRot.
Import ListNotations.
Open Scope R_scope.

Section Move.
(** the row times column products inside np.dot and @, transform.py 209-212, 319 *)
Variable dotm : vec -> vec -> R.
(** MatrixTransform.applyTransformation, transform.py 207-214 *)
Definition f_matrix_pt (m : mat) (o : option vec) (p : vec) : vec :=
  match o with
  | Some o => fadd (f_mv dotm m (fsub p o)) o
  | None => f_mv dotm m p
  end.
(** np.eye(3) - (2.0 / (n.T @ n)) * (n @ n.T), transform.py 316-319; the entries of n @ n.T
    are single products *)
Definition f_reflection_matrix (n : vec) : mat :=
  let c := b64 (2 / dotm n n) in
  let row (e : vec) (x : R) := fsub e (f_vscale c (f_vscale x n)) in
  mkM (row (mkV 1 0 0) (vx n)) (row (mkV 0 1 0) (vy n)) (row (mkV 0 0 1) (vz n)).
(** applyTransformation, transform.py 135-136, 207-214, 411-414; the matrix of an Inversion
    is exact (259-262), that of a Reflection is computed when its plane is set (325-332) *)
Fixpoint f_apply_pt (t : transform) (p : vec) : vec :=
  match t with
  | TTranslation s _ _ => fadd p s
  | TMatrix m o _ _ => f_matrix_pt m o p
  | TInversion o _ _ => f_matrix_pt (mscale (-1) mI) o p
  | TReflection pl _ _ => f_matrix_pt (f_reflection_matrix (p_normal pl)) (Some (p_point pl)) p
  | TMulti ts => fold_left (fun q t' => f_apply_pt t' q) ts p
  end.
(** np.dot(matrix, bases), transform.py 216-217, by columns *)
Definition f_times (m b : mat) : mat :=
  let c := mt b in mt (mkM (f_mv dotm m (r0 c)) (f_mv dotm m (r1 c)) (f_mv dotm m (r2 c))).
(** applyTransformation_bases, transform.py 138-139, 216-217, 416-419 *)
Fixpoint f_apply_bases (t : transform) (b : mat) : mat :=
  match t with
  | TTranslation _ _ _ => b
  | TMatrix m _ _ _ => f_times m b
  | TInversion _ _ _ => f_times (mscale (-1) mI) b
  | TReflection pl _ _ => f_times (f_reflection_matrix (p_normal pl)) b
  | TMulti ts => fold_left (fun q t' => f_apply_bases t' q) ts b
  end.
(** bases and origin after Generator.transform, generator.py 246-252.  Simplification: the
    test for collinear bases (C147) is left out. *)
Definition f_move (s : mat * vec) (t : transform) : mat * vec :=
  (f_apply_bases t (fst s), if basis_only t then snd s else f_apply_pt t (snd s)).
(** Plane.normal and Cylinder.axis setters, algebraic.py 171-179, 261-267 *)
Definition f_direction (n : vec) : res vec :=
  let l := b64 (sqrt (dotm n n)) in
  if Rltb eps l then Ok (f_vdiv n l) else Err ValueError.
(** MatrixTransform.applyTransformation_alg, transform.py 219-249 *)
Definition f_matrix_alg (m : mat) (o : option vec) (a : alg) : res alg :=
  match a with
  | ASphere s => Ok (ASphere (sphere_set_center s (f_matrix_pt m o (s_center s))))
  | APlane p => n <- f_direction (f_mv dotm m (p_normal p)) ;;
                Ok (APlane (mkPlane n (f_matrix_pt m o (p_point p)) (p_tol p)))
  | ACyl c => n <- f_direction (f_mv dotm m (c_axis c)) ;;
              Ok (ACyl (mkCyl n (f_matrix_pt m o (c_point c)) (c_radius c) (c_length c) (c_tol c)))
  end.
(** applyTransformation_alg, transform.py 141-149, 219-249, 338-348, 421-424, as in
    Transform.v [apply_alg] *)
Fixpoint f_apply_alg (t : transform) (a : alg) : res alg :=
  match t with
  | TTranslation s _ _ =>
      Ok match a with
         | ASphere x => ASphere (sphere_set_center x (fadd (s_center x) s))
         | APlane x => APlane (plane_set_point x (fadd (p_point x) s))
         | ACyl x => ACyl (cyl_set_point x (fadd (c_point x) s))
         end
  | TMatrix m o _ _ => f_matrix_alg m o a
  | TInversion o _ _ => f_matrix_alg (mscale (-1) mI) o a
  | TReflection _ _ _ => Err TypeError
  | TMulti ts => foldM (fun x t' => f_apply_alg t' x) ts a
  end.
End Move.
