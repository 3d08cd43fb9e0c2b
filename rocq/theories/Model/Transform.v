(** czone/transform/transform.py *)
From Coq Require Import Reals List Bool ZArith.
From Verif.Model Require Import Base Vec Algebraic.
Import ListNotations.
Open Scope R_scope.

(** The transformation objects.  [lk] is locked, [bo] is basis_only.
    [TMatrix] is MatrixTransform and Rotation (they differ only in the setter, see
    [new_rotation]); a Reflection stores the plane it was built from.
    Not modelled: instances whose shift or matrix was never set.
    transform.py 100 (Translation), 152 (MatrixTransform), 252 (Inversion),
    265 (Rotation), 294 (Reflection), 351 (MultiTransform) *)
Inductive transform :=
| TTranslation (shift : vec) (lk bo : bool)
| TMatrix (m : mat) (o : option vec) (lk bo : bool)
| TInversion (o : option vec) (lk bo : bool)
| TReflection (pl : plane) (lk bo : bool)
| TMulti (ts : list transform).

(** Reflection.matrix setter, transform.py 316-319:
    eye(3) - 2/(n.T @ n) * (n @ n.T) *)
Definition reflection_matrix (n : vec) : mat := msub mI (mscale (2 / dot n n) (outer n n)).

(** Rotation.matrix setter, transform.py 282-291 *)
Definition rotation_ok (m : mat) : bool :=
  Rltb (Rabs (det m - 1)) (/ 10 ^ 6) && Rltb (msumabs (msub (mm m (mt m)) mI)) (/ 10 ^ 6).
Definition new_rotation (m : mat) (o : option vec) (lk bo : bool) : res transform :=
  if rotation_ok m then Ok (TMatrix m o lk bo) else Err AssertionError.

(** locked / basis_only; for a MultiTransform np.any over the members.
    transform.py 77-97, 377-392 *)
Fixpoint locked (t : transform) : bool :=
  match t with
  | TTranslation _ lk _ | TMatrix _ _ lk _ | TInversion _ lk _ | TReflection _ lk _ => lk
  | TMulti ts => existsb locked ts
  end.
Fixpoint basis_only (t : transform) : bool :=
  match t with
  | TTranslation _ _ bo | TMatrix _ _ _ bo | TInversion _ _ bo | TReflection _ _ bo => bo
  | TMulti ts => existsb basis_only ts
  end.

(** MatrixTransform.applyTransformation on one row, transform.py 207-214 *)
Definition matrix_pt (m : mat) (o : option vec) (p : vec) : vec :=
  match o with
  | Some o => vadd (mv m (vsub p o)) o
  | None => mv m p
  end.

(** applyTransformation on one row.
    transform.py 135-136, 207-214, 411-414; Inversion.matrix 259-262;
    Reflection.plane 325-332 sets matrix and origin from the plane *)
Fixpoint apply_pt (t : transform) (p : vec) : vec :=
  match t with
  | TTranslation s _ _ => vadd p s
  | TMatrix m o _ _ => matrix_pt m o p
  | TInversion o _ _ => matrix_pt (mscale (-1) mI) o p
  | TReflection pl _ _ => matrix_pt (reflection_matrix (p_normal pl)) (Some (p_point pl)) p
  | TMulti ts => fold_left (fun q t' => apply_pt t' q) ts p
  end.

(** applyTransformation_bases, transform.py 138-139, 216-217, 416-419 *)
Fixpoint apply_bases (t : transform) (b : mat) : mat :=
  match t with
  | TTranslation _ _ _ => b
  | TMatrix m _ _ _ => mm m b
  | TInversion _ _ _ => mm (mscale (-1) mI) b
  | TReflection pl _ _ => mm (reflection_matrix (p_normal pl)) b
  | TMulti ts => fold_left (fun q t' => apply_bases t' q) ts b
  end.

(** MatrixTransform.applyTransformation_alg, transform.py 219-249 *)
Definition matrix_alg (m : mat) (o : option vec) (a : alg) : res alg :=
  match a with
  | ASphere s => Ok (ASphere (sphere_set_center s (matrix_pt m o (s_center s))))
  | APlane p => p' <- plane_set_normal (plane_set_point p (matrix_pt m o (p_point p)))
                                       (mv m (p_normal p)) ;;
                Ok (APlane p')
  | ACyl c => c' <- cyl_set_axis (cyl_set_point c (matrix_pt m o (c_point c)))
                                 (mv m (c_axis c)) ;;
              Ok (ACyl c')
  end.

(** applyTransformation_alg, transform.py 141-149, 219-249, 338-348, 421-424.
    Reflection: "if (isinstance(alg_object), Sphere):" calls isinstance with one
    argument, which raises TypeError. *)
Fixpoint apply_alg (t : transform) (a : alg) : res alg :=
  match t with
  | TTranslation s _ _ =>
      Ok match a with
         | ASphere x => ASphere (sphere_set_center x (vadd (s_center x) s))
         | APlane x => APlane (plane_set_point x (vadd (p_point x) s))
         | ACyl x => ACyl (cyl_set_point x (vadd (c_point x) s))
         end
  | TMatrix m o _ _ => matrix_alg m o a
  | TInversion o _ _ => matrix_alg (mscale (-1) mI) o a
  | TReflection _ _ _ => Err TypeError
  | TMulti ts => foldM (fun x t' => apply_alg t' x) ts a
  end.

(** The same as Python executes it: the object is changed in place, attribute by
    attribute, so an exception leaves it partly changed.  First component: the state the
    object is left in.  It agrees with [apply_alg] (lemma apply_alg_st_spec). *)
Definition matrix_alg_st (m : mat) (o : option vec) (a : alg) : alg * res unit :=
  match a with
  | ASphere s => (ASphere (sphere_set_center s (matrix_pt m o (s_center s))), Ok tt)
  | APlane p => let p1 := plane_set_point p (matrix_pt m o (p_point p)) in
                match plane_set_normal p1 (mv m (p_normal p)) with
                | Ok p' => (APlane p', Ok tt)
                | Err e => (APlane p1, Err e)
                end
  | ACyl c => let c1 := cyl_set_point c (matrix_pt m o (c_point c)) in
              match cyl_set_axis c1 (mv m (c_axis c)) with
              | Ok c' => (ACyl c', Ok tt)
              | Err e => (ACyl c1, Err e)
              end
  end.
Fixpoint apply_alg_st (t : transform) (a : alg) : alg * res unit :=
  match t with
  | TTranslation _ _ _ => match apply_alg t a with Ok a' => (a', Ok tt) | Err e => (a, Err e) end
  | TMatrix m o _ _ => matrix_alg_st m o a
  | TInversion o _ _ => matrix_alg_st (mscale (-1) mI) o a
  | TReflection _ _ _ => (a, Err TypeError)
  | TMulti ts =>
      let fix go (l : list transform) (a : alg) : alg * res unit :=
        match l with
        | [] => (a, Ok tt)
        | t' :: rest => let '(a', r) := apply_alg_st t' a in
                        match r with Ok _ => go rest a' | Err e => (a', Err e) end
        end in
      go ts a
  end.

(** from_alg_object(transformation=ts), algebraic.py 58-71 *)
Definition from_alg_object (a : alg) (ts : list transform) : res alg :=
  foldM (fun x t => apply_alg t x) ts a.

(** Rodrigues matrix used by rot_v (scipy from_rotvec, external) and written out in
    rot_vtv; transform.py 479-483 *)
Definition skew (a : vec) : mat :=
  mkM (mkV 0 (- vz a) (vy a)) (mkV (vz a) 0 (- vx a)) (mkV (- vy a) (vx a) 0).
Definition rodrigues (a : vec) (theta : R) : mat :=
  madd (madd mI (mscale (sin theta) (skew a)))
       (mscale (1 - cos theta) (mm (skew a) (skew a))).

(** rot_v, transform.py 432-445; scRotation.from_rotvec is modelled by the
    Rodrigues formula.  A zero axis gives NaN ([None]). *)
Definition rot_v (v : vec) (theta : R) : option mat :=
  if Reqb (norm v) 0 then None else Some (rodrigues (vscale (/ norm v) v) theta).

(** np.eye(3)[np.argmin(v)], transform.py 473; ties go to the first index *)
Definition argmin_axis (v : vec) : vec :=
  if Rleb (vx v) (vy v) && Rleb (vx v) (vz v) then mkV 1 0 0
  else if Rleb (vy v) (vz v) then mkV 0 1 0 else mkV 0 0 1.

(** rot_vtv, transform.py 448-483.  [None] is a matrix of NaNs. *)
Definition rot_vtv (v vt : vec) : option mat :=
  if Reqb (norm v * norm vt) 0 then None else
  let theta := acos (dot v vt / (norm v * norm vt)) in
  if Rltb theta eps then Some mI else
  let rot_axis := if Rltb (PI - theta) eps then cross v (argmin_axis v) else cross v vt in
  if Reqb (norm rot_axis) 0 then None
  else Some (rodrigues (vscale (/ norm rot_axis) rot_axis) theta).

(** Elementary rotations of scipy's from_euler (external). *)
Definition rot_z (a : R) : mat := mkM (mkV (cos a) (- sin a) 0) (mkV (sin a) (cos a) 0) (mkV 0 0 1).
Definition rot_x (a : R) : mat := mkM (mkV 1 0 0) (mkV 0 (cos a) (- sin a)) (mkV 0 (sin a) (cos a)).
(** scRotation.from_euler("ZXZ", [a,b,c]) (intrinsic) and ("zxz", [a,b,c]) (extrinsic) *)
Definition euler_ZXZ (a b c : R) : mat := mm (mm (rot_z a) (rot_x b)) (rot_z c).
Definition euler_zxz (a b c : R) : mat := mm (mm (rot_z c) (rot_x b)) (rot_z a).
(** rot_zxz, transform.py 500-530; [intrinsic] is convention == "intrinsic" (the
    ValueError branch for other strings is not modelled) *)
Definition rot_zxz (alpha beta gamma : R) (intrinsic : bool) : mat :=
  if intrinsic then euler_ZXZ alpha beta gamma else euler_zxz gamma alpha beta.

(** Translation.shift setter on arrays, transform.py 124-129: size must be 3 and
    the first dimension must be 3. *)
Definition new_translation_nd (shift : ndarray) (lk bo : bool) : res transform :=
  match shift with
  | A1 v => Ok (TTranslation v lk bo)
  | A2 _ => Err AssertionError   (* shape (N,3): size 3 forces N = 1, shape[0] = 1 <> 3 *)
  end.

(** applyTransformation on an array argument (numpy broadcasting handles both shapes). *)
Definition apply_nd (t : transform) (a : ndarray) : ndarray :=
  match a with A1 v => A1 (apply_pt t v) | A2 l => A2 (map (apply_pt t) l) end.

(** a - b and a + v for the shapes that occur in s2s_alignment; broadcasting of
    (N,3) with (M,3) needs N = M or one of them 1. *)
Definition nd_sub (a b : ndarray) : res ndarray :=
  match a, b with
  | A1 x, A1 y => Ok (A1 (vsub x y))
  | A1 x, A2 l => Ok (A2 (map (vsub x) l))
  | A2 l, A1 y => Ok (A2 (map (fun p => vsub p y) l))
  | A2 [x], A2 l => Ok (A2 (map (vsub x) l))
  | A2 l, A2 [y] => Ok (A2 (map (fun p => vsub p y) l))
  | A2 l, A2 l' => if Nat.eqb (length l) (length l')
                   then Ok (A2 (map (fun pq => vsub (fst pq) (snd pq)) (combine l l')))
                   else Err ValueError
  end.
Definition nd_addv (a : ndarray) (v : vec) : ndarray :=
  match a with A1 x => A1 (vadd v x) | A2 l => A2 (map (vadd v) l) end.

(** s2s_alignment, transform.py 533-571.  Returns the (possibly mutated) M_plane of
    the caller together with the outcome.  [nan_rot] is the outcome of Rotation()
    on a NaN matrix: the assertions fail. *)
Definition s2s_alignment (M_plane T_plane : plane) (M_point T_point : ndarray)
  : plane * res transform :=
  match rot_vtv (p_normal M_plane) (vscale (-1) (p_normal T_plane)) with
  | None => (M_plane, Err AssertionError)
  | Some Rm =>
    match new_rotation Rm (Some (p_point M_plane)) true false with
    | Err e => (M_plane, Err e)
    | Ok R_t =>
      match apply_alg R_t (APlane M_plane) with
      | Ok (APlane M') =>
          (M',
           proj <- project_point T_plane M_point ;;
           projT <- project_point T_plane T_point ;;
           plane_shift <- nd_sub projT proj ;;
           let ortho := vscale (dist_from_plane T_plane (p_point M')) (p_normal T_plane) in
           T_t <- new_translation_nd (nd_addv plane_shift ortho) true false ;;
           Ok (TMulti [R_t; T_t]))
      | Ok _ => (M_plane, Err TypeError)
      | Err e => (M_plane, Err e)
      end
    end
  end.
