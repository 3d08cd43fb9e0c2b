(** czone/transform/transform.py: the transformation objects as Python objects, with
    attributes that may be unset and setters that check the shape of what they are given.
    (Model/Transform.v models what a completely set object does.) *)
From Coq Require Import Reals List Bool ZArith.
From Verif.Model Require Import Base Vec Voxel Algebraic Transform.
Import ListNotations.
Open Scope R_scope.

(** transform.py 100, 152, 252, 265, 294 *)
Inductive tkind := KTranslation | KMatrix | KRotation | KInversion | KReflection.
(** The attributes _shift, _matrix, _origin, _plane, _locked, _basis_only, transform.py
    107-118, 164-178, 304-314.  A shift keeps the shape it was given. *)
Record tobj := mkT {
  t_kind : tkind; t_shift : option nparray; t_matrix : option mat; t_origin : option vec;
  t_plane : option plane; t_locked : bool; t_basis_only : bool }.
(** constructors called without a shift, matrix, origin or plane *)
Definition new_tobj (k : tkind) (lk bo : bool) : tobj := mkT k None None None None lk bo.

(** What may be assigned.  A matrix can be a numpy array or a nested list (which has no
    .shape); the normal given to Reflection.matrix a column (3,1) or a flat (3,) array
    (other shapes not modelled); [None] for locked and basis_only is any value that is
    not a bool.  Planes and arrays are values here: Model/Sharing.v models which setters keep
    a reference to the caller's object. *)
Inductive t_op :=
| SetShift (a : nparray)
| SetMatrix (is_list : bool) (a : nparray)
| SetNormal (flat : bool) (n : vec)
| SetOrigin (a : nparray)
| SetPlane (p : option plane)
| SetLocked (b : option bool)
| SetBasisOnly (b : option bool).

Definition asize (a : nparray) : nat := fold_right Nat.mul 1%nat (a_shape a).
Definition arr_vec (a : nparray) : vec := mkV (at_ a 0) (at_ a 1) (at_ a 2).
Definition arr_mat (a : nparray) : mat :=
  mkM (mkV (at_ a 0) (at_ a 1) (at_ a 2)) (mkV (at_ a 3) (at_ a 4) (at_ a 5)) (mkV (at_ a 6) (at_ a 7) (at_ a 8)).
Definition is_33 (a : nparray) : bool :=
  match a_shape a with [3%nat; 3%nat] => true | _ => false end.
(** Reflection.matrix setter, transform.py 316-319, on a flat normal: n.T @ n and n @ n.T
    are both the scalar |n|^2, so 2 is taken from every entry of the identity. *)
Definition flat_reflection (n : vec) : mat :=
  let c := 2 / dot n n * dot n n in
  msub mI (mkM (mkV c c c) (mkV c c c) (mkV c c c)).

(** The setters: Translation.shift 124-129, MatrixTransform.matrix 185-189 and origin
    196-201 (reshape raises ValueError), Rotation.matrix 282-291, Inversion has no setter
    for matrix (258-262), Reflection.matrix 316-319 and plane 325-332, locked 82-86,
    basis_only 93-97.  Assigning an attribute the class does not define adds an unused
    attribute.  (A matrix given to a Reflection as such is a normal: SetNormal.) *)
Definition t_step (t : tobj) (o : t_op) : tobj * res unit :=
  let '(mkT k s m og p lk bo) := t in
  match o, k with
  | SetShift a, KTranslation =>
      if negb (Nat.eqb (asize a) 3) then (t, Err AssertionError)
      else if negb (Nat.eqb (hd 0%nat (a_shape a)) 3) then (t, Err AssertionError)
      else (mkT k (Some a) m og p lk bo, Ok tt)
  | SetMatrix true _, (KMatrix | KRotation) => (t, Err AttributeError)
  | SetMatrix false a, KMatrix =>
      if is_33 a then (mkT k s (Some (arr_mat a)) og p lk bo, Ok tt) else (t, Err AssertionError)
  | SetMatrix false a, KRotation =>
      if is_33 a && rotation_ok (arr_mat a) then (mkT k s (Some (arr_mat a)) og p lk bo, Ok tt)
      else (t, Err AssertionError)
  | SetMatrix _ _, KInversion => (t, Err AttributeError)
  | SetNormal flat n, KReflection =>
      (mkT k s (Some (if flat then flat_reflection n else reflection_matrix n)) og p lk bo, Ok tt)
  | SetOrigin a, (KMatrix | KRotation | KInversion | KReflection) =>
      if Nat.eqb (asize a) 3 then (mkT k s m (Some (arr_vec a)) p lk bo, Ok tt) else (t, Err ValueError)
  | SetPlane None, KReflection => (t, Err AssertionError)
  | SetPlane (Some pl), KReflection =>
      (mkT k s (Some (reflection_matrix (p_normal pl))) (Some (p_point pl)) (Some pl) lk bo, Ok tt)
  | SetLocked (Some b), _ => (mkT k s m og p b bo, Ok tt)
  | SetBasisOnly (Some b), _ => (mkT k s m og p lk b, Ok tt)
  | SetLocked None, _ | SetBasisOnly None, _ => (t, Err AssertionError)
  | _, _ => (t, Ok tt)
  end.
Definition t_run (t : tobj) (ops : list t_op) : tobj := fold_left (fun t o => fst (t_step t o)) ops t.

(** An array that should have been Nx3: its rows, or, when broadcasting has added
    dimensions, its two-dimensional blocks. *)
Inductive points_out := Rows (l : list vec) | Blocks (ls : list (list vec)).
(** (N,3) + shift with numpy broadcasting, transform.py 135-136 *)
Definition along (c : R) (p : vec) : vec := vadd p (mkV c c c).
Definition add_shift (pts : list vec) (a : nparray) : res points_out :=
  match a_shape a with
  | [3%nat] => Ok (Rows (map (fun p => vadd p (arr_vec a)) pts))
  | [3%nat; 1%nat] =>
      match pts with
      | [p] => Ok (Rows [along (at_ a 0) p; along (at_ a 1) p; along (at_ a 2) p])
      | [p; q; r] => Ok (Rows [along (at_ a 0) p; along (at_ a 1) q; along (at_ a 2) r])
      | _ => Err ValueError
      end
  | _ => Ok (Blocks [map (along (at_ a 0)) pts; map (along (at_ a 1)) pts; map (along (at_ a 2)) pts])
  end.
(** applyTransformation, transform.py 135-136, 207-214; an unset shift or matrix is None
    and arithmetic with it raises TypeError.  Inversion.matrix is computed, 259-262. *)
Definition t_apply (t : tobj) (pts : list vec) : res points_out :=
  match t_kind t with
  | KTranslation => match t_shift t with None => Err TypeError | Some a => add_shift pts a end
  | KInversion => Ok (Rows (map (matrix_pt (mscale (-1) mI) (t_origin t)) pts))
  | _ => match t_matrix t with None => Err TypeError | Some m => Ok (Rows (map (matrix_pt m (t_origin t)) pts)) end
  end.
(** params, transform.py 131-133, 203-205, 334-336; Reflection._plane is unset until a
    plane is assigned *)
Inductive t_params_out := PShift (a : option nparray) | PMatrix (m : option mat) (o : option vec) | PPlane (p : plane).
Definition t_params (t : tobj) : res t_params_out :=
  match t_kind t with
  | KTranslation => Ok (PShift (t_shift t))
  | KReflection => match t_plane t with Some p => Ok (PPlane p) | None => Err AttributeError end
  | KInversion => Ok (PMatrix (Some (mscale (-1) mI)) (t_origin t))
  | _ => Ok (PMatrix (t_matrix t) (t_origin t))
  end.
