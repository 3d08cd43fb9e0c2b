(** czone/volume/voxel.py *)
From Coq Require Import Reals List Bool ZArith.
From Flocq Require Import Core.Raux.
From Verif.Model Require Import Base Vec.
Import ListNotations.
Open Scope R_scope.

(** The broadcastable shapes of Voxel.scale: () or (1,) or (1,1), (3,) or (1,3), (3,1),
    (3,3), voxel.py 38-47.  (Arrays of three or more dimensions can also broadcast;
    they make sbases a stack of matrices and are not modelled.) *)
Inductive vscale_t := SAll (s : R) | SCols (v : vec) | SRows (v : vec) | SFull (m : mat).
Record voxel := mkVoxel { vo_bases : mat; vo_scale : vscale_t; vo_origin : vec }.

(** Voxel._collinear, voxel.py 95-106; 0/0 is NaN and NaN == 1.0 is False *)
Definition collinear (a b : vec) : bool :=
  if Reqb (norm a * norm b) 0 then false
  else Reqb (Rabs (dot a b / (norm a * norm b))) 1.

(** Voxel.bases setter, voxel.py 54-73 *)
Definition check_bases (b : mat) : res mat :=
  if collinear (r0 b) (r1 b) then Err AssertionError
  else if collinear (r0 b) (r2 b) then Err AssertionError
  else if collinear (r1 b) (r2 b) then Err AssertionError
  else Ok b.
Definition set_bases (v : voxel) (b : mat) : res voxel :=
  b' <- check_bases b ;; Ok (mkVoxel b' (vo_scale v) (vo_origin v)).
(** Voxel.origin setter, voxel.py 80-83, for an array of shape (3,) *)
Definition set_vorigin (v : voxel) (o : vec) : voxel := mkVoxel (vo_bases v) (vo_scale v) o.

(** An array of at most two dimensions: its shape and its entries in row-major order *)
Record nparray := mkArr { a_shape : list nat; a_data : list R }.
Definition at_ (a : nparray) (i : nat) : R := nth i (a_data a) 0.
(** Voxel.scale setter, voxel.py 38-47: the product with the (3,3) bases is tried
    first; a failure to broadcast is re-raised as ValueError before the assignment *)
Definition set_scale (v : voxel) (a : nparray) : res voxel :=
  let put s := Ok (mkVoxel (vo_bases v) s (vo_origin v)) in
  match a_shape a with
  | [] | [1%nat] | [1%nat; 1%nat] => put (SAll (at_ a 0))
  | [3%nat] | [1%nat; 3%nat] => put (SCols (mkV (at_ a 0) (at_ a 1) (at_ a 2)))
  | [3%nat; 1%nat] => put (SRows (mkV (at_ a 0) (at_ a 1) (at_ a 2)))
  | [3%nat; 3%nat] => put (SFull (mkM (mkV (at_ a 0) (at_ a 1) (at_ a 2)) (mkV (at_ a 3) (at_ a 4) (at_ a 5)) (mkV (at_ a 6) (at_ a 7) (at_ a 8))))
  | _ => Err ValueError
  end.
(** Voxel.__init__, voxel.py 22-31: bases, then scale, then origin *)
Definition new_voxel_scaled (b : mat) (a : nparray) (o : vec) : res voxel :=
  b' <- check_bases b ;; set_scale (mkVoxel b' (SAll 1) o) a.

(** Voxel.__init__ with default scale, voxel.py 22-31 *)
Definition new_voxel (b : mat) (o : vec) : res voxel :=
  b' <- check_bases b ;; Ok (mkVoxel b' (SAll 1) o).

(** Voxel.sbases = bases * scale with numpy broadcasting, voxel.py 85-88 *)
Definition sbases (v : voxel) : mat :=
  let b := vo_bases v in
  match vo_scale v with
  | SAll s => mscale s b
  | SCols s => mkM (vmul (r0 b) s) (vmul (r1 b) s) (vmul (r2 b) s)
  | SRows s => mkM (vscale (vx s) (r0 b)) (vscale (vy s) (r1 b)) (vscale (vz s) (r2 b))
  | SFull m => mkM (vmul (r0 b) (r0 m)) (vmul (r1 b) (r1 m)) (vmul (r2 b) (r2 m))
  end.

(** Voxel.reciprocal_bases, voxel.py 90-93 *)
Definition reciprocal_bases (v : voxel) : res mat := inv (sbases v).

(** np.min / np.max over axis 0 of a non-empty list of rows *)
Definition rows_min (p : vec) (ps : list vec) : vec := fold_left vmin ps p.
Definition rows_max (p : vec) (ps : list vec) : vec := fold_left vmax ps p.
Definition vfloor (v : vec) : Z * Z * Z := (Zfloor (vx v), Zfloor (vy v), Zfloor (vz v)).
Definition vceil (v : vec) : Z * Z * Z := (Zceil (vx v), Zceil (vy v), Zceil (vz v)).

(** Voxel.get_extents, voxel.py 108-128; np.min of an empty array raises ValueError *)
Definition get_extents (v : voxel) (box : list vec) : res ((Z * Z * Z) * (Z * Z * Z)) :=
  ext <- mapM (fun p => solve (sbases v) (vsub p (vo_origin v))) box ;;
  match ext with
  | [] => Err ValueError
  | e :: es => Ok (vfloor (rows_min e es), vceil (rows_max e es))
  end.
