(** vangle of czone/util/misc.py and the test for collinear basis vectors of
    czone/volume/voxel.py in binary64 arithmetic.  Simplification as in Float.v: no overflow. *)
From Coq Require Import Reals List Bool.
From Verif.Model Require Import Base Vec Voxel Float FloatRot.
Import ListNotations.
Open Scope R_scope.

(** vangle, misc.py 57-66, for (3,) arrays; [None] is NaN.  The quotient is the one of
    rot_vtv (transform.py 469). *)
Definition f_vangle (L : mathlib) (v1 v2 : vec) : option R :=
  match f_cosine L v1 v2 with None => None | Some q => lb_acos L q end.

(** Voxel._collinear, voxel.py 95-106; NaN and the infinities are not 1.0 *)
Definition f_collinear (L : mathlib) (v1 v2 : vec) : bool :=
  match f_cosine L v1 v2 with None => false | Some q => Reqb (Rabs q) 1 end.
(** Voxel.bases setter, voxel.py 54-73, for an array of shape (3,3) *)
Definition f_check_bases (L : mathlib) (b : mat) : res mat :=
  if f_collinear L (r0 b) (r1 b) then Err AssertionError
  else if f_collinear L (r0 b) (r2 b) then Err AssertionError
  else if f_collinear L (r1 b) (r2 b) then Err AssertionError
  else Ok b.
