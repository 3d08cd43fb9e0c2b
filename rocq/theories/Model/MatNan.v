(** The matrices a user may hand over with entries that are not real numbers: the setters of
    Rotation.matrix (czone/transform/transform.py), Molecule.orientation
    (czone/molecule/molecule.py) and Voxel.bases (czone/volume/voxel.py).
    Simplification: finite numbers are exact reals, and arrays have shape (3, 3).
    np.linalg.det is an argument: what LAPACK answers for such matrices is not fixed. *)
From Coq Require Import Reals List Bool.
From Verif.Model Require Import Base Vec AlgNan.
Import ListNotations.
Open Scope R_scope.

(** a 3x3 array, by rows *)
Record xmat := mkXM { x0 : xvec; x1 : xvec; x2 : xvec }.

(** one row of  m @ m.T - np.eye(3), transform.py 289, molecule.py 217 *)
Definition xgram_row (m : xmat) (r e : xvec) : xvec :=
  xvsub (mkX (xdot r (x0 m)) (xdot r (x1 m)) (xdot r (x2 m))) e.
Definition xgram (m : xmat) : xmat :=
  mkXM (xgram_row m (x0 m) (mkX (Fin 1) (Fin 0) (Fin 0)))
       (xgram_row m (x1 m) (mkX (Fin 0) (Fin 1) (Fin 0)))
       (xgram_row m (x2 m) (mkX (Fin 0) (Fin 0) (Fin 1))).
(** np.sum(np.abs(.)), transform.py 289, molecule.py 217 *)
Definition xsumabs (m : xmat) : xnum :=
  let s v := xadd (xadd (xabs (xx v)) (xabs (xy v))) (xabs (xz v)) in
  xadd (xadd (s (x0 m)) (s (x1 m))) (s (x2 m)).

Section Det.
(** np.linalg.det, transform.py 286, molecule.py 214 *)
Variable ldet : xmat -> xnum.
(** Rotation.matrix setter, transform.py 282-291: assert ... < 1e-6 *)
Definition x_rotation (m : xmat) : res xmat :=
  if xlt (xabs (xsub (ldet m) (Fin 1))) (Fin (/ 10 ^ 6)) then
    if xlt (xsumabs (xgram m)) (Fin (/ 10 ^ 6)) then Ok m else Err AssertionError
  else Err AssertionError.
(** Molecule.orientation setter, molecule.py 207-220: if ... > 1e-6: raise *)
Definition x_orientation (m : xmat) : res xmat :=
  if xgt (xabs (xsub (ldet m) (Fin 1))) (Fin (/ 10 ^ 6)) then Err ValueError
  else if xgt (xsumabs (xgram m)) (Fin (/ 10 ^ 6)) then Err ValueError
  else Ok m.
End Det.

(** a / b as numpy has it, where 0 / 0 is NaN; voxel.py 105-106 divides by zero only when
    the numerator is zero, infinite or NaN, and x / 0 is not 1.0 in any of these cases *)
Definition xquot (a b : xnum) : xnum :=
  match b with Fin s => if Reqb s 0 then NaN else xdiv a b | _ => xdiv a b end.
(** Voxel._collinear, voxel.py 95-106; NaN == 1.0 is False *)
Definition x_collinear (a b : xvec) : bool :=
  match xabs (xquot (xdot a b) (xmul (xnorm a) (xnorm b))) with Fin q => Reqb q 1 | _ => false end.
(** Voxel.bases setter, voxel.py 54-73 *)
Definition x_bases (b : xmat) : res xmat :=
  if x_collinear (x0 b) (x1 b) then Err AssertionError
  else if x_collinear (x0 b) (x2 b) then Err AssertionError
  else if x_collinear (x1 b) (x2 b) then Err AssertionError
  else Ok b.
