(** Points of R^3 and 3x3 matrices: the numpy arrays of shape (3,) and (3,3) that
    czone passes around, with exact real arithmetic instead of binary64. *)
From Coq Require Import Reals List Bool Lra.
From Verif.Model Require Import Base.
Import ListNotations.
Open Scope R_scope.

Record vec := mkV { vx : R; vy : R; vz : R }.

Definition v0 : vec := mkV 0 0 0.
Definition vadd (a b : vec) := mkV (vx a + vx b) (vy a + vy b) (vz a + vz b).
Definition vsub (a b : vec) := mkV (vx a - vx b) (vy a - vy b) (vz a - vz b).
Definition vopp (a : vec) := mkV (- vx a) (- vy a) (- vz a).
Definition vscale (s : R) (a : vec) := mkV (s * vx a) (s * vy a) (s * vz a).
(** elementwise product (numpy broadcasting of two (3,) arrays) *)
Definition vmul (a b : vec) := mkV (vx a * vx b) (vy a * vy b) (vz a * vz b).
Definition dot (a b : vec) : R := vx a * vx b + vy a * vy b + vz a * vz b.
(** np.cross *)
Definition cross (a b : vec) : vec :=
  mkV (vy a * vz b - vz a * vy b) (vz a * vx b - vx a * vz b) (vx a * vy b - vy a * vx b).
(** np.linalg.norm *)
Definition norm (a : vec) : R := sqrt (dot a a).
Definition dist (a b : vec) : R := norm (vsub a b).
Definition vmin (a b : vec) := mkV (Rmin (vx a) (vx b)) (Rmin (vy a) (vy b)) (Rmin (vz a) (vz b)).
Definition vmax (a b : vec) := mkV (Rmax (vx a) (vx b)) (Rmax (vy a) (vy b)) (Rmax (vz a) (vz b)).
Definition vabs (a : vec) := mkV (Rabs (vx a)) (Rabs (vy a)) (Rabs (vz a)).

(** 3x3 matrices by rows. *)
Record mat := mkM { r0 : vec; r1 : vec; r2 : vec }.
Definition mI : mat := mkM (mkV 1 0 0) (mkV 0 1 0) (mkV 0 0 1).
Definition mt (m : mat) : mat :=
  mkM (mkV (vx (r0 m)) (vx (r1 m)) (vx (r2 m)))
      (mkV (vy (r0 m)) (vy (r1 m)) (vy (r2 m)))
      (mkV (vz (r0 m)) (vz (r1 m)) (vz (r2 m))).
(** np.dot(m, v) for a column v *)
Definition mv (m : mat) (v : vec) : vec := mkV (dot (r0 m) v) (dot (r1 m) v) (dot (r2 m) v).
(** v @ m for a row v *)
Definition vm (v : vec) (m : mat) : vec := mv (mt m) v.
Definition mm (a b : mat) : mat :=
  mkM (mv (mt b) (r0 a)) (mv (mt b) (r1 a)) (mv (mt b) (r2 a)).
Definition madd (a b : mat) := mkM (vadd (r0 a) (r0 b)) (vadd (r1 a) (r1 b)) (vadd (r2 a) (r2 b)).
Definition msub (a b : mat) := mkM (vsub (r0 a) (r0 b)) (vsub (r1 a) (r1 b)) (vsub (r2 a) (r2 b)).
Definition mscale (s : R) (a : mat) := mkM (vscale s (r0 a)) (vscale s (r1 a)) (vscale s (r2 a)).
(** column times row *)
Definition outer (a b : vec) : mat := mkM (vscale (vx a) b) (vscale (vy a) b) (vscale (vz a) b).
(** np.linalg.det *)
Definition det (m : mat) : R := dot (r0 m) (cross (r1 m) (r2 m)).
(** np.linalg.inv for invertible matrices: adjugate over determinant *)
Definition minv (m : mat) : mat :=
  mscale (/ det m)
    (mt (mkM (cross (r1 m) (r2 m)) (cross (r2 m) (r0 m)) (cross (r0 m) (r1 m)))).
(** np.sum(np.abs(m)) *)
Definition msumabs (m : mat) : R :=
  let s v := Rabs (vx v) + Rabs (vy v) + Rabs (vz v) in s (r0 m) + s (r1 m) + s (r2 m).

(** Real comparisons as booleans. *)
Definition Rltb (x y : R) : bool := if Rlt_dec x y then true else false.
Definition Rleb (x y : R) : bool := if Rle_dec x y then true else false.
Definition Reqb (x y : R) : bool := if Req_EM_T x y then true else false.

(** np.linalg.solve(m, b): LinAlgError when m is singular. *)
Definition solve (m : mat) (b : vec) : res vec :=
  if Reqb (det m) 0 then Err LinAlgError else Ok (mv (minv m) b).
(** np.linalg.inv(m) *)
Definition inv (m : mat) : res mat :=
  if Reqb (det m) 0 then Err LinAlgError else Ok (minv m).

(** np.finfo(float).eps = 2^-52 *)
Definition eps : R := / 2 ^ 52.
