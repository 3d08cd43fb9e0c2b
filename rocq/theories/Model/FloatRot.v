(** rot_vtv of czone/transform/transform.py in binary64 arithmetic.  Simplification as in
    Float.v: no overflow. *)
From Coq Require Import Reals List Bool ZArith.
From Flocq Require Import Core.
From Verif.Model Require Import Base Vec Transform Float.
Import ListNotations.
Open Scope R_scope.

(** What numpy and the C library supply: np.dot of two (3,) arrays (also inside
    np.linalg.norm and, row by column, inside @), np.arccos ([None] is NaN), np.sin and
    np.cos.  transform.py 469, 478, 483 *)
Record mathlib := mkLib { lb_dot : vec -> vec -> R; lb_acos : R -> option R; lb_sin : R -> R; lb_cos : R -> R }.
(** np.pi *)
Definition pi64 : R := b64 PI.

(** np.linalg.norm of a (3,) array: the square root of x.dot(x); transform.py 469, 478 *)
Definition f_len (L : mathlib) (v : vec) : R := b64 (sqrt (lb_dot L v v)).
(** np.dot(v, vt) / (np.linalg.norm(v) * np.linalg.norm(vt)), transform.py 469; division by
    zero gives NaN or an infinity, of which arccos is NaN *)
Definition f_cosine (L : mathlib) (v vt : vec) : option R :=
  let n := b64 (f_len L v * f_len L vt) in
  if Reqb n 0 then None else Some (b64 (lb_dot L v vt / n)).

(** Elementwise operations on (3,) and (3,3) arrays, transform.py 478-483 *)
Definition f_vscale (s : R) (a : vec) : vec := mkV (b64 (s * vx a)) (b64 (s * vy a)) (b64 (s * vz a)).
Definition f_vdiv (a : vec) (s : R) : vec := mkV (b64 (vx a / s)) (b64 (vy a / s)) (b64 (vz a / s)).
Definition f_mscale (s : R) (a : mat) : mat := mkM (f_vscale s (r0 a)) (f_vscale s (r1 a)) (f_vscale s (r2 a)).
Definition f_madd (a b : mat) : mat := mkM (fadd (r0 a) (r0 b)) (fadd (r1 a) (r1 b)) (fadd (r2 a) (r2 b)).
Definition f_mm (L : mathlib) (a b : mat) : mat :=
  let row r := mkV (lb_dot L r (r0 (mt b))) (lb_dot L r (r1 (mt b))) (lb_dot L r (r2 (mt b))) in
  mkM (row (r0 a)) (row (r1 a)) (row (r2 a)).
(** np.eye(3) + np.sin(theta) * A + (1.0 - np.cos(theta)) * A @ A, transform.py 479-483; the
    last term is ((1.0 - np.cos(theta)) * A) @ A *)
Definition f_rodrigues (L : mathlib) (a : vec) (theta : R) : mat :=
  let A := skew a in
  f_madd (f_madd mI (f_mscale (lb_sin L theta) A)) (f_mm L (f_mscale (b64 (1 - lb_cos L theta)) A) A).

(** rot_vtv, transform.py 448-483.  [None] is a matrix of NaNs: theta is NaN, or the axis
    is divided by its length zero. *)
Definition f_rot_vtv (L : mathlib) (v vt : vec) : option mat :=
  match f_cosine L v vt with
  | None => None
  | Some q =>
      match lb_acos L q with
      | None => None
      | Some theta =>
          if Rltb theta eps then Some mI else
          let rot_axis := if Rltb (b64 (pi64 - theta)) eps then fcross v (argmin_axis v) else fcross v vt in
          let n := f_len L rot_axis in
          if Reqb n 0 then None else Some (f_rodrigues L (f_vdiv rot_axis n) theta)
      end
  end.
