(** czone/volume/algebraic.py with the numbers that are not real: infinities and NaN.
    Simplification: finite numbers are exact reals (for their rounding see Model/Float.v), and
    arrays are flat (for other shapes see Model/AlgShape.v). *)
From Coq Require Import Reals List Bool.
From Verif.Model Require Import Base Vec Algebraic.
Import ListNotations.
Open Scope R_scope.

(** IEEE 754 values, up to rounding and the sign of zero *)
Inductive xnum := Fin (r : R) | PInf | NInf | NaN.

(** arithmetic of IEEE 754 (used by numpy in every line cited below) *)
Definition xopp (a : xnum) : xnum := match a with Fin r => Fin (- r) | PInf => NInf | NInf => PInf | NaN => NaN end.
Definition xadd (a b : xnum) : xnum :=
  match a, b with
  | NaN, _ | _, NaN => NaN
  | Fin r, Fin s => Fin (r + s)
  | PInf, NInf | NInf, PInf => NaN
  | PInf, _ | _, PInf => PInf
  | NInf, _ | _, NInf => NInf
  end.
Definition xsub (a b : xnum) : xnum := xadd a (xopp b).
Definition xsigned (r : R) (pos neg : xnum) : xnum := if Rltb 0 r then pos else if Rltb r 0 then neg else NaN.
Definition xmul (a b : xnum) : xnum :=
  match a, b with
  | NaN, _ | _, NaN => NaN
  | Fin r, Fin s => Fin (r * s)
  | Fin r, PInf | PInf, Fin r => xsigned r PInf NInf
  | Fin r, NInf | NInf, Fin r => xsigned r NInf PInf
  | PInf, PInf | NInf, NInf => PInf
  | PInf, NInf | NInf, PInf => NInf
  end.
(** division by a positive number or an infinity *)
Definition xdiv (a b : xnum) : xnum :=
  match a, b with
  | NaN, _ | _, NaN => NaN
  | Fin r, Fin s => Fin (r / s)
  | Fin _, (PInf | NInf) => Fin 0
  | PInf, Fin s => xsigned s PInf NInf
  | NInf, Fin s => xsigned s NInf PInf
  | (PInf | NInf), (PInf | NInf) => NaN
  end.
Definition xabs (a : xnum) : xnum := match a with Fin r => Fin (Rabs r) | PInf | NInf => PInf | NaN => NaN end.
(** of sums of squares only *)
Definition xsqrt (a : xnum) : xnum := match a with Fin r => Fin (sqrt r) | PInf => PInf | NInf | NaN => NaN end.
(** [a < b]: false as soon as one of them is NaN *)
Definition xlt (a b : xnum) : bool :=
  match a, b with
  | NaN, _ | _, NaN => false
  | Fin r, Fin s => Rltb r s
  | _, NInf | PInf, _ => false
  | NInf, _ | Fin _, PInf => true
  end.
(** [a <= b] *)
Definition xle (a b : xnum) : bool :=
  match a, b with
  | NaN, _ | _, NaN => false
  | Fin r, Fin s => Rleb r s
  | NInf, _ | _, PInf => true
  | _, _ => false
  end.

Record xvec := mkX { xx : xnum; xy : xnum; xz : xnum }.
Definition xvsub (a b : xvec) : xvec := mkX (xsub (xx a) (xx b)) (xsub (xy a) (xy b)) (xsub (xz a) (xz b)).
Definition xdot (a b : xvec) : xnum := xadd (xadd (xmul (xx a) (xx b)) (xmul (xy a) (xy b))) (xmul (xz a) (xz b)).
Definition xnorm (a : xvec) : xnum := xsqrt (xdot a a).
Definition xcross (a b : xvec) : xvec :=
  mkX (xsub (xmul (xy a) (xz b)) (xmul (xz a) (xy b)))
      (xsub (xmul (xz a) (xx b)) (xmul (xx a) (xz b)))
      (xsub (xmul (xx a) (xy b)) (xmul (xy a) (xx b))).
Definition xover (a : xvec) (n : xnum) : xvec := mkX (xdiv (xx a) n) (xdiv (xy a) n) (xdiv (xz a) n).

Inductive xalg :=
| XSphere (radius : xnum) (center : xvec) (tol : xnum)
| XPlane (normal point : xvec) (tol : xnum)
| XCyl (axis point : xvec) (radius length tol : xnum).

(** [val > x] *)
Definition xgt (a b : xnum) : bool := xlt b a.
(** BaseAlgebraic.tol setter, algebraic.py 53-56 *)
Definition x_tol (t : xnum) : res xnum := if xgt t (Fin 0) then Ok t else Err AssertionError.
(** Sphere.radius setter, algebraic.py 108-113 *)
Definition x_sphere_radius (r : xnum) : res xnum := if xgt r (Fin 0) then Ok r else Err ValueError.
(** Plane.normal setter, algebraic.py 171-179 *)
Definition x_normal (n : xvec) : res xvec := if xgt (xnorm n) (Fin eps) then Ok (xover n (xnorm n)) else Err ValueError.
(** Cylinder.axis setter, algebraic.py 261-267 *)
Definition x_axis (a : xvec) : res xvec := if xle (xnorm a) (Fin eps) then Err ValueError else Ok (xover a (xnorm a)).
(** Cylinder.radius and Cylinder.length setters, algebraic.py 283-288, 295-300 *)
Definition x_cyl_len (x : xnum) : res xnum := if xlt x (Fin eps) then Err ValueError else Ok x.

(** The constructors, algebraic.py 84-92, 141-148, 240-250 *)
Definition x_sphere (r : xnum) (c : xvec) (t : xnum) : res xalg :=
  r' <- x_sphere_radius r ;; t' <- x_tol t ;; Ok (XSphere r' c t').
Definition x_plane (n x : xvec) (t : xnum) : res xalg :=
  n' <- x_normal n ;; t' <- x_tol t ;; Ok (XPlane n' x t').
Definition x_cylinder (a x : xvec) (r l t : xnum) : res xalg :=
  a' <- x_axis a ;; r' <- x_cyl_len r ;; l' <- x_cyl_len l ;; t' <- x_tol t ;; Ok (XCyl a' x r' l' t').

(** checkIfInterior of one point, algebraic.py 94-96, 181-182 with 200, 302-311 *)
Definition x_interior (a : xalg) (p : xvec) : bool :=
  match a with
  | XSphere r c t =>
      let d := xvsub p c in xlt (xdot d d) (xmul (xadd r t) (xadd r t))
  | XPlane n x t => xlt (xsub (xdot p n) (xdot x n)) t
  | XCyl a x r l t =>
      let d := xvsub p x in
      xlt (xnorm (xcross d a)) (xadd r t) && xlt (xabs (xdot d a)) (xadd (xdiv l (Fin 2)) t)
  end.
