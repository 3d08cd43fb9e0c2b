(** Values that are not numbers. *)
From Coq Require Import Reals List Bool.
From Verif.Model Require Import Base Vec Algebraic AlgNan.
Import ListNotations.
Open Scope R_scope.

(** what a constructor is given *)
Inductive call := CallSphere (r : xnum) (c : xvec) (t : xnum) | CallPlane (n x : xvec) (t : xnum) | CallCyl (a x : xvec) (r l t : xnum).
Definition construct (k : call) : res xalg :=
  match k with CallSphere r c t => x_sphere r c t | CallPlane n x t => x_plane n x t | CallCyl a x r l t => x_cylinder a x r l t end.
(** all its numbers *)
Definition entries (v : xvec) : list xnum := [xx v; xy v; xz v].
Definition given (k : call) : list xnum :=
  match k with CallSphere r c t => r :: t :: entries c | CallPlane n x t => t :: entries n ++ entries x | CallCyl a x r l t => r :: l :: t :: entries a ++ entries x end.
(** numbers that are neither infinite nor NaN *)
Definition finite (x : xnum) : Prop := exists r, x = Fin r.
Definition infinite (x : xnum) : Prop := x = PInf \/ x = NInf.
(** a point of space *)
Definition pt (p : vec) : xvec := mkX (Fin (vx p)) (Fin (vy p)) (Fin (vz p)).
(** the same call with real numbers *)
Definition real_call (k : call) (r : res alg) : Prop :=
  (exists a c t, k = CallSphere (Fin a) (pt c) (Fin t) /\ r = (s <- new_sphere a c t ;; Ok (ASphere s))) \/
  (exists n x t, k = CallPlane (pt n) (pt x) (Fin t) /\ r = (s <- new_plane n x t ;; Ok (APlane s))) \/
  (exists a x b l t, k = CallCyl (pt a) (pt x) (Fin b) (Fin l) (Fin t) /\ r = (s <- new_cylinder a x b l t ;; Ok (ACyl s))).
