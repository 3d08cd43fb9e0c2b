(** Matrices with entries that are not numbers. *)
From Coq Require Import Reals List.
From Verif.Model Require Import Base Vec AlgNan MatNan.
From Verif.Spec Require Import AlgNanSpec.
Import ListNotations.
Open Scope R_scope.

(** its nine entries *)
Definition mentries (m : xmat) : list xnum := entries (x0 m) ++ entries (x1 m) ++ entries (x2 m).
(** a matrix of real numbers *)
Definition real_mat (m : mat) : xmat := mkXM (pt (r0 m)) (pt (r1 m)) (pt (r2 m)).
(** every entry is a real number *)
Definition all_finite (m : xmat) : Prop := Forall finite (mentries m).
(** two rows of a matrix *)
Definition two_rows (m : xmat) (a b : xvec) : Prop :=
  (a = x0 m /\ b = x1 m) \/ (a = x0 m /\ b = x2 m) \/ (a = x1 m /\ b = x2 m).
