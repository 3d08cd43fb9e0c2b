(** Arrays as tables of numbers. *)
From Coq Require Import Reals List ZArith.
From Verif.Model Require Import Vec Voxel.
Import ListNotations.
Open Scope R_scope.

(** the array has as many entries as its shape says *)
Definition proper (a : nparray) : Prop := length (a_data a) = fold_right Nat.mul 1%nat (a_shape a).
(** entry (i, j) of an array of shape (n, k) *)
Definition entry (a : nparray) (k i j : nat) : R := nth (i * k + j) (a_data a) 0.
(** [ps] are the rows of an (n, 3) array; the columns of a (3, n) array *)
Definition rows_of (a : nparray) (n : nat) (ps : list vec) : Prop :=
  length ps = n /\ forall i, (i < n)%nat -> nth i ps v0 = mkV (entry a 3 i 0) (entry a 3 i 1) (entry a 3 i 2).
Definition columns_of (a : nparray) (n : nat) (ps : list vec) : Prop :=
  length ps = n /\ forall i, (i < n)%nat -> nth i ps v0 = mkV (entry a n 0 i) (entry a n 1 i) (entry a n 2 i).
(** whole numbers *)
Definition whole (a : nparray) (zs : list Z) : Prop := a_data a = map IZR zs.
