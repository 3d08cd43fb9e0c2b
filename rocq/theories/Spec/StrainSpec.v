(** What a homogeneous strain written as an array means. *)
From Coq Require Import Reals List.
From Verif.Model Require Import Vec.
Import ListNotations.
Open Scope R_scope.

(** the i-th coordinate of a vector *)
Definition coord (v : vec) (i : nat) : R := match i with 0%nat => vx v | 1%nat => vy v | _ => vz v end.

(** the lengths of the axes of an array that are not of length one *)
Inductive long_axes : list nat -> list nat -> Prop :=
| axes_none : long_axes [] []
| axes_skip s d : long_axes s d -> long_axes (1%nat :: s) d
| axes_keep n s d : n <> 1%nat -> long_axes s d -> long_axes (n :: s) (n :: d).

(** Voigt's numbering of the entries of a symmetric tensor: xx yy zz yz xz xy *)
Definition voigt (i j : nat) : nat := if Nat.eqb i j then i else 6 - i - j.

(** The tensor written by the numbers x 0, x 1, ... laid out along the given axes:
    three numbers are the diagonal, six are Voigt's, nine are the rows. *)
Inductive tensor (x : nat -> R) : list nat -> (nat -> nat -> R) -> Prop :=
| tensor3 : tensor x [3%nat] (fun i j => if Nat.eqb i j then x i else 0)
| tensor6 : tensor x [6%nat] (fun i j => x (voigt i j))
| tensor9 : tensor x [9%nat] (fun i j => x (3 * i + j)%nat)
| tensor33 : tensor x [3%nat; 3%nat] (fun i j => x (3 * i + j)%nat).

(** the components d of a displacement become d' *)
Definition tensor_on (t : nat -> nat -> R) (d d' : vec) : Prop :=
  forall j, (j < 3)%nat -> coord d' j = coord d 0 * t 0%nat j + coord d 1 * t 1%nat j + coord d 2 * t 2%nat j.
