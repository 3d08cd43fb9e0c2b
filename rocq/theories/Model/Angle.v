(** vangle of czone/util/misc.py *)
From Coq Require Import Reals List.
From Verif.Model Require Import Base Vec.
Import ListNotations.
Open Scope R_scope.

(** np.dot of two one-dimensional arrays of the same length *)
Fixpoint ndot (a b : list R) : R :=
  match a, b with x :: a, y :: b => x * y + ndot a b | _, _ => 0 end.
(** np.linalg.norm of a one-dimensional array *)
Definition nnorm (a : list R) : R := sqrt (ndot a a).
(** vangle, misc.py 57-67; np.dot refuses different lengths, and a zero vector gives NaN.
    Arrays of other dimensions are not modelled. *)
Definition vangle (a b : list R) : res R :=
  if Nat.eqb (length a) (length b) then
    let n := nnorm a * nnorm b in
    if Reqb n 0 then Err NaNValue else Ok (acos (ndot a b / n))
  else Err ValueError.
