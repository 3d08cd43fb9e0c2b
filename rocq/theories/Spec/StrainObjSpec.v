(** The origin, mode and tensor that a history of a strain field asks for. *)
From Coq Require Import Reals List String.
From Verif.Model Require Import Base Vec Voxel StrainObj.
From Verif.Spec Require Import StrainSpec.
Import ListNotations.
Open Scope R_scope.

(** an array of shape (3,) holding x *)
Definition vector_array (a : nparray) (x : vec) : Prop := a_shape a = [3%nat] /\ a_data a = [vx x; vy x; vz x].
Inductive asks_origin : h_op -> vec -> Prop := ask_o a x : vector_array a x -> asks_origin (HOrigin (Some a)) x.
Inductive asks_mode : h_op -> string -> Prop := ask_m m : asks_mode (HMode m) m.
Inductive asks_type : h_op -> string -> Prop := ask_t s : asks_type (HType s) s.
(** the array is one of the documented notations of a tensor *)
Inductive asks_tensor : h_op -> (nat -> nat -> R) -> Prop :=
  ask_x a axes t : long_axes (a_shape a) axes -> tensor (at_ a) axes t -> asks_tensor (HMatrix a) t.
(** arrays hold as many numbers as their shape says *)
Definition sized (o : h_op) : Prop := match o with HOrigin (Some a) => List.length (a_data a) = fold_right Nat.mul 1%nat (a_shape a) | _ => True end.

(** [moved crystal B o t p q]: t moves the displacement of p from o to that of q; in crystal
    mode t acts on the coordinates with respect to the columns of B *)
Definition moved (crystal : Prop) (B : mat) (o : vec) (t : nat -> nat -> R) (p q : vec) : Prop :=
  (crystal -> exists f f', vsub p o = mv B f /\ vsub q o = mv B f' /\ tensor_on t f f') /\
  (~ crystal -> tensor_on t (vsub p o) (vsub q o)).
