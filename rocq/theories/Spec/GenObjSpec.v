(** What a history of assignments makes of a generator. *)
From Coq Require Import Reals List.
From Verif.Model Require Import Base Vec Voxel Strain Post Generator GenObj.
Import ListNotations.
Open Scope R_scope.

(** one is a non-zero multiple of the other, and neither is zero *)
Definition parallel (a b : vec) : Prop := a <> v0 /\ exists k, k <> 0 /\ b = vscale k a.
(** a lattice with two parallel vectors *)
Definition flat_lattice (b : mat) : Prop := parallel (r0 b) (r1 b) \/ parallel (r0 b) (r2 b) \/ parallel (r1 b) (r2 b).

(** the last structure assigned; the last one whose lattice is not flat *)
Inductive proper_lattice : g_op -> mat -> Prop := proper s : ~ flat_lattice (st_matrix s) -> proper_lattice (GStructure (Some s)) (st_matrix s).
Definition asks_structure (o : g_op) : option (option structure) := match o with GStructure (Some s) => Some (Some s) | _ => None end.
Definition asks_strain (o : g_op) : option (option hstrain) := match o with GStrain (Some h) => Some (Some h) | _ => None end.
Definition asks_post (o : g_op) : option (option post) := match o with GPost (Some p) => Some (Some p) | _ => None end.
(** an array of shape (3,) *)
Definition origin_given (o : g_op) (x : vec) : Prop :=
  exists a, o = GOrigin a /\ a_shape a = [3%nat] /\ a_data a = [vx x; vy x; vz x].
(** nothing but assignments of structures, origins, strain fields and post transforms *)
Definition plain (o : g_op) : Prop := match o with GVoxel _ | GTransform _ => False | GOrigin a => length (a_data a) = fold_right Nat.mul 1%nat (a_shape a) | _ => True end.
(** [latest P b h x]: the last step of h that P recognises gives x; b if there is none *)
Inductive latest {A B} (P : A -> B -> Prop) : B -> list A -> B -> Prop :=
| latest_none b : latest P b [] b
| latest_set b h o x y : latest P b h x -> P o y -> latest P b (h ++ [o]) y
| latest_keep b h o x : latest P b h x -> (forall y, ~ P o y) -> latest P b (h ++ [o]) x.
