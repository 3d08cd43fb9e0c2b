(** Specification vocabulary for algebraic objects and transformations. *)
From Coq Require Import Reals List Bool.
From Verif.Model Require Import Base Vec Algebraic Transform.
From Verif.Spec Require Import Geometry.
Import ListNotations.
Open Scope R_scope.

(** The documented domain of the three classes. *)
Definition valid_sphere (s : sphere) : Prop := 0 < s_radius s /\ 0 < s_tol s.
Definition valid_plane (p : plane) : Prop := norm (p_normal p) = 1 /\ 0 < p_tol p.
Definition valid_cyl (c : cylinder) : Prop :=
  norm (c_axis c) = 1 /\ 0 < c_radius c /\ 0 < c_length c /\ 0 < c_tol c.
Definition valid_alg (a : alg) : Prop :=
  match a with ASphere s => valid_sphere s | APlane p => valid_plane p | ACyl c => valid_cyl c end.

(** Rigid motions as a user builds them: translations, matrices that are orthogonal
    (so every exact rotation), inversions, and sequences of these. *)
Inductive rigid : transform -> Prop :=
| rigid_trans : forall s lk bo, rigid (TTranslation s lk bo)
| rigid_mat : forall m o lk bo, orthogonal m -> rigid (TMatrix m o lk bo)
| rigid_invn : forall o lk bo, rigid (TInversion o lk bo)
| rigid_multi : forall ts, Forall rigid ts -> rigid (TMulti ts).

(** Membership in a plane (the set of points p with (p - point).normal = 0). *)
Definition on_plane (pl : plane) (p : vec) : Prop := dot (vsub p (p_point pl)) (p_normal pl) = 0.

(** An algebraic object that some client history can produce: any constructor call,
    any setter call, any transformation, in any order. *)
Inductive built : alg -> Prop :=
| b_sphere : forall r c t s, new_sphere r c t = Ok s -> built (ASphere s)
| b_plane : forall n p t x, new_plane n p t = Ok x -> built (APlane x)
| b_cyl : forall a p r l t x, new_cylinder a p r l t = Ok x -> built (ACyl x)
| b_tol : forall a t a', built a -> set_tol a t = Ok a' -> built a'
| b_radius : forall s r s', built (ASphere s) -> sphere_set_radius s r = Ok s' -> built (ASphere s')
| b_center : forall s c, built (ASphere s) -> built (ASphere (sphere_set_center s c))
| b_normal : forall p n p', built (APlane p) -> plane_set_normal p n = Ok p' -> built (APlane p')
| b_ppoint : forall p x, built (APlane p) -> built (APlane (plane_set_point p x))
| b_flip : forall p p', built (APlane p) -> flip_orientation p = Ok p' -> built (APlane p')
| b_axis : forall c a c', built (ACyl c) -> cyl_set_axis c a = Ok c' -> built (ACyl c')
| b_cpoint : forall c x, built (ACyl c) -> built (ACyl (cyl_set_point c x))
| b_cradius : forall c r c', built (ACyl c) -> cyl_set_radius c r = Ok c' -> built (ACyl c')
| b_clength : forall c r c', built (ACyl c) -> cyl_set_length c r = Ok c' -> built (ACyl c')
| b_transform : forall a t a', built a -> apply_alg t a = Ok a' -> built a'
| b_copy : forall a ts a', built a -> from_alg_object a ts = Ok a' -> built a'.
