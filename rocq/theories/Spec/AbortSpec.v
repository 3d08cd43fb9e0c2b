(** C144: what a transformation that raises leaves behind, stated without the functions that
    compute it. *)
From Coq Require Import Reals List ZArith Bool.
From Verif.Model Require Import Base Vec Algebraic Transform.
Import ListNotations.
Open Scope R_scope.

(** The surface with its reference point at p and everything else as it was. *)
Definition at_point (a : alg) (p : vec) : alg :=
  match a with
  | ASphere s => ASphere (mkSphere (s_radius s) p (s_tol s))
  | APlane q => APlane (mkPlane (p_normal q) p (p_tol q))
  | ACyl c => ACyl (mkCyl (c_axis c) p (c_radius c) (c_length c) (c_tol c))
  end.
Definition point_of (a : alg) : vec :=
  match a with ASphere s => s_center s | APlane q => p_point q | ACyl c => c_point c end.

(** [abandoned t a a' e]: transforming the surface a by t raises e and leaves it as a'.
    A matrix has moved the point but not turned the surface; a reflection has done nothing;
    a list of transformations has applied those before the one that raised. *)
Inductive abandoned : transform -> alg -> alg -> exn -> Prop :=
| ab_refl p l o a : abandoned (TReflection p l o) a a TypeError
| ab_mat m q l o a e : apply_alg (TMatrix m q l o) a = Err e ->
    abandoned (TMatrix m q l o) a (at_point a (apply_pt (TMatrix m q l o) (point_of a))) e
| ab_inv q l o a e : apply_alg (TInversion q l o) a = Err e ->
    abandoned (TInversion q l o) a (at_point a (apply_pt (TInversion q l o) (point_of a))) e
| ab_list pre t post a b a' e : foldM (fun x t' => apply_alg t' x) pre a = Ok b ->
    abandoned t b a' e -> abandoned (TMulti (pre ++ t :: post)) a a' e.
