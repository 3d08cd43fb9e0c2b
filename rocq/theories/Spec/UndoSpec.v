(** Transformations that undo each other. *)
From Coq Require Import Reals List.
From Verif.Model Require Import Base Vec Algebraic Transform Volume.
From Verif.Spec Require Import AlgSpec.
Import ListNotations.
Open Scope R_scope.

(** [undoes t u]: [u] is [t] backwards, with the same origin and the same flags *)
Inductive undoes : transform -> transform -> Prop :=
| UndoTranslation s lk bo : undoes (TTranslation s lk bo) (TTranslation (vopp s) lk bo)
| UndoMatrix m m' o lk bo : mm m' m = mI -> undoes (TMatrix m o lk bo) (TMatrix m' o lk bo)
| UndoInversion o lk bo : undoes (TInversion o lk bo) (TInversion o lk bo)
| UndoReflection pl lk bo : valid_plane pl -> undoes (TReflection pl lk bo) (TReflection pl lk bo)
| UndoMulti ts us : Forall2 undoes ts us -> undoes (TMulti ts) (TMulti (rev us)).

(** a volume, MultiVolume or tree of them whose volumes are bounded by valid surfaces *)
Inductive surfaces_only : volume -> Prop :=
| SurfLeaf l : l_points l = PNone -> Forall valid_alg (l_alg l) -> surfaces_only (VLeaf l)
| SurfMulti p vs c : Forall surfaces_only vs -> surfaces_only (VMulti p vs c).
