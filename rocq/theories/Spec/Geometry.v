(** Small geometric specification vocabulary, independent of the model files other
    than the type of points and matrices. *)
From Coq Require Import Reals List.
From Verif.Model Require Import Vec.
Import ListNotations.
Open Scope R_scope.

(** Weighted sum of a list of points. *)
Fixpoint wsum (ws : list R) (ps : list vec) : vec :=
  match ws, ps with
  | w :: ws', p :: ps' => vadd (vscale w p) (wsum ws' ps')
  | _, _ => v0
  end.

(** [p] lies in the convex hull of [ps]. *)
Definition in_hull (ps : list vec) (p : vec) : Prop :=
  exists ws, length ws = length ps /\ Forall (fun w => 0 <= w) ws /\
             fold_right Rplus 0 ws = 1 /\ p = wsum ws ps.

(** Orthogonal matrices and rotations. *)
Definition orthogonal (m : mat) : Prop := mm m (mt m) = mI.
Definition rotation (m : mat) : Prop := orthogonal m /\ det m = 1.

(** A map of space that keeps all distances. *)
Definition isometry (f : vec -> vec) : Prop := forall p q, dist (f p) (f q) = dist p q.

(** Vector with integer components. *)
Definition zvec (a b c : Z) : vec := mkV (IZR a) (IZR b) (IZR c).
