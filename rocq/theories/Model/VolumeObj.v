(** A Volume as an object to which points, surfaces and generators are given one after another:
    czone/volume/volume.py 167-274. *)
From Coq Require Import Reals List ZArith Bool.
From Verif.Model Require Import Base Vec Algebraic Transform Voxel Post Generator Volume.
Import ListNotations.
Open Scope R_scope.

(** addPoints 249-274, points setter 176-182, add_alg_object 189-200, add_generator 225-235.
    None stands for an object of the wrong class.  The array has a last axis of length 3 and
    at most two axes (other arrays are refused before anything is done). *)
Inductive v_op := VPoints (a : ndarray) | VAssign (a : ndarray) | VAlg (a : option alg) | VGen (g : option generator) (origin : option vec).
Definition v_step (w : world) (l : leaf) (o : v_op) : leaf * res unit :=
  match o with
  | VPoints a => add_points w l a
  | VAssign a => set_points w l a
  | VAlg None => (l, Err AssertionError)
  | VAlg (Some a) => (with_alg l (l_alg l ++ [a]), Ok tt)
  | VGen None _ => (l, Err TypeError)
  | VGen (Some g) og => match add_generator l g og with Ok l' => (l', Ok tt) | Err e => (l, Err e) end
  end.
Definition v_run (w : world) (l : leaf) (h : list v_op) : leaf := fold_left (fun l o => fst (v_step w l o)) h l.
