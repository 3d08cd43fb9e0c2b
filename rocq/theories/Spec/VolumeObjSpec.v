(** What a history of calls gives to a volume. *)
From Coq Require Import Reals List ZArith.
From Verif.Model Require Import Base Vec Algebraic Transform Voxel Post Generator VolumeObj.
Import ListNotations.
Open Scope R_scope.

(** all points given by addPoints, in order; all surfaces *)
Definition rows_of (o : v_op) : list vec := match o with VPoints (A2 l) => l | VPoints (A1 v) => [v] | _ => [] end.
Definition points_given (h : list v_op) : list vec := concat (map rows_of h).
Definition surfaces_given (h : list v_op) : list alg := concat (map (fun o => match o with VAlg (Some a) => [a] | _ => [] end) h).
(** the points setter is not used, and a single point is given only after an array of points *)
Definition is_array (o : v_op) : Prop := exists l, o = VPoints (A2 l).
Definition is_points (o : v_op) : Prop := exists a, o = VPoints a.
Definition orderly (h : list v_op) : Prop := (forall a, ~ In (VAssign a) h) /\
  forall h1 v h2, h = h1 ++ VPoints (A1 v) :: h2 -> Exists is_array h1.
(** the points given up to the first call after which a hull could be made of them *)
Inductive first_hull (ok : list vec -> Prop) : list v_op -> option (list vec) -> Prop :=
| fh_none : first_hull ok [] None
| fh_keep h o t : first_hull ok h (Some t) -> first_hull ok (h ++ [o]) (Some t)
| fh_new h o : first_hull ok h None -> is_points o -> ok (points_given (h ++ [o])) -> first_hull ok (h ++ [o]) (Some (points_given (h ++ [o])))
| fh_still h o : first_hull ok h None -> ~ (is_points o /\ ok (points_given (h ++ [o]))) -> first_hull ok (h ++ [o]) None.
(** the generator given by a call: a crystal is moved to the origin given with it *)
Inductive generator_given : v_op -> option generator -> Prop :=
| gg_alone g : generator_given (VGen (Some g) None) (Some g)
| gg_amorphous a o : generator_given (VGen (Some (GAmorphous a)) (Some o)) (Some (GAmorphous a))
| gg_moved s b sc x st po o : generator_given (VGen (Some (GCrystal (mkCrystal s (mkVoxel b sc x) st po))) (Some o)) (Some (GCrystal (mkCrystal s (mkVoxel b sc o) st po))).
