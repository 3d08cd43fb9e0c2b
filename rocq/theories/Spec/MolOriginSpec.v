(** Where the origin of a molecule is after any history of calls. *)
From Coq Require Import Reals List ZArith.
From Verif.Model Require Import Base Vec Transform Molecule.
From Verif.Spec Require Import GenObjSpec.
Import ListNotations.
Open Scope R_scope.

(** set_origin(point) stops following an atom; set_origin(idx) starts to, even when the
    index is refused *)
Inductive tells_to_follow : mol_op -> bool -> Prop :=
| told_point p : tells_to_follow (OOriginPoint p) false
| told_index i : tells_to_follow (OOriginIdx i) true.

(** the last index accepted: an integer smaller in size than the number of atoms at the
    time; [atoms h] is that number after h *)
Inductive index_after (atoms : list mol_op -> nat) (i0 : option Z) : list mol_op -> option Z -> Prop :=
| index_start : index_after atoms i0 [] i0
| index_given h i z : index_after atoms i0 h i -> (Z.abs z < Z.of_nat (atoms h))%Z ->
    index_after atoms i0 (h ++ [OOriginIdx (PInt z)]) (Some z)
| index_kept h i o : index_after atoms i0 h i ->
    (forall z, o = OOriginIdx (PInt z) -> (Z.of_nat (atoms h) <= Z.abs z)%Z) ->
    index_after atoms i0 (h ++ [o]) i.

(** the fixed point: the last one given, carried along by the transformations that move
    origins, except while an atom is followed *)
Inductive point_after (f0 : bool) (q0 : option vec) : list mol_op -> option vec -> Prop :=
| point_start : point_after f0 q0 [] q0
| point_given h q p : point_after f0 q0 h q -> point_after f0 q0 (h ++ [OOriginPoint p]) (Some p)
| point_moved h q t : point_after f0 q0 h (Some q) -> latest tells_to_follow f0 h false ->
    point_after f0 q0 (h ++ [OTransform t true]) (Some (apply_pt t q))
| point_kept h q o : point_after f0 q0 h q -> (forall p, o <> OOriginPoint p) ->
    (forall t, o = OTransform t true -> latest tells_to_follow f0 h true) ->
    point_after f0 q0 (h ++ [o]) q.

(** what the constructor's origin keyword starts from *)
Definition follows_at_first (o : origin_arg) : bool := match o with OIdx _ => true | _ => false end.
Definition index_at_first (o : origin_arg) : option Z := match o with OIdx z => Some z | _ => None end.
Definition point_at_first (o : origin_arg) : option vec := match o with ONone => Some (mkV 0 0 0) | OIdx _ => None | OPoint p => Some p end.
