(** What a history of assignments, edits and calls makes of a Wulff construction. *)
From Coq Require Import Reals List ZArith.
From Flocq Require Import Core.Raux.
From Verif.Model Require Import Base Vec Voxel Generator Wulff WulffObj.
From Verif.Spec Require Import GenObjSpec.
Import ListNotations.
Open Scope R_scope.

(** the generator in force: the last one assigned, as edited since *)
Inductive names_gen : w_op -> crystal -> Prop :=
| names_assigned g : names_gen (WGen (Some g)) g
| names_edited g : names_gen (WEditGen g) g.
(** the atoms the shape is computed from are read when a generator is assigned, not when it
    is edited *)
Inductive names_atoms : w_op -> structure -> Prop :=
| names_read g : names_atoms (WGen (Some g)) (g_structure g).
(** a size: an integer, or a float, whose fraction is dropped *)
Inductive names_size : w_op -> Z -> Prop :=
| names_int n : names_size (WNatoms (VInt n)) n
| names_float r : names_size (WNatoms (VFloat r)) (Ztrunc r).
(** surface energies: a dictionary from tuples to floats, or the edited dictionary *)
Inductive names_energies : w_op -> list (list Z * R) -> Prop :=
| names_dict l : names_energies (WEnergies (VDict (map (fun kv => (KTuple (fst kv), VFloat (snd kv))) l))) l
| names_changed l : names_energies (WEditEnergies l) l.

(** the calls that need the particle *)
Definition wants_particle (o : w_op) : Prop := o = WConstruct \/ o = WConstructAreas.

(** [remembered g0 a0 n0 e0 h r]: r is the particle held after h — the one computed for the
    settings in force at the first call that wanted it and for which the computation
    succeeded *)
Section Remembered.
Variables (wp : wulffpack) (a0 : structure) (n0 : Z) (e0 : list (list Z * R)).
Inductive remembered : list w_op -> option particle -> Prop :=
| rem_start : remembered [] None
| rem_compute h o a n e p : remembered h None -> wants_particle o ->
    latest names_atoms a0 h a -> latest names_size n0 h n -> latest names_energies e0 h e ->
    wp_single wp e a n = Ok p -> remembered (h ++ [o]) (Some p)
| rem_fail h o a n e x : remembered h None -> wants_particle o ->
    latest names_atoms a0 h a -> latest names_size n0 h n -> latest names_energies e0 h e ->
    wp_single wp e a n = Err x -> remembered (h ++ [o]) None
| rem_other h o : remembered h None -> ~ wants_particle o -> remembered (h ++ [o]) None
| rem_keep h o p : remembered h (Some p) -> remembered (h ++ [o]) (Some p).
End Remembered.
