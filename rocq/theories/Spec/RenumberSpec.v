(** Other priority numbers in the same order. *)
From Coq Require Import List ZArith.
From Verif.Model Require Import Base Vec Volume Molecule Scene.
Import ListNotations.

(** [f] keeps the order of the numbers in [ps], and equal numbers equal *)
Definition keeps_order (f : Z -> Z) (ps : list Z) : Prop :=
  forall a b, In a ps -> In b ps -> (a < b <-> f a < f b)%Z.

(** The same volume with other priority numbers at every level.  The members of a MultiVolume
    are compared with each other only, so each MultiVolume has a renumbering of its own. *)
Inductive renumbered : volume -> volume -> Prop :=
| ReLeaf l p : renumbered (VLeaf l) (VLeaf (with_prio l p))
| ReMulti p q vols vols' cache f :
    Forall2 renumbered vols vols' -> keeps_order f (map vol_prio vols) -> map vol_prio vols' = map f (map vol_prio vols) ->
    renumbered (VMulti p vols cache) (VMulti q vols' cache).
(** a molecule with another priority number *)
Definition mol_with_prio (m : molecule) (p : Z) : molecule :=
  mkMol (m_species m) (m_atoms m) (m_tracking m) (m_origin m) (m_oidx m) (m_orient m) p.
Inductive renumbered_obj : sobj -> sobj -> Prop :=
| ReVol v v' : renumbered v v' -> renumbered_obj (SVol v) (SVol v')
| ReMol m p : renumbered_obj (SMol m) (SMol (mol_with_prio m p)).
(** the objects of a scene, renumbered alike *)
Definition renumbered_objs (objs objs' : list sobj) : Prop :=
  Forall2 renumbered_obj objs objs' /\
  exists f, keeps_order f (map ob_prio objs) /\ map ob_prio objs' = map f (map ob_prio objs).
