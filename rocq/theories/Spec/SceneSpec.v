(** Specification vocabulary for scenes: which objects draw no random numbers, and
    the contents of a scene tagged with the contributing object. *)
From Coq Require Import List ZArith Bool.
From Verif.Model Require Import Base Vec Post Generator Volume Scene.
From Verif.Spec Require Import PrioritySpec.
Import ListNotations.

(** A post transform that never draws random numbers. *)
Fixpoint post_rng_free (p : post) : Prop :=
  match p with
  | PChem _ _ _ => False
  | PArb _ => True
  | PSeq ts => fold_right (fun t P => post_rng_free t /\ P) True ts
  end.
Definition gen_rng_free (g : generator) : Prop :=
  match g with
  | GCrystal c => match g_post c with Some p => post_rng_free p | None => True end
  | _ => True
  end.
Fixpoint vol_rng_free (v : volume) : Prop :=
  match v with
  | VLeaf l => match l_gen l with Some g => gen_rng_free g | None => True end
  | VMulti _ vs _ => fold_right (fun x P => vol_rng_free x /\ P) True vs
  end.
(** Objects whose populate_atoms() is deterministic: no ChemicalSubstitution inside. *)
Definition obj_rng_free (o : sobj) : Prop :=
  match o with SVol v => vol_rng_free v | SMol _ => True end.

(** A molecule's arrays have equal length (always true, see the molecule theorems). *)
Definition obj_aligned (o : sobj) : Prop :=
  match o with SVol _ => True
             | SMol m => length (Molecule.m_atoms m) = length (Molecule.m_species m) end.

(** The contents of a scene, each atom tagged with the object it comes from. *)
Definition sourced_contents {Ob Pt Sp} (prio : Ob -> Z) (atoms : Ob -> list Pt)
           (species : Ob -> list Sp) (inside : Ob -> Pt -> bool) (objs : list Ob)
  : list (Ob * (Pt * Sp)) :=
  flat_map (fun oo => map (pair (fst oo)) (contribution prio atoms species inside oo))
           (each_with_others objs).

(** The objects of a scene after each has populated its own atoms, in order. *)
Definition populated (w : world) (objs pobjs : list sobj) : Prop :=
  Forall2 (fun o o' => exists c c', ob_populate w c o = Ok (c', o')) objs pobjs.
