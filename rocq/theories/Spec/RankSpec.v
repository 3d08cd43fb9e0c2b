(** The same object with another priority number. *)
From Coq Require Import List ZArith.
From Verif.Model Require Import Base Vec Volume Molecule Scene.
From Verif.Spec Require Import RenumberSpec.
Import ListNotations.

Definition with_rank (o : sobj) (q : Z) : sobj :=
  match o with
  | SVol (VLeaf l) => SVol (VLeaf (with_prio l q))
  | SVol (VMulti _ vols cache) => SVol (VMulti q vols cache)
  | SMol m => SMol (mol_with_prio m q)
  end.
