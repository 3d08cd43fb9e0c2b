(** Words for collection arguments. *)
From Coq Require Import List.
From Verif.Model Require Import Base Transform Generator Volume Collect.
Import ListNotations.

(** What the caller handed over, in order *)
Definition given {A} (a : arg A) : list (option A) :=
  match a with One x => [x] | Seq xs => xs | Once xs => xs end.
(** everything of the right class *)
Definition proper {A} (a : arg A) : Prop := forall x, In x (given a) -> x <> None.
(** the members [xs] and nothing else *)
Definition holds {A} (a : arg A) (xs : list A) : Prop := given a = map Some xs.
(** not an iterator that is used up by reading it *)
Definition reusable {A} (a : arg A) : Prop := match a with Once _ => False | _ => True end.

(** The Volumes of a (nested) MultiVolume from left to right *)
Fixpoint parts (v : volume) : list leaf :=
  match v with
  | VLeaf l => [l]
  | VMulti _ vols _ => flat_map parts vols
  end.
