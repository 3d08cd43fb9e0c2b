(** C158: the same triangulation of the same cloud, described differently. *)
From Coq Require Import Reals List ZArith Permutation.
From Verif.Model Require Import Base Vec AlphaShape.
Import ListNotations.
Open Scope R_scope.

(** f keeps the shape of everything and multiplies all lengths by k: rotations, mirrors,
    translations (k = 1), dilations and their combinations *)
Definition similarity (k : R) (f : vec -> vec) : Prop := 0 < k /\ forall p q, dist (f p) (f q) = k * dist p q.

(** One to one from the numbers below n to those below m *)
Definition renumbers (n m : nat) (t : nat -> nat) : Prop :=
  (forall i, (i < n)%nat -> (t i < m)%nat) /\
  (forall i j, (i < n)%nat -> (j < n)%nat -> t i = t j -> i = j) /\
  (forall j, (j < m)%nat -> exists i, (i < n)%nat /\ t i = j).
(** a neighbour under the renumbering t of the tetrahedra; -1 means that there is none *)
Definition renumber (t : nat -> nat) (z : Z) : Z := if (z <? 0)%Z then (-1)%Z else Z.of_nat (t (Z.to_nat z)).

(** The two triangulations are of the same tetrahedra: point number v is now number s v,
    tetrahedron number i is now number t i, its four vertices are listed in any order and
    the neighbours across the opposite faces with them. *)
Definition same_complex (n : nat) (s t : nat -> nat) (a b : triangulation) : Prop :=
  renumbers (length (simplices a)) (length (simplices b)) t /\
  (forall i vs ns, nth_error (simplices a) i = Some vs -> nth_error (neighbors a) i = Some ns ->
     Forall (fun v => (v < n)%nat) vs /\
     exists vs' ns', nth_error (simplices b) (t i) = Some vs' /\ nth_error (neighbors b) (t i) = Some ns' /\
       Permutation (combine vs' ns') (map (fun vz => (s (fst vz), renumber t (snd vz))) (combine vs ns))).

(** every point is where f takes it, under its new number *)
Definition taken (n : nat) (s : nat -> nat) (f : vec -> vec) (q q' : list vec) : Prop :=
  forall v, (v < n)%nat -> nth (s v) q' v0 = f (nth v q v0).
