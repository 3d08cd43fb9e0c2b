(** Independent specification of precedence between objects: no sorting, no
    levels, no offsets, no masks. *)
From Coq Require Import List ZArith Bool.
Import ListNotations.

Section PrioSpec.
Context {Ob Pt Sp : Type}.
Variable prio : Ob -> Z.
Variable atoms : Ob -> list Pt.
Variable species : Ob -> list Sp.
Variable inside : Ob -> Pt -> bool.

(** Every object of a list together with the list of all the *other* objects. *)
Fixpoint each_with_others (l : list Ob) : list (Ob * list Ob) :=
  match l with
  | [] => []
  | x :: t => (x, t) :: map (fun yr => (fst yr, x :: snd yr)) (each_with_others t)
  end.

(** [o] loses the position [p] to one of [others]: someone else with a smaller or
    equal priority number contains [p]. *)
Definition loses (o : Ob) (others : list Ob) (p : Pt) : bool :=
  existsb (fun o' => (prio o' <=? prio o)%Z && inside o' p) others.

(** What one object contributes: its own (position, species) pairs that it does
    not lose. *)
Definition contribution (oo : Ob * list Ob) : list (Pt * Sp) :=
  filter (fun ps => negb (loses (fst oo) (snd oo) (fst ps)))
         (combine (atoms (fst oo)) (species (fst oo))).

(** The contents of a scene: the contributions of all its objects. *)
Definition contents (objs : list Ob) : list (Pt * Sp) :=
  flat_map contribution (each_with_others objs).
End PrioSpec.
