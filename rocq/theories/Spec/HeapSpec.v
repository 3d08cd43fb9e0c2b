(** Specification vocabulary for object identity: who holds what, which calls are
    directed at which objects, and which histories are considered. *)
From Coq Require Import Reals List ZArith Bool.
From Verif.Model Require Import Base Vec Algebraic Transform Strain Generator Volume Heap.
Import ListNotations.

(** v.alg_objects, v.generator, g.strain_field, m.volumes as locations *)
Definition valgs (h : heap) (v : loc) : list loc := match get h v with Some (OVol _ a _) => a | _ => [] end.
Definition vgen (h : heap) (v : loc) : option loc := match get h v with Some (OVol _ _ g) => g | _ => None end.
Definition gstr (h : heap) (g : loc) : option loc := match get h g with Some (OGen _ s) => s | _ => None end.
Definition mvols (h : heap) (m : loc) : list loc := match get h m with Some (OMulti _ vs) => vs | _ => [] end.

(** x is a part of volume v: one of its algebraic objects, its generator, or the strain
    field of its generator. *)
Definition owns (h : heap) (v x : loc) : Prop :=
  In x (valgs h v) \/ vgen h v = Some x \/ exists g, vgen h v = Some g /\ gstr h g = Some x.
(** x belongs to the caller only *)
Definition free (h : heap) (x : loc) : Prop := forall v, ~ owns h v x.

(** u is x or a (nested) member of x *)
Inductive below (h : heap) : loc -> loc -> Prop :=
| below_refl : forall x, below h x x
| below_member : forall x c u, In c (mvols h x) -> below h c u -> below h x u.

(** volumes that a call is directed at, by name or through one of their parts *)
Definition touches (h : heap) (o : op) (u : loc) : Prop :=
  match o with
  | MutAlg x _ | MutGen x _ | MutStrain x _ => owns h u x
  | AddAlg v _ | AddGen v _ _ | AddPoints v _ | SetPriority v _ | Populate v _ => u = v
  | Transform x _ => below h x u
  | _ => False
  end.
(** objects of the caller that a call is directed at *)
Definition alters (h : heap) (o : op) (x : loc) : Prop :=
  match o with
  | MutAlg y _ | MutGen y _ => x = y
  | MutStrain y _ => x = y \/ gstr h x = Some y
  | SetStrain y _ => x = y
  | _ => False
  end.

(** A strain field is assigned to a generator by reference.  In the histories considered
    the caller does so with their own generators and strain fields, not by reaching into
    a volume (v.generator.strain_field = ...). *)
Definition client_ok (h : heap) (o : op) : Prop :=
  match o with SetStrain g s => free h g /\ free h s | _ => True end.

(** every heap some history of calls can produce; raising calls included *)
Inductive reach (w : world) : heap -> Prop :=
| reach_nil : reach w []
| reach_step : forall h fuel o, reach w h -> client_ok h o -> reach w (fst (run w fuel h o)).

(** the Volumes inside x, in the order of the recursion; None: nested deeper than fuel *)
Fixpoint leaves (fuel : nat) (h : heap) (x : loc) : option (list loc) :=
  match fuel with
  | O => None
  | S n => match get h x with
           | Some (OMulti _ vs) =>
               (fix go vs := match vs with
                             | [] => Some []
                             | v :: t => match leaves n h v, go t with
                                         | Some a, Some b => Some (a ++ b)
                                         | _, _ => None
                                         end
                             end) vs
           | _ => Some [x]
           end
  end.

(** l' is l after n applications of t *)
Inductive moved (w : world) (t : transform) : nat -> leaf -> leaf -> Prop :=
| moved_0 : forall l, moved w t 0 l l
| moved_S : forall n l l1 l2, leaf_transform w l t = (l1, Ok tt) -> moved w t n l1 l2 -> moved w t (S n) l l2.

(** h' is a later heap, every call in between satisfying P *)
Inductive later (w : world) (P : heap -> op -> Prop) : heap -> heap -> Prop :=
| later_refl : forall h, later w P h h
| later_step : forall h fuel o h', client_ok h o -> P h o -> later w P (fst (run w fuel h o)) h' -> later w P h h'.
