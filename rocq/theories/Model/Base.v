(** Shared vocabulary of the model: Python exceptions as values, and the numpy
    list operations that several source files use.  Nothing here is specific to
    construction_zone except where a citation says so. *)
From Coq Require Import List ZArith Bool.
Import ListNotations.

(** Python exceptions that the modelled code can raise.  [NeedMore] is not an
    exception: it is the "ran out of the supplied random draws" outcome of loops
    that need not terminate; [NaNValue] is not one either: a NaN or infinity was
    computed, and what the caller makes of it is not modelled. *)
Inductive exn :=
| ValueError | TypeError | IndexError | AssertionError | AttributeError
| NotImplementedError | LinAlgError | UnboundLocalError | ZeroDivisionError | NeedMore | NaNValue.

Inductive res (A : Type) := Ok (a : A) | Err (e : exn).
Arguments Ok {A} a.
Arguments Err {A} e.

Definition bind {A B} (r : res A) (f : A -> res B) : res B :=
  match r with Ok a => f a | Err e => Err e end.
Notation "x <- r ;; k" := (bind r (fun x => k))
  (at level 61, r at next level, right associativity).

Definition rmap {A B} (f : A -> B) (r : res A) : res B :=
  match r with Ok a => Ok (f a) | Err e => Err e end.

(** A Python [for] loop collecting results; stops at the first exception. *)
Section MapM.
Context {A B : Type} (f : A -> res B).
Fixpoint mapM (l : list A) : res (list B) :=
  match l with
  | [] => Ok []
  | x :: t => y <- f x ;; ys <- mapM t ;; Ok (y :: ys)
  end.
End MapM.

(** A Python [for] loop threading a value; stops at the first exception. *)
Section FoldM.
Context {A St : Type} (f : St -> A -> res St).
Fixpoint foldM (l : list A) (s : St) : res St :=
  match l with
  | [] => Ok s
  | x :: t => s' <- f s x ;; foldM t s'
  end.
End FoldM.

(** A Python [for] loop collecting results and threading a state. *)
Section MapMS.
Context {A B St : Type} (f : St -> A -> res (St * B)).
Fixpoint mapMS (s : St) (l : list A) : res (St * list B) :=
  match l with
  | [] => Ok (s, [])
  | x :: t => r <- f s x ;; rs <- mapMS (fst r) t ;; Ok (fst rs, snd r :: snd rs)
  end.
End MapMS.

(** numpy boolean-mask indexing  a[mask]  of two 1-D (or row-indexed) arrays of
    equal length. *)
Fixpoint compress {A} (mask : list bool) (l : list A) : list A :=
  match mask, l with
  | true :: m, x :: t => x :: compress m t
  | false :: m, _ :: t => compress m t
  | _, _ => []
  end.

(** numpy logical_and / logical_or of equal-length masks. *)
Definition mask_and (m1 m2 : list bool) : list bool :=
  map (fun p => andb (fst p) (snd p)) (combine m1 m2).
Definition mask_or (m1 m2 : list bool) : list bool :=
  map (fun p => orb (fst p) (snd p)) (combine m1 m2).
(** numpy logical_not. *)
Definition mask_not (m : list bool) : list bool := map negb m.
(** np.ones(n).astype(bool) and np.zeros(n).astype(bool). *)
Definition ones (n : nat) : list bool := repeat true n.
Definition zeros (n : nat) : list bool := repeat false n.

(** a[mask] with numpy's length check *)
Definition index_mask {A} (a : list A) (m : list bool) : res (list A) :=
  if Nat.eqb (length a) (length m) then Ok (compress m a) else Err IndexError.
