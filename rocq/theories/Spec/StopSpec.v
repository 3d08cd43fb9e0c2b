(** When a search that refines a direction step by step is over. *)
From Coq Require Import Reals List.
From Verif.Model Require Import Base Vec.
Import ListNotations.
Open Scope R_scope.

(** One step of the perceptron from the direction [w], which has been corrected [length ds]
    times so far: a point that is not behind [w] pushes it back, by a weight that decays with
    the number of corrections, and the cosine of the turn is noted.  [None] stands for NaN. *)
Inductive correction (decay margin : R) : (option vec * list (option R)) -> vec -> (option vec * list (option R)) -> Prop :=
| NoGuess ds x : correction decay margin (None, ds) x (None, ds)
| Behind w ds x : dot w x < margin -> correction decay margin (Some w, ds) x (Some w, ds)
| Turn w ds x w' : margin <= dot w x -> w' = vsub w (vscale (decay ^ length ds) x) -> w' <> v0 ->
    correction decay margin (Some w, ds) x (Some (vscale (/ norm w') w'), ds ++ [Some (dot w' w / (norm w' * norm w))])
| Lost w ds x : margin <= dot w x -> vsub w (vscale (decay ^ length ds) x) = v0 ->
    correction decay margin (Some w, ds) x (None, ds ++ [None]).

(** the state after each point in turn *)
Inductive corrections (decay margin : R) : (option vec * list (option R)) -> list vec -> (option vec * list (option R)) -> Prop :=
| Stay s : corrections decay margin s [] s
| Step s x s1 xs s2 : correction decay margin s x s1 -> corrections decay margin s1 xs s2 -> corrections decay margin s (x :: xs) s2.

(** at least six turns, the last five of them by a cosine above 1 - tol *)
Definition settled (tol : R) (ds : list (option R)) : Prop :=
  exists first last, ds = first ++ last /\ first <> [] /\ length last = 5%nat /\
    Forall (fun d => exists r, d = Some r /\ 1 - tol < r) last.
