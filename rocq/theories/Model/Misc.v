(** czone/util/misc.py: get_N_splits (round_away is in Model/Algebraic.v next to its
    only user). *)
From Coq Require Import List ZArith Bool.
From Verif.Model Require Import Base Priority.
Import ListNotations.
Open Scope Z_scope.

(** range(a, b) as a list *)
Definition zrange (a b : Z) : list Z := map (fun k => a + Z.of_nat k) (seq 0 (Z.to_nat (b - a))).

(** rng.integers(lo, hi): the stream supplies an arbitrary natural number which is
    reduced into the half-open interval (every value of the interval is possible);
    ValueError when the interval is empty. *)
Definition integers (d : nat) (lo hi : Z) : res Z :=
  if hi <=? lo then Err ValueError else Ok (lo + Z.of_nat d mod (hi - lo)).
(** rng.choice(l) for a non-empty list *)
Definition choice (d : nat) (l : list Z) : Z := nth (Nat.modulo d (length l)) l 0.

(** np.abs(data - x) < m *)
Definition near (m x : Z) (data : list Z) : list bool := map (fun y => Z.abs (y - x) <? m) data.

(** The two while loops, misc.py 43-51.  [draws] is what remains of the random
    stream; running out of it is [Err NeedMore].  splits are kept newest first. *)
Fixpoint splits_loop (n m l : Z) (data : list Z) (draws : list nat)
         (splits : list Z) (mask : list bool) : res (list Z) :=
  if Z.of_nat (length splits) <? n then
    match draws with
    | [] => Err NeedMore
    | d :: ds =>
        if forallb (fun b => b) mask then
          (* no options left, reseed: misc.py 44-47 *)
          s <- integers d m (l - m) ;;
          splits_loop n m l data ds [s] (near m s data)
        else
          (* misc.py 50-51 *)
          let s := choice d (compress (mask_not mask) data) in
          splits_loop n m l data ds (s :: splits) (mask_or mask (near m s data))
    end
  else Ok splits.

(** splits.sort() *)
Definition zsort (l : list Z) : list Z := sort_by (fun x => x) l.

(** get_N_splits, misc.py 19-54 *)
Definition get_N_splits (n m l : Z) (draws : list nat) : res (list Z) :=
  if n =? 0 then Ok []
  else if l - 2 * m <? (n - 1) * m then Err ValueError
  else match draws with
       | [] => Err NeedMore
       | d :: ds =>
           s <- integers d m (l - m) ;;
           let data := zrange m (l - m) in
           out <- splits_loop n m l data ds [s] (near m s data) ;;
           Ok (zsort out)
       end.
