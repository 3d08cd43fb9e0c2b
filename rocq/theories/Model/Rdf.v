(** czone/util/measure.py: calc_rdf.  Exact reals instead of binary64; the float
    array of counts is modelled by natural numbers. *)
From Coq Require Import Reals List ZArith Bool.
From Flocq Require Import Core.Raux.
From Verif.Model Require Import Base Vec Measure.
Import ListNotations.
Open Scope R_scope.

(** np.histogram(d, bins=nb, range=(0.0, cutoff)) (numpy, external): equal half-open
    bins, the last one closed, values outside dropped *)
Definition hist_bin (nb : nat) (cutoff d : R) : option nat :=
  if Rltb d 0 || Rltb cutoff d then None
  else if Reqb d cutoff then Some (nb - 1)%nat
  else Some (Z.to_nat (Zfloor (d / cutoff * INR nb))).
Definition in_bin (nb : nat) (cutoff : R) (b : nat) (d : R) : bool :=
  match hist_bin nb cutoff d with Some b' => Nat.eqb b b' | None => false end.
Definition histogram (nb : nat) (cutoff : R) (ds : list R) : list nat :=
  map (fun b => length (filter (in_bin nb cutoff b) ds)) (seq 0 nb).
Definition add_counts (a b : list nat) : list nat := map (fun p => (fst p + snd p)%nat) (combine a b).

(** np.min / np.max over axis 0 *)
Definition col_min (p : vec) (ps : list vec) : vec := fold_left vmin ps p.
Definition col_max (p : vec) (ps : list vec) : vec := fold_left vmax ps p.

Section Rdf.
Variables (coords : list vec) (cutoff : R) (px py pz : bool).
(** The shifted coordinates, written back into the caller's array, measure.py 211 *)
Definition rdf_shift : list vec :=
  match coords with [] => [] | p :: ps => map (fun q => vsub q (col_min p ps)) coords end.
(** dims and N, measure.py 214-215; coordinates are non-negative after the shift *)
Definition rdf_dims : vec := match rdf_shift with [] => v0 | p :: ps => col_max p ps end.
Definition rdf_N (f : vec -> R) : Z := Zceil (f rdf_dims / cutoff).
(** box_idx, measure.py 217 and 221 *)
Definition box_idx (p : vec) : Z :=
  (Zfloor (vx p / cutoff) + Zfloor (vy p / cutoff) * rdf_N vx + Zfloor (vz p / cutoff) * (rdf_N vx * rdf_N vy))%Z.
(** parts[i], measure.py 227-230 *)
Definition rdf_parts (i : Z) : list vec := filter (fun p => (box_idx p =? i)%Z) rdf_shift.
Definition num_voxels : nat := Z.to_nat (rdf_N vx * rdf_N vy * rdf_N vz).
(** counts.shape[0] = int(cutoff / 0.1), measure.py 233 *)
Definition num_bins : nat := Z.to_nat (Ztrunc (cutoff / (1 / 10))).
(** one pass of the loop at measure.py 237-248: the neighbour list is looked up with
    the voxel of particle i, not with i *)
Definition rdf_voxel (sd : vec -> vec -> R) (counts : list nat) (i : nat) : res (list nat) :=
  p <- match nth_error rdf_shift i with Some p => Ok p | None => Err IndexError end ;;
  nbrs <- match nth_error (get_voxel_grid (rdf_N vx) (rdf_N vy) (rdf_N vz) px py pz) (Z.to_nat (box_idx p)) with
          | Some l => Ok l | None => Err IndexError end ;;
  Ok (fold_left (fun c n =>
        add_counts c (histogram num_bins cutoff
          (map (fun ab => sqrt (sd (fst ab) (snd ab))) (list_prod (rdf_parts (Z.of_nat i)) (rdf_parts n))))) nbrs counts).
(** calc_rdf, measure.py 196-253: the array left to the caller and the counts.
    ValueError from np.min on an empty array and from np.histogram with no bins (for
    a cutoff below 0.1; the IndexError of counts[0] when there is no voxel either is
    not distinguished). *)
Definition calc_rdf : list vec * res (list nat) :=
  (rdf_shift,
   match coords with
   | [] => Err ValueError
   | _ =>
     if Nat.eqb num_bins 0 then Err ValueError else
     sd <- get_sdist_fun (Some rdf_dims) px py pz ;;
     counts <- foldM (rdf_voxel sd) (seq 0 num_voxels) (repeat 0%nat num_bins) ;;
     Ok (match counts with [] => [] | _ :: t => 0%nat :: t end)
   end).
End Rdf.
