(** gen_p_substrate of czone/generator/amorphous_algorithms.py in binary64 arithmetic
    (as in Model/Float.v, without overflow).  The voxels are nested lists, so that a
    voxel number beyond the last one raises IndexError. *)
From Coq Require Import Reals List ZArith Bool.
From Flocq Require Import Core.
From Verif.Model Require Import Base Vec Amorphous Float.
Import ListNotations.
Open Scope R_scope.

(** rng.uniform(size=(1, 3)) * dims, amorphous_algorithms.py 133, 145 *)
Definition f_scale_draw (u dims : vec) : vec :=
  mkV (b64 (vx u * vx dims)) (b64 (vy u * vy dims)) (b64 (vz u * vz dims)).

(** get_p_dist for one row, amorphous_algorithms.py 12-20: every difference, square and
    sum is rounded; the minima and absolute values are exact *)
Definition f_p_dist (dims a b : vec) : R :=
  let d := vabs (fsub a b) in
  let e := fsub dims d in
  fsumsq (mkV (Rmin (vx d) (vx e)) (Rmin (vy d) (vy e)) (Rmin (vz d) (vz d))).

(** num_blocks = np.ceil(dims / min_dist), amorphous_algorithms.py 45 *)
Definition f_num_blocks (md : R) (dims : vec) : block :=
  (Zceil (b64 (vx dims / md)), Zceil (b64 (vy dims / md)), Zceil (b64 (vz dims / md))).
(** block = np.floor(new_coord / min_dist), amorphous_algorithms.py 135, 146 *)
Definition f_block_of (md : R) (c : vec) : block :=
  (Zfloor (b64 (vx c / md)), Zfloor (b64 (vy c / md)), Zfloor (b64 (vz c / md))).

(** neighbors[block[0]][block[1]][block[2]], amorphous_algorithms.py 137, 148.
    Simplification: a negative number would index from the end; coordinates and
    spacing are not negative, so it does not occur. *)
Definition f_lookup (nb b : block) : res (list block) :=
  let '(n0, n1, n2) := nb in
  let '(i, j, k) := b in
  if ((i <? n0) && (j <? n1) && (k <? n2))%Z then Ok (voxel_nbrs nb b) else Err IndexError.

(** One draw, amorphous_algorithms.py 133-156 (lines 133-142 and 145-153 are the same
    code).  [md2] is min_dist**2.0, line 109, by the C library's pow. *)
Definition f_step (dims : vec) (md md2 : R) (st : pstate) (u : vec) : res pstate :=
  let c := f_scale_draw u dims in
  let b := f_block_of md c in
  tlist <- f_lookup (f_num_blocks md dims) b ;;
  if existsb (fun i => Rltb (f_p_dist dims (nth i (ps_coords st) v0) c) md2) (parts_of st tlist)
  then Ok st
  else Ok (mkPS (ps_coords st ++ [c]) (vox_add (ps_vox st) b (length (ps_coords st)))).

(** num_c = np.round(dim_x * dim_y * dim_z * density), amorphous_algorithms.py 110-115 *)
Definition f_num_atoms (dims : vec) (density : R) : Z :=
  ZnearestE (b64 (b64 (b64 (vx dims * vy dims) * vz dims) * density)).

(** gen_p_substrate, amorphous_algorithms.py 72-158, on a finite stream of draws *)
Fixpoint f_gen_loop (dims : vec) (md md2 : R) (n : nat) (st : pstate) (draws : list vec) : res (list vec) :=
  if Nat.leb n (length (ps_coords st)) then Ok (ps_coords st)
  else match draws with
       | [] => Err NeedMore
       | u :: us => st' <- f_step dims md md2 st u ;; f_gen_loop dims md md2 n st' us
       end.
Definition f_gen_p_substrate (pow2 : R -> R) (dims : vec) (md density : R) (draws : list vec) : res (list vec) :=
  n <- check_rows (f_num_atoms dims density) ;;
  f_gen_loop dims md (pow2 md) n (mkPS [] (fun _ => [])) draws.
