(** gen_p_substrate_batched of czone/generator/amorphous_algorithms.py in binary64
    arithmetic (as in Model/FloatAmorph.v, without overflow).  The voxels have one number
    each, so that a wrong number along one axis is another voxel. *)
From Coq Require Import Reals List ZArith Bool.
From Flocq Require Import Core.
From Verif.Model Require Import Base Vec Priority Measure Amorphous Float FloatAmorph.
Import ListNotations.
Open Scope R_scope.

(** np.floor(new_coord / voxel_size) @ Nt, amorphous_algorithms.py 184, 205; the product is
    exact as long as there are fewer than 2^53 voxels *)
Definition f_block1d (vs : R) (dims c : vec) : Z :=
  let '(n0, n1, _) := f_num_blocks vs dims in
  let '(i, j, k) := f_block_of vs c in
  (i * 1 + j * n0 + k * (n0 * n1))%Z.
(** get_p_dist_batch for one candidate, amorphous_algorithms.py 22-29 *)
Definition f_far_from_all (dims : vec) (md2 : R) (rows : list vec) (c : vec) : bool :=
  forallb (fun p => Rltb md2 (f_p_dist dims p c)) rows.

(** One iteration of the while loop, amorphous_algorithms.py 198-243.  neighbors[b] raises
    IndexError for a voxel number beyond the last one. *)
Definition f_batch_step (dims : vec) (md2 vs : R) (num_c : nat) (st : bstate) (us : list vec) : res bstate :=
  let cand := map (fun u => f_scale_draw u dims) us in
  let blocks0 := map (f_block1d vs dims) cand in
  let idx := np_unique_index blocks0 in
  let blocks := map (fun i => nth i blocks0 0%Z) idx in
  let cand := map (fun i => nth i cand v0) idx in
  let '(n0, n1, n2) := f_num_blocks vs dims in
  let nbrs := voxel_neighbors n0 n1 n2 true true false in
  if negb (forallb (fun b => b <? n0 * n1 * n2)%Z blocks) then Err IndexError else
  let compare := map (fun b => map (fun i => nth i (bs_coords st) v0)
                                   (flat_map (bs_vox st) (nbrs b))) blocks in
  let maxc := fold_left (fun m l => Nat.max m (length l)) compare 0%nat in
  let padded := map (fun l => l ++ repeat pad (maxc - length l)) compare in
  let flt := map (fun rc => f_far_from_all dims md2 (fst rc) (snd rc)) (combine padded cand) in
  let flt := prune nbrs blocks flt in
  let acc_blocks := compress flt blocks in
  let nacc := length (bs_coords st) in
  let vox := fold_left (fun v ib => fun b' => if (b' =? snd ib)%Z then v b' ++ [fst ib] else v b')
                       (combine (seq nacc (length acc_blocks)) acc_blocks) (bs_vox st) in
  let flt := trim (num_c - nacc) flt in
  Ok (mkBS (bs_coords st ++ compress flt cand) vox).

(** gen_p_substrate_batched, amorphous_algorithms.py 160-245; voxel_size = min_dist*voxel_scale
    is line 181, [pow2] is min_dist**2.0 of line 172 *)
Fixpoint f_batch_loop (dims : vec) (md2 vs : R) (num_c : nat) (st : bstate) (batches : list (list vec))
  : res (list vec) :=
  if Nat.leb num_c (length (bs_coords st)) then Ok (bs_coords st)
  else match batches with
       | [] => Err NeedMore
       | us :: rest => st' <- f_batch_step dims md2 vs num_c st us ;; f_batch_loop dims md2 vs num_c st' rest
       end.
Definition f_gen_p_substrate_batched (pow2 : R -> R) (dims : vec) (md density voxel_scale : R)
           (batches : list (list vec)) : res (list vec) :=
  n <- check_rows (f_num_atoms dims density) ;;
  f_batch_loop dims (pow2 md) (b64 (md * voxel_scale)) n (mkBS [] (fun _ => [])) batches.
