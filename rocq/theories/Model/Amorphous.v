(** czone/generator/amorphous_algorithms.py *)
From Coq Require Import Reals List ZArith Bool.
From Flocq Require Import Core.Raux Core.Generic_fmt Core.Round_NE.
From Verif.Model Require Import Base Vec Voxel Priority Measure.
Import ListNotations.
Open Scope R_scope.

(** get_p_dist for one row: squared distance, periodic in x and y.
    amorphous_algorithms.py 12-20 *)
Definition p_dist (dims a b : vec) : R :=
  let d := vabs (vsub a b) in
  let x := Rmin (vx d) (vx dims - vx d) in
  let y := Rmin (vy d) (vy dims - vy d) in
  let z := Rmin (vz d) (vz d) in
  x * x + y * y + z * z.

Definition block := (Z * Z * Z)%type.

(** num_blocks = ceil(dims / min_dist), amorphous_algorithms.py 45 *)
Definition num_blocks (s : R) (dims : vec) : block := vceil (vscale (/ s) dims).
(** block = floor(new_coord / min_dist), amorphous_algorithms.py 135 *)
Definition block_of (s : R) (c : vec) : block := vfloor (vscale (/ s) c).

(** neighbors[i][j][k] of get_voxels, amorphous_algorithms.py 57-67, 31-35 *)
Definition voxel_nbrs (nb b : block) : list block :=
  let '(n0, n1, n2) := nb in
  let '(i, j, k) := b in
  let tx := [i; (i + 1) mod n0; (i - 1) mod n0]%Z in
  let ty := [j; (j + 1) mod n1; (j - 1) mod n1]%Z in
  let tz := ([k] ++ (if 0 <? k then [k - 1] else [])
                 ++ (if k <? n2 - 1 then [k + 1] else []))%Z in
  flat_map (fun x => flat_map (fun y => map (fun z => (x, y, z)) tz) ty) tx.

(** Loop state: coordinates accepted so far (row i of [coords]) and the particle
    lists of the voxels, amorphous_algorithms.py 116, 123 *)
Record pstate := mkPS { ps_coords : list vec; ps_vox : block -> list nat }.
Definition block_eqb (a b : block) : bool :=
  let '(a0, a1, a2) := a in let '(b0, b1, b2) := b in
  ((a0 =? b0) && (a1 =? b1) && (a2 =? b2))%Z.
Definition vox_add (v : block -> list nat) (b : block) (i : nat) : block -> list nat :=
  fun b' => if block_eqb b' b then v b' ++ [i] else v b'.

(** One iteration: a uniform draw [u] in [0,1)^3, the candidate u*dims, its block,
    the particles of the neighbouring voxels and the rejection test.
    amorphous_algorithms.py 133-156 (lines 133-142 and 145-153 are the same code). *)
Definition parts_of (st : pstate) (tlist : list block) : list nat :=
  flat_map (ps_vox st) tlist.
Definition rejected (dims : vec) (md : R) (st : pstate) (c : vec) : bool :=
  let tlist := voxel_nbrs (num_blocks md dims) (block_of md c) in
  existsb (fun i => Rltb (p_dist dims (nth i (ps_coords st) v0) c) (md * md))
          (parts_of st tlist).
Definition step (dims : vec) (md : R) (st : pstate) (u : vec) : pstate :=
  let c := vmul u dims in
  if rejected dims md st c then st
  else mkPS (ps_coords st ++ [c])
            (vox_add (ps_vox st) (block_of md c) (length (ps_coords st))).

(** num_c = np.round(sub_vol * density), amorphous_algorithms.py 113-115 *)
Definition num_atoms (dims : vec) (density : R) : Z :=
  ZnearestE (vx dims * vy dims * vz dims * density).
(** coords = np.zeros((num_c, 3)), amorphous_algorithms.py 116: ValueError for a
    negative number of rows *)
Definition check_rows (n : Z) : res nat := if (n <? 0)%Z then Err ValueError else Ok (Z.to_nat n).

(** gen_p_substrate, amorphous_algorithms.py 72-158, on a finite stream of draws *)
Fixpoint gen_loop (dims : vec) (md : R) (n : nat) (st : pstate) (draws : list vec) : res (list vec) :=
  if Nat.leb n (length (ps_coords st)) then Ok (ps_coords st)
  else match draws with
       | [] => Err NeedMore
       | u :: us => gen_loop dims md n (step dims md st u) us
       end.
Definition gen_p_substrate (dims : vec) (md density : R) (draws : list vec) : res (list vec) :=
  n <- check_rows (num_atoms dims density) ;;
  gen_loop dims md n (mkPS [] (fun _ => [])) draws.

(* ------------------------------------------------------------------ *)
(** gen_p_substrate_batched, amorphous_algorithms.py 160-245 *)

(** 1-D block number floor(c / voxel_size) @ [1, nb0, nb0*nb1], line 184, 205 *)
Definition block1d (vs : R) (dims c : vec) : Z :=
  let '(n0, n1, _) := num_blocks vs dims in
  let '(i, j, k) := block_of vs c in
  (i * 1 + j * n0 + k * (n0 * n1))%Z.

(** Batched state: accepted coordinates in order and voxel contents. *)
Record bstate := mkBS { bs_coords : list vec; bs_vox : Z -> list nat }.

(** get_p_dist_batch for one candidate against its padded comparison rows, line
    22-29; the padding rows are (-1000,-1000,-1000), line 218 *)
Definition pad : vec := mkV (-1000) (-1000) (-1000).
Definition far_from_all (dims : vec) (md2 : R) (rows : list vec) (c : vec) : bool :=
  forallb (fun p => Rltb md2 (p_dist dims p c)) rows.

(** Lines 224-231: inds are the positions accepted by the distance test; an earlier
    one is dropped when its block is a neighbour of a later one's block. *)
Fixpoint set_false (i : nat) (l : list bool) : list bool :=
  match i, l with
  | _, [] => []
  | O, _ :: t => false :: t
  | S i', x :: t => x :: set_false i' t
  end.
Definition where_true (l : list bool) : list nat :=
  map fst (filter snd (combine (seq 0 (length l)) l)).
Definition prune (nbrs : Z -> list Z) (blocks : list Z) (flt : list bool) : list bool :=
  let inds := where_true flt in
  fold_left (fun f i =>
    fold_left (fun f j =>
      let bi := nth (nth i inds 0%nat) blocks 0%Z in
      let bj := nth (nth j inds 0%nat) blocks 0%Z in
      if existsb (Z.eqb bj) (nbrs bi) then set_false (nth j inds 0%nat) f else f)
      (seq 0 i) f)
    (seq 1 (length inds - 1)) flt.

(** Lines 236-239: keep only the first [room] accepted *)
Fixpoint trim (room : nat) (l : list bool) : list bool :=
  match l with
  | [] => []
  | true :: t => match room with O => false :: trim O t | S r => true :: trim r t end
  | false :: t => false :: trim room t
  end.

(** One iteration of the while loop, lines 198-243 *)
Definition batch_step (dims : vec) (md vs : R) (num_c : nat) (st : bstate) (us : list vec) : bstate :=
  let cand := map (fun u => vmul u dims) us in
  let blocks0 := map (block1d vs dims) cand in
  let idx := np_unique_index blocks0 in
  let blocks := map (fun i => nth i blocks0 0%Z) idx in
  let cand := map (fun i => nth i cand v0) idx in
  let '(n0, n1, n2) := num_blocks vs dims in
  let nbrs := voxel_neighbors n0 n1 n2 true true false in
  let compare := map (fun b => map (fun i => nth i (bs_coords st) v0)
                                   (flat_map (bs_vox st) (nbrs b))) blocks in
  let maxc := fold_left (fun m l => Nat.max m (length l)) compare 0%nat in
  let padded := map (fun l => l ++ repeat pad (maxc - length l)) compare in
  let flt := map (fun rc => far_from_all dims (md * md) (fst rc) (snd rc)) (combine padded cand) in
  let flt := prune nbrs blocks flt in
  let acc_blocks := compress flt blocks in
  let nacc := length (bs_coords st) in
  let vox := fold_left (fun v ib => fun b' => if (b' =? snd ib)%Z then v b' ++ [fst ib] else v b')
                       (combine (seq nacc (length acc_blocks)) acc_blocks) (bs_vox st) in
  let flt := trim (num_c - nacc) flt in
  mkBS (bs_coords st ++ compress flt cand) vox.

Fixpoint batch_loop (dims : vec) (md vs : R) (num_c : nat) (st : bstate) (batches : list (list vec))
  : res (list vec) :=
  if Nat.leb num_c (length (bs_coords st)) then Ok (bs_coords st)
  else match batches with
       | [] => Err NeedMore
       | us :: rest => batch_loop dims md vs num_c (batch_step dims md vs num_c st us) rest
       end.
Definition gen_p_substrate_batched (dims : vec) (md density voxel_scale : R)
           (batches : list (list vec)) : res (list vec) :=
  n <- check_rows (num_atoms dims density) ;;
  batch_loop dims md (md * voxel_scale) n (mkBS [] (fun _ => [])) batches.
