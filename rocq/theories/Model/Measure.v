(** czone/util/measure.py: get_voxel_grid and get_sdist_fun.
    The float array of neighbour indices is modelled by exact integers (they stay
    far below 2^53), NaN by None. *)
From Coq Require Import Reals List ZArith Bool.
From Verif.Model Require Import Base Vec.
Import ListNotations.

Section Grid.
Open Scope Z_scope.
(** grid size (dim[0], dim[1], dim[2]) *)
Variables d0 d1 d2 : Z.

(** nn_x, nn_y, nn_z, measure.py 33-36 *)
Definition nn_x (j : Z) : Z := j mod 3 - 1.
Definition nn_y (j : Z) : Z := (j / 3) mod 3 - 1.
Definition nn_z (j : Z) : Z := j / 9 - 1.

(** N = np.prod(dim), measure.py 38 *)
Definition vgN : Z := d0 * d1 * d2.

(** Entry (i, j) of the array after measure.py 39-67.
    The x loops run over range(0,27,3) and range(2,27,3), i.e. j mod 3 = 0 and 2. *)
Definition vg_entry (i j : Z) : Z :=
  let v := i + (nn_x j * 1 + nn_y j * d0 + nn_z j * (d0 * d1)) in
  let v := if (i mod d0 =? 0) && (j mod 3 =? 0) then v + d0 else v in
  let v := if (i mod d0 =? d0 - 1) && (j mod 3 =? 2) then v - d0 else v in
  let v := if ((i / d0) mod d1 =? 0) && (nn_y j =? -1) then v + d0 * d1 else v in
  let v := if ((i / d0) mod d1 =? d1 - 1) && (nn_y j =? 1) then v - d0 * d1 else v in
  v mod vgN.

(** Faces of the grid and of the neighbourhood, measure.py 77-95 *)
Definition xi_face i := i mod d0 =? 0.
Definition xf_face i := i mod d0 =? d0 - 1.
Definition yi_face i := (i / d0) mod d1 =? 0.
Definition yf_face i := (i / d0) mod d1 =? d1 - 1.
Definition zi_face i := i / (d0 * d1) =? 0.
Definition zf_face i := i / (d0 * d1) =? d2 - 1.
Definition nn_xi j := j mod 3 =? 0.
Definition nn_xf j := j mod 3 =? 2.
Definition nn_yi j := (j / 3) mod 3 =? 0.
Definition nn_yf j := (j / 3) mod 3 =? 2.
Definition nn_zi j := j / 9 =? 0.
Definition nn_zf j := j / 9 =? 2.

(** Which entries are overwritten with NaN, measure.py 98-149 *)
Definition vg_nan (px py pz : bool) (i j : Z) : bool :=
  let fx := negb px in let fy := negb py in let fz := negb pz in
  let xs := [(xi_face i, nn_xi j); (xf_face i, nn_xf j)] in
  let ys := [(yi_face i, nn_yi j); (yf_face i, nn_yf j)] in
  let zs := [(zi_face i, nn_zi j); (zf_face i, nn_zf j)] in
  (fx && existsb (fun a => fst a && snd a) xs)
  || (fy && existsb (fun a => fst a && snd a) ys)
  || (fz && existsb (fun a => fst a && snd a) zs)
  || (fx && fy && existsb (fun a => existsb (fun b => fst a && fst b && (snd a && snd b)) ys) xs)
  || (fx && fz && existsb (fun a => existsb (fun b => fst a && fst b && (snd a && snd b)) zs) xs)
  || (fy && fz && existsb (fun a => existsb (fun b => fst a && fst b && (snd a && snd b)) zs) ys)
  || (fx && fy && fz &&
      existsb (fun a => existsb (fun b => existsb (fun c =>
         fst b && fst c && fst a && (snd b && snd c && snd a)) zs) ys) xs).

Definition idx27 : list Z := map Z.of_nat (seq 0 27).

(** The neighbour list of voxel i: a row of the N x 27 array in the fully periodic
    case (measure.py 70-71), otherwise a set (measure.py 152-156), here a duplicate
    free list. *)
Definition voxel_neighbors (px py pz : bool) (i : Z) : list Z :=
  if px && py && pz then map (vg_entry i) idx27
  else nodup Z.eq_dec (map (vg_entry i) (filter (fun j => negb (vg_nan px py pz i j)) idx27)).

(** get_voxel_grid, measure.py 7-156 *)
Definition get_voxel_grid (px py pz : bool) : list (list Z) :=
  map (fun k => voxel_neighbors px py pz (Z.of_nat k)) (seq 0 (Z.to_nat vgN)).
End Grid.

Open Scope R_scope.
(** One coordinate of the distance returned by get_sdist_fun, measure.py 184-189 *)
Definition sdist_coord (periodic : bool) (L a b : R) : R :=
  let d := Rabs (a - b) in
  if periodic then Rmin d (L - d) else d.

(** get_sdist_fun, measure.py 158-193.  The first definition of sdist (lines 174-177)
    is overwritten by the second; np.array(None)[cols] raises IndexError. *)
Definition get_sdist_fun (dims : option vec) (px py pz : bool) : res (vec -> vec -> R) :=
  match dims with
  | None => Err IndexError
  | Some d =>
      Ok (fun a b =>
            let x := sdist_coord px (vx d) (vx a) (vx b) in
            let y := sdist_coord py (vy d) (vy a) (vy b) in
            let z := sdist_coord pz (vz d) (vz a) (vz b) in
            x * x + y * y + z * z)
  end.
