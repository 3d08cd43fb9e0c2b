(** czone/molecule/molecule.py.  Positions are Nx3 arrays and species integer arrays
    (what the casts and reshapes do with other arrays is modelled by the *_arr functions). *)
From Coq Require Import Reals List ZArith Bool.
From Flocq Require Import Core.Raux.
From Verif.Model Require Import Base Vec Voxel Transform.
Import ListNotations.
Open Scope R_scope.

(** Attributes, molecule.py 32-49.  [m_origin] is _origin and [m_oidx] is
    __origin_idx; either may never have been assigned. *)
Record molecule := mkMol {
  m_species : list Z; m_atoms : list vec;
  m_tracking : bool; m_origin : option vec; m_oidx : option Z;
  m_orient : mat; m_prio : Z }.

(** set_atoms, molecule.py 72-83 *)
Definition set_atoms (m : molecule) (species : list Z) (positions : list vec) : res molecule :=
  if Nat.eqb (length positions) (length species)
  then Ok (mkMol species positions (m_tracking m) (m_origin m) (m_oidx m) (m_orient m) (m_prio m))
  else Err ValueError.
(** update_positions, molecule.py 85-88; update_species, molecule.py 90-93: reshape
    to the old shape *)
Definition update_positions (m : molecule) (positions : list vec) : res molecule :=
  if Nat.eqb (length positions) (length (m_atoms m))
  then Ok (mkMol (m_species m) positions (m_tracking m) (m_origin m) (m_oidx m) (m_orient m) (m_prio m))
  else Err ValueError.
Definition update_species (m : molecule) (species : list Z) : res molecule :=
  if Nat.eqb (length species) (length (m_species m))
  then Ok (mkMol species (m_atoms m) (m_tracking m) (m_origin m) (m_oidx m) (m_orient m) (m_prio m))
  else Err ValueError.

(** np.reshape(positions, (-1, 3)), molecule.py 77, 87: the entries in row-major order,
    three at a time; ValueError when their number is not a multiple of three.
    [.astype(int)] of the species, 75, 92, drops fractional parts. *)
Fixpoint rows3 (l : list R) : list vec :=
  match l with a :: b :: c :: t => mkV a b c :: rows3 t | _ => [] end.
Definition reshape3 (a : nparray) : res (list vec) :=
  if Nat.eqb (length (a_data a) mod 3) 0 then Ok (rows3 (a_data a)) else Err ValueError.
Definition int_species (a : nparray) : list Z := map Ztrunc (a_data a).
(** set_atoms on any arrays, molecule.py 72-83 *)
Definition set_atoms_arr (m : molecule) (species positions : nparray) : res molecule :=
  p <- reshape3 positions ;; set_atoms m (int_species species) p.
(** update_positions and update_species on any arrays, molecule.py 85-93: reshape to the
    shape of the present array *)
Definition update_positions_arr (m : molecule) (positions : nparray) : res molecule :=
  if Nat.eqb (length (a_data positions)) (3 * length (m_atoms m))
  then update_positions m (rows3 (a_data positions)) else Err ValueError.
Definition update_species_arr (m : molecule) (species : nparray) : res molecule :=
  update_species m (int_species species).

(** Python indexing of a sequence of length n: negative indices count from the end *)
Definition py_index (n : nat) (i : Z) : res nat :=
  if ((0 <=? i) && (i <? Z.of_nat n))%Z then Ok (Z.to_nat i)
  else if ((- Z.of_nat n <=? i) && (i <? 0))%Z then Ok (Z.to_nat (i + Z.of_nat n))
  else Err IndexError.

(** np.delete(arr, indices, axis=0) *)
Definition np_delete {A} (l : list A) (indices : list Z) : res (list A) :=
  js <- mapM (py_index (length l)) indices ;;
  Ok (map snd (filter (fun ia => negb (existsb (Nat.eqb (fst ia)) js))
                      (combine (seq 0 (length l)) l))).

(** An index argument: an integer or something else. *)
Inductive pyidx := PInt (z : Z) | POther.

(** remove_atoms, molecule.py 95-116.  The non-integer entries of [indices] are not
    modelled.  _origin_idx is read when an atom is tracked; it does not exist yet when the
    only set_origin(idx) so far was refused (AttributeError). *)
Definition remove_atoms (m : molecule) (indices : list Z) (new_origin : option pyidx) : res molecule :=
  _ <- match new_origin with
       | None => Ok tt
       | Some POther => Err TypeError
       | Some (PInt z) =>
           if (Z.of_nat (length (m_atoms m)) <=? Z.abs z)%Z then Err IndexError
           else if existsb (Z.eqb z) indices then Err IndexError else Ok tt
       end ;;
  _ <- (if m_tracking m then
          match m_oidx m with
          | Some i => if existsb (Z.eqb i) indices then Err NotImplementedError else Ok tt
          | None => Err AttributeError
          end
        else Ok tt) ;;
  s <- np_delete (m_species m) indices ;;
  a <- np_delete (m_atoms m) indices ;;
  Ok (mkMol s a (m_tracking m) (m_origin m) (m_oidx m) (m_orient m) (m_prio m)).

(** origin, molecule.py 123-128 *)
Definition mol_origin (m : molecule) : res vec :=
  if m_tracking m then
    match m_oidx m with
    | None => Err AttributeError
    | Some i => j <- py_index (length (m_atoms m)) i ;; Ok (nth j (m_atoms m) v0)
    end
  else match m_origin m with Some o => Ok o | None => Err AttributeError end.

(** set_origin, molecule.py 185-201, with the _origin_idx setter 144-152; returns the
    state left behind and the outcome.  [set_origin_point] takes a (3,) point. *)
Definition set_origin_point (m : molecule) (p : vec) : molecule :=
  mkMol (m_species m) (m_atoms m) false (Some p) (m_oidx m) (m_orient m) (m_prio m).
Definition set_origin_idx (m : molecule) (i : pyidx) : molecule * res unit :=
  let m1 := mkMol (m_species m) (m_atoms m) true (m_origin m) (m_oidx m) (m_orient m) (m_prio m) in
  match i with
  | POther => (m1, Err TypeError)
  | PInt z =>
      if (Z.abs z <? Z.of_nat (length (m_atoms m)))%Z
      then (mkMol (m_species m) (m_atoms m) true (m_origin m) (Some z) (m_orient m) (m_prio m), Ok tt)
      else (m1, Err IndexError)
  end.

(** transform, molecule.py 166-182.  The warning at 178-179 reads _origin_idx, which need
    not exist (see remove_atoms); print_warnings is taken to be True, its default. *)
Definition mol_transform (m : molecule) (t : transform) (transform_origin : bool) : res molecule :=
  m1 <- set_atoms m (m_species m) (map (apply_pt t) (m_atoms m)) ;;
  if transform_origin then
    if m_tracking m1 then match m_oidx m1 with Some _ => Ok m1 | None => Err AttributeError end
    else o <- mol_origin m1 ;; Ok (set_origin_point m1 (apply_pt t o))
  else Ok m1.

(** The same methods as state transformers: the object left behind and the outcome.
    remove_atoms assigns _species before computing the new _atoms (molecule.py
    115-116); transform assigns the atoms before looking at the origin (176-182). *)
Definition remove_atoms_st (m : molecule) (indices : list Z) (new_origin : option pyidx) : molecule * res unit :=
  let check :=
    _ <- match new_origin with
         | None => Ok tt
         | Some POther => Err TypeError
         | Some (PInt z) =>
             if (Z.of_nat (length (m_atoms m)) <=? Z.abs z)%Z then Err IndexError
             else if existsb (Z.eqb z) indices then Err IndexError else Ok tt
         end ;;
    (if m_tracking m then
       match m_oidx m with
       | Some i => if existsb (Z.eqb i) indices then Err NotImplementedError else Ok tt
       | None => Err AttributeError
       end
     else Ok tt) in
  match check with
  | Err e => (m, Err e)
  | Ok _ =>
      match np_delete (m_species m) indices with
      | Err e => (m, Err e)
      | Ok s =>
          let m1 := mkMol s (m_atoms m) (m_tracking m) (m_origin m) (m_oidx m) (m_orient m) (m_prio m) in
          match np_delete (m_atoms m1) indices with
          | Err e => (m1, Err e)
          | Ok a => (mkMol s a (m_tracking m) (m_origin m) (m_oidx m) (m_orient m) (m_prio m), Ok tt)
          end
      end
  end.
Definition mol_transform_st (m : molecule) (t : transform) (transform_origin : bool) : molecule * res unit :=
  match set_atoms m (m_species m) (map (apply_pt t) (m_atoms m)) with
  | Err e => (m, Err e)
  | Ok m1 =>
      if transform_origin then
        if m_tracking m1 then (m1, match m_oidx m1 with Some _ => Ok tt | None => Err AttributeError end)
        else match mol_origin m1 with
             | Err e => (m1, Err e)
             | Ok o => (set_origin_point m1 (apply_pt t o), Ok tt)
             end
      else (m1, Ok tt)
  end.

(** orientation setter, molecule.py 207-220 *)
Definition set_orientation (m : molecule) (r : mat) : res molecule :=
  if Rltb (/ 10 ^ 6) (Rabs (det r - 1)) then Err ValueError
  else if Rltb (/ 10 ^ 6) (msumabs (msub (mm r (mt r)) mI)) then Err ValueError
  else Ok (mkMol (m_species m) (m_atoms m) (m_tracking m) (m_origin m) (m_oidx m) r (m_prio m)).

(** reset_orientation, molecule.py 222-224 *)
Definition reset_orientation (m : molecule) : res molecule := set_orientation m mI.

(** The origin keyword of the constructor: None, an integer, or a point *)
Inductive origin_arg := ONone | OIdx (z : Z) | OPoint (p : vec).
(** __init__, molecule.py 33-49 *)
Definition new_molecule (species : list Z) (positions : list vec) (o : origin_arg)
           (orient : option mat) : res molecule :=
  m <- set_atoms (mkMol [] [] false None None mI 0) species positions ;;
  m <- match o with
       | ONone => Ok (set_origin_point m v0)
       | OIdx z => let '(m', r) := set_origin_idx m (PInt z) in rmap (fun _ => m') r
       | OPoint p => Ok (set_origin_point m p)
       end ;;
  match orient with None => Ok m | Some r => set_orientation m r end.

(** from_molecule(transformation=ts), molecule.py 253-267 *)
Definition from_molecule (m : molecule) (ts : list transform) : res molecule :=
  foldM (fun x t => mol_transform x t true) ts m.

(** checkIfInterior, molecule.py 231-236: always false.  populate_atoms (227-229)
    does nothing. *)
Definition mol_inside (m : molecule) (p : vec) : bool := false.


(** One call on a molecule object, with arbitrary arguments; priority setter
    molecule.py 159-164. *)
Inductive mol_op :=
| OSetAtoms (species : list Z) (positions : list vec)
| OUpdatePositions (positions : list vec)
| OUpdateSpecies (species : list Z)
| ORemove (indices : list Z) (new_origin : option pyidx)
| OTransform (t : transform) (transform_origin : bool)
| OOriginPoint (p : vec)
| OOriginIdx (i : pyidx)
| OOrient (r : mat)
| OReset
| OPriority (i : pyidx).
Definition keep_on_err (m : molecule) (r : res molecule) : molecule * res unit :=
  match r with Ok m' => (m', Ok tt) | Err e => (m, Err e) end.
Definition mol_step (m : molecule) (o : mol_op) : molecule * res unit :=
  match o with
  | OSetAtoms s p => keep_on_err m (set_atoms m s p)
  | OUpdatePositions p => keep_on_err m (update_positions m p)
  | OUpdateSpecies s => keep_on_err m (update_species m s)
  | ORemove i n => remove_atoms_st m i n
  | OTransform t b => mol_transform_st m t b
  | OOriginPoint p => (set_origin_point m p, Ok tt)
  | OOriginIdx i => set_origin_idx m i
  | OOrient r => keep_on_err m (set_orientation m r)
  | OReset => keep_on_err m (reset_orientation m)
  | OPriority (PInt z) => (mkMol (m_species m) (m_atoms m) (m_tracking m) (m_origin m) (m_oidx m) (m_orient m) z, Ok tt)
  | OPriority POther => (m, Err TypeError)
  end.
