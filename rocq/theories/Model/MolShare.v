(** czone/molecule/molecule.py: a molecule together with the arrays of the program that uses
    it.  set_atoms, update_positions, remove_atoms, transform and set_origin store new arrays
    (lines 74-83, 86-88, 115-116, 175, 194); the orientation setter keeps the array it is given (220);
    the atoms and origin getters hand out the stored arrays themselves (60-63, 123-128). *)
From Coq Require Import Reals List Bool ZArith Arith.
From Verif.Model Require Import Base Vec Transform Molecule.
Import ListNotations.
Open Scope R_scope.

(** _orientation: an array of its own, or the i-th matrix of the program *)
Inductive orient_slot := OwnM (r : mat) | SharedM (i : nat).
(** The program's matrices and position arrays; every array that was ever the molecule's
    _atoms, in order, the last being the present one; the molecule, whose m_atoms and m_orient
    are not used (see [seen]). *)
Record mworld := mkMW {
  mw_mats : nat -> mat; mw_mine : nat -> list vec;
  mw_past : list (list vec); mw_atoms : list vec;
  mw_orient : orient_slot; mw_mol : molecule }.

Definition slot_mat (w : mworld) : mat := match mw_orient w with OwnM r => r | SharedM i => mw_mats w i end.
(** the molecule as its attributes read at this moment *)
Definition seen (w : mworld) : molecule :=
  let m := mw_mol w in
  mkMol (m_species m) (mw_atoms w) (m_tracking m) (m_origin m) (m_oidx m) (slot_mat w) (m_prio m).

(** in-place assignment of a row; out of range raises IndexError and writes nothing *)
Fixpoint put_row (i : nat) (v : vec) (l : list vec) : list vec :=
  match l, i with [], _ => [] | _ :: t, O => v :: t | x :: t, S i' => x :: put_row i' v t end.
Fixpoint put_past (n i : nat) (v : vec) (l : list (list vec)) : list (list vec) :=
  match l, n with [], _ => [] | a :: t, O => put_row i v a :: t | a :: t, S n' => a :: put_past n' i v t end.

(** What the program does. *)
Inductive mevent :=
| WriteMat (i : nat) (r : mat)              (* a[...] = r, its i-th matrix *)
| WriteMine (b i : nat) (v : vec)           (* a[i] = v, its b-th position array *)
| WriteGot (n i : nat) (v : vec)            (* a[i] = v, a read from .atoms when it was the n-th array there *)
| WriteOrigin (v : vec)                     (* m.origin[:] = v *)
| GiveAtoms (s : list Z) (b : nat)          (* m.set_atoms(s, a) *)
| GivePositions (b : nat)                   (* m.update_positions(a) *)
| GiveOrient (i : nat)                      (* m.orientation = a *)
| Call (o : mol_op).                        (* any other call, with values of its own *)

(** the call an event amounts to, with the values of this moment *)
Definition call_now (w : mworld) (e : mevent) : option mol_op :=
  match e with
  | WriteMat _ _ | WriteMine _ _ _ | WriteGot _ _ _ | WriteOrigin _ => None
  | GiveAtoms s b => Some (OSetAtoms s (mw_mine w b))
  | GivePositions b => Some (OUpdatePositions (mw_mine w b))
  | GiveOrient i => Some (OOrient (mw_mats w i))
  | Call o => Some o
  end.
(** whether the call stores a new array of positions: lines 83, 88, 116 are the last of their
    methods, 175 is not *)
Definition stores_atoms (m : molecule) (o : mol_op) : bool :=
  match o with
  | OSetAtoms _ _ | OUpdatePositions _ | ORemove _ _ => match snd (mol_step m o) with Ok _ => true | Err _ => false end
  | OTransform _ _ => Nat.eqb (length (m_atoms m)) (length (m_species m))
  | _ => false
  end.
Definition new_slot (w : mworld) (e : mevent) (o : mol_op) (r : res unit) (m' : molecule) : orient_slot :=
  match e, o, r with
  | GiveOrient i, _, Ok _ => SharedM i
  | _, (OOrient _ | OReset), Ok _ => OwnM (m_orient m')
  | _, _, _ => mw_orient w
  end.
Definition upd_fun {A} (f : nat -> A) (i : nat) (x : A) (j : nat) : A := if Nat.eqb i j then x else f j.
Definition mw_step (w : mworld) (e : mevent) : mworld :=
  let '(mkMW ms mine past cur sl m) := w in
  match call_now w e with
  | Some o =>
      let '(m', r) := mol_step (seen w) o in
      let st := stores_atoms (seen w) o in
      mkMW ms mine (if st then past ++ [cur] else past) (if st then m_atoms m' else cur) (new_slot w e o r m') m'
  | None =>
      match e with
      | WriteMat i r => mkMW (upd_fun ms i r) mine past cur sl m
      | WriteMine b i v => mkMW ms (upd_fun mine b (put_row i v (mine b))) past cur sl m
      | WriteGot n i v =>
          if Nat.eqb n (length past) then mkMW ms mine past (put_row i v cur) sl m
          else mkMW ms mine (put_past n i v past) cur sl m
      | WriteOrigin v =>
          if m_tracking m then
            match m_oidx m with
            | Some z => match py_index (length cur) z with Ok j => mkMW ms mine past (put_row j v cur) sl m | Err _ => w end
            | None => w
            end
          else match m_origin m with
               | Some _ => mkMW ms mine past cur sl (mkMol (m_species m) (m_atoms m) (m_tracking m) (Some v) (m_oidx m) (m_orient m) (m_prio m))
               | None => w
               end
      | _ => w
      end
  end.
Definition mw_run (w : mworld) (h : list mevent) : mworld := fold_left mw_step h w.
(** a molecule just made, by any constructor call; its orientation, if one was given, is the
    caller's array too, but is taken as a value here (use GiveOrient for the other case) *)
Definition mw_new (ms : nat -> mat) (mine : nat -> list vec) (m : molecule) : mworld :=
  mkMW ms mine [] (m_atoms m) (OwnM (m_orient m)) m.
(** the n-th array that was ever in .atoms *)
Definition got (w : mworld) (n : nat) : list vec := nth n (mw_past w ++ [mw_atoms w]) [].
