(** czone/transform/transform.py: the transformation objects together with the arrays and
    planes of the program that uses them.  Some setters copy what they are given, some
    keep a reference to it, so that a later change in place shows in the object. *)
From Coq Require Import Reals List Bool ZArith Arith.
From Verif.Model Require Import Base Vec Voxel Algebraic Transform TransformObj.
Import ListNotations.
Open Scope R_scope.

(** The caller's numpy arrays and Plane objects, by identity. *)
Record client := mkC { c_arr : nat -> nparray; c_plane : nat -> plane }.
(** An attribute holds a value of its own or a reference. *)
Inductive slot (A : Type) := Own (x : A) | Ref (i : nat).
Arguments Own {A}. Arguments Ref {A}.
(** The object: _shift is np.array(shift), transform.py 126; _origin np.array(origin), 198;
    _matrix the given array itself, 189 and 291, or for a Reflection a new array, 318;
    _plane the given Plane itself, 330. *)
Record sobj := mkS {
  s_kind : tkind; s_shift : option nparray; s_matrix : option (slot mat); s_origin : option vec;
  s_plane : option nat; s_locked : bool; s_basis_only : bool }.
Record world := mkW { w_client : client; w_obj : sobj }.

(** What the object's attributes hold at this moment. *)
Definition slot_val (c : client) (s : slot mat) : mat :=
  match s with Own m => m | Ref i => arr_mat (c_arr c i) end.
Definition view (w : world) : tobj :=
  let '(mkS k s m og p lk bo) := w_obj w in
  mkT k s (option_map (slot_val (w_client w)) m) og (option_map (c_plane (w_client w)) p) lk bo.

(** What the program does: it writes numbers into one of its arrays (a[...] = data, which
    keeps the shape), changes one of its planes (normal and point setters of Plane,
    algebraic.py), or assigns an attribute of the transformation. *)
Inductive event :=
| Write (i : nat) (data : list R)
| MovePlane (j : nat) (p : plane)
| GiveShift (i : nat) | GiveMatrix (i : nat) | GiveOrigin (i : nat) | GivePlane (j : nat)
| GiveLocked (b : option bool) | GiveBasisOnly (b : option bool).

Definition upd {A} (f : nat -> A) (i : nat) (x : A) (j : nat) : A := if Nat.eqb i j then x else f j.
Definition c_step (c : client) (e : event) : client :=
  match e with
  | Write i d => if Nat.eqb (length d) (length (a_data (c_arr c i)))
                 then mkC (upd (c_arr c) i (mkArr (a_shape (c_arr c i)) d)) (c_plane c) else c
  | MovePlane j p => mkC (c_arr c) (upd (c_plane c) j p)
  | _ => c
  end.
(** the assignment with the values of this moment *)
Definition op_now (c : client) (e : event) : option t_op :=
  match e with
  | Write _ _ | MovePlane _ _ => None
  | GiveShift i => Some (SetShift (c_arr c i))
  | GiveMatrix i => Some (SetMatrix false (c_arr c i))
  | GiveOrigin i => Some (SetOrigin (c_arr c i))
  | GivePlane j => Some (SetPlane (Some (c_plane c j)))
  | GiveLocked b => Some (SetLocked b)
  | GiveBasisOnly b => Some (SetBasisOnly b)
  end.
(** One step, transform.py 82-97, 124-129, 185-201, 282-291, 316-332: the checks are those
    of t_step (Model/TransformObj.v); the difference is in what is kept.  (GiveMatrix to a
    Reflection, which takes a normal, is left out: t_step ignores it.) *)
Definition w_step (w : world) (e : event) : world :=
  let c := w_client w in let o := w_obj w in
  match op_now c e with
  | None => mkW (c_step c e) o
  | Some op =>
      let '(t, r) := t_step (view w) op in
      match r with
      | Err _ => w
      | Ok _ =>
          let m := match e, s_kind o with
                   | GiveMatrix i, (KMatrix | KRotation) => Some (Ref i)
                   | GivePlane _, KReflection => option_map Own (t_matrix t)
                   | _, _ => s_matrix o end in
          let p := match e, s_kind o with GivePlane j, KReflection => Some j | _, _ => s_plane o end in
          mkW c (mkS (s_kind o) (t_shift t) m (t_origin t) p (t_locked t) (t_basis_only t))
      end
  end.
Definition w_run (w : world) (h : list event) : world := fold_left w_step h w.
(** a constructor called without arguments *)
Definition new_world (c : client) (k : tkind) (lk bo : bool) : world := mkW c (mkS k None None None None lk bo).
