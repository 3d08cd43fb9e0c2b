(** czone/generator/generator.py: a Generator as an object whose attributes are assigned one
    after another, starting with none of them (Model/Generator.v is the case of a generator
    that has a structure and hence a voxel).
    Simplification: a Voxel, strain field or post transform that is assigned is taken as a
    value (generator and program share it; see Model/Heap.v for sharing of strain fields). *)
From Coq Require Import Reals List ZArith Bool.
From Verif.Model Require Import Base Vec Algebraic Transform Voxel Strain Post Amorphous Misc Generator TransformObj.
Import ListNotations.
Open Scope R_scope.

(** Attributes, generator.py 91-95 *)
Record gobj := mkGO {
  go_structure : option structure; go_voxel : option voxel;
  go_strain : option hstrain; go_post : option post }.
Definition new_gobj : gobj := mkGO None None None None.

(** Assignments and calls; None stands for an object of the wrong class *)
Inductive g_op :=
| GStructure (s : option structure)
| GOrigin (a : nparray)
| GVoxel (v : option voxel)
| GStrain (h : option hstrain)
| GPost (p : option post)
| GTransform (t : transform).

(** Voxel.origin setter, voxel.py 80-83 *)
Definition origin_arr (a : nparray) : res vec :=
  match a_shape a with [3%nat] => Ok (arr_vec a) | _ => Err AssertionError end.

(** structure setter 115-127, origin 154-160, voxel 167-172, strain_field 179-183, post_transform
    190-194, transform 238-252.  The structure is stored before its lattice is checked; the voxel
    made for an origin that is refused is dropped. *)
Definition g_step (g : gobj) (o : g_op) : gobj * res unit :=
  let '(mkGO st vo sf po) := g in
  match o with
  | GStructure None => (g, Err AssertionError)
  | GStructure (Some s) =>
      match set_structure vo s with
      | Ok v => (mkGO (Some s) (Some v) sf po, Ok tt)
      | Err e => (mkGO (Some s) vo sf po, Err e)
      end
  | GOrigin a =>
      match origin_arr a with
      | Err e => (g, Err e)
      | Ok x => match vo with
                | None => match new_voxel mI x with Ok v => (mkGO st (Some v) sf po, Ok tt) | Err e => (g, Err e) end
                | Some v => (mkGO st (Some (set_vorigin v x)) sf po, Ok tt)
                end
      end
  | GVoxel None => (g, Err TypeError)
  | GVoxel (Some v) => (mkGO st (Some v) sf po, Ok tt)
  | GStrain None => (g, Err AssertionError)
  | GStrain (Some h) => (mkGO st vo (Some h) po, Ok tt)
  | GPost None => (g, Err AssertionError)
  | GPost (Some p) => (mkGO st vo sf (Some p), Ok tt)
  | GTransform t =>
      match vo with
      | None => (g, Err AttributeError)
      | Some v =>
          match set_bases v (apply_bases t (vo_bases v)) with
          | Err e => (g, Err e)
          | Ok v => (mkGO st (Some (if basis_only t then v else set_vorigin v (apply_pt t (vo_origin v)))) sf po, Ok tt)
          end
      end
  end.
Definition g_run (g : gobj) (h : list g_op) : gobj := fold_left (fun g o => fst (g_step g o)) h g.

(** __init__, generator.py 87-104: structure, strain field, origin; the first exception ends it *)
Definition make_gobj (origin : option nparray) (st : option (option structure)) (sf : option (option hstrain)) : res gobj :=
  let try (g : gobj) (o : option g_op) : res gobj :=
    match o with None => Ok g | Some o => match g_step g o with (g', Ok _) => Ok g' | (_, Err e) => Err e end end in
  g <- try new_gobj (option_map GStructure st) ;;
  g <- try g (option_map GStrain sf) ;;
  try g (option_map GOrigin origin).

(** supply_atoms, generator.py 200-236: without a voxel None.get_extents, without a structure
    None.frac_coords (after the extents) *)
Definition g_supply (mk : nat -> nat -> nat -> R) (c : nat) (g : gobj) (bbox : list vec) : res (nat * gobj * (list vec * list Z)) :=
  match go_voxel g with
  | None => Err AttributeError
  | Some v =>
      match go_structure g with
      | None => _ <- get_extents v bbox ;; Err AttributeError
      | Some s =>
          r <- crystal_supply mk c (mkCrystal s v (go_strain g) (go_post g)) bbox ;;
          let '(c', k, atoms) := r in Ok (c', mkGO (go_structure g) (go_voxel g) (g_strain k) (go_post g), atoms)
      end
  end.
