(** A homogeneous strain field as an object that is assigned to and used by generators again
    and again: czone/transform/strain.py 25-85, 101-144; czone/generator/generator.py 228-234. *)
From Coq Require Import Reals List ZArith Bool String.
From Verif.Model Require Import Base Vec Voxel Strain TransformObj.
Import ListNotations.
Open Scope R_scope.

(** Assignments to origin (None: not an array), origin_type, mode and matrix, and use by a
    generator with the given voxel (scrape_params, then apply_strain on its atoms) *)
Inductive h_op :=
| HOrigin (a : option nparray) | HType (s : string) | HMode (s : string) | HMatrix (a : nparray)
| HUse (v : voxel) (atoms : list vec).
(** What a use returns: the moved atoms *)
(** origin setter 57-60 (a list has no shape: AttributeError), origin_type 66-68, mode 75-80,
    matrix 128-144, scrape_params 40-50 and apply_strain 149-164.  An origin_type other than
    "generator" is never compared with anything else. *)
Definition h_step (h : hstrain) (o : h_op) : hstrain * res (list vec) :=
  match o with
  | HOrigin None => (h, Err AttributeError)
  | HOrigin (Some a) =>
      match a_shape a with
      | [3%nat] => (mkH (hs_matrix h) (arr_vec a) (hs_generator_origin h) (hs_mode h) (hs_bases h), Ok [])
      | _ => (h, Err AssertionError)
      end
  | HType s => (mkH (hs_matrix h) (hs_origin h) (String.eqb s "generator") (hs_mode h) (hs_bases h), Ok [])
  | HMode m => match set_mode h m with Ok h' => (h', Ok []) | Err e => (h, Err e) end
  | HMatrix a => let '(h', r) := set_strain_matrix h a in (h', rmap (fun _ => []) r)
  | HUse v atoms => let h' := scrape_params h v in (h', apply_strain h' atoms)
  end.
Definition h_run (h : hstrain) (l : list h_op) : hstrain := fold_left (fun h o => fst (h_step h o)) l h.

(** HStrain(matrix, origin, mode) with arrays, strain.py 101-117.  The test "origin != 'generator'"
    is True for an array (numpy below 1.22: comparison of an array with a string). *)
Inductive origin_arg := OGenerator | OArray (a : nparray).
Definition make_hstrain (m : option nparray) (o : origin_arg) (mode : string) : res hstrain :=
  mat <- match m with None => Ok mI | Some a => strain_matrix (strain_arg_of a) end ;;
  match o with
  | OGenerator => set_mode (mkH mat v0 true mode None) mode
  | OArray a => match a_shape a with
                | [3%nat] => set_mode (mkH mat (arr_vec a) false mode None) mode
                | _ => Err AssertionError
                end
  end.
