(** czone/prefab/wulff.py: a WulffSingle as an object that is assigned to and called any
    number of times, while the program keeps hold of the dictionary and the generator it
    handed over (Model/Wulff.v has the single calls).
    Simplification: generators are crystals with a structure, and a dictionary edited in
    place still maps tuples to floats. *)
From Coq Require Import Reals List ZArith Bool.
From Verif.Model Require Import Base Vec Voxel Generator Volume Wulff.
Import ListNotations.
Open Scope R_scope.

(** Attributes, wulff.py 55-88, 140-143: _generator, the structure _p_atoms was made from,
    _natoms, _surface_energies, _wulff *)
Record wobj := mkWO {
  wo_gen : crystal; wo_atoms : structure; wo_natoms : Z; wo_energies : list (list Z * R); wo_wulff : option particle }.

(** Assignments, calls, and edits the program makes to the objects it handed over.  [WGen None]
    is an object of another class. *)
Inductive w_op :=
| WGen (g : option crystal)
| WNatoms (v : pyval)
| WEnergies (v : pyval)
| WEditGen (g : crystal)
| WEditEnergies (l : list (list Z * R))
| WConstruct
| WConstructAreas
| WAreas
| WWinterbottom (interface : list Z) (e : R).
Inductive w_out := ONothing | OVolume (V : volume) | OAreas (l : list (list Z * R)) | OBoth (V : volume) (l : list (list Z * R)).

(** WulffSingle.__init__, wulff.py 136-143 *)
Definition new_wobj (g : crystal) (energies natoms : pyval) : res wobj :=
  n <- set_natoms natoms ;;
  e <- set_energies energies ;;
  Ok (mkWO g (g_structure g) n e None).

Section Run.
Variables (w : world) (wp : wulffpack).
(** Volume(alg_objects=planes, generator=self.generator), wulff.py 161-165, 189-191 *)
Definition particle_volume (g : crystal) (p : particle) : res volume :=
  planes <- planes_from_wulff p ;;
  l <- plane_volume w planes (Some (GCrystal g)) ;;
  Ok (VLeaf l).
(** the property wulff, wulff.py 154-158 *)
Definition w_particle (s : wobj) : wobj * res particle :=
  match wo_wulff s with
  | Some p => (s, Ok p)
  | None => match wp_single wp (wo_energies s) (wo_atoms s) (wo_natoms s) with
            | Ok p => (mkWO (wo_gen s) (wo_atoms s) (wo_natoms s) (wo_energies s) (Some p), Ok p)
            | Err e => (s, Err e)
            end
  end.
(** The setters, wulff.py 55-60, 70-75, 82-88 (the dictionary and the generator are stored as
    they are, not copied), get_construction 160-165, get_areas 167-168, winterbottom 170-192 *)
Definition w_step (s : wobj) (o : w_op) : wobj * res w_out :=
  let '(mkWO g a n e p) := s in
  match o with
  | WGen None => (s, Err AssertionError)
  | WGen (Some g') => (mkWO g' (g_structure g') n e p, Ok ONothing)
  | WNatoms v => match set_natoms v with Ok n' => (mkWO g a n' e p, Ok ONothing) | Err x => (s, Err x) end
  | WEnergies v => match set_energies v with Ok e' => (mkWO g a n e' p, Ok ONothing) | Err x => (s, Err x) end
  | WEditGen g' => (mkWO g' a n e p, Ok ONothing)
  | WEditEnergies e' => (mkWO g a n e' p, Ok ONothing)
  | WConstruct =>
      let '(s', r) := w_particle s in
      (s', q <- r ;; V <- particle_volume (wo_gen s') q ;; Ok (OVolume V))
  | WConstructAreas =>
      let '(s', r) := w_particle s in
      (s', q <- r ;; V <- particle_volume (wo_gen s') q ;; Ok (OBoth V (pa_fractions q)))
  | WAreas => (s, match p with Some q => Ok (OAreas (pa_fractions q)) | None => Err AttributeError end)
  | WWinterbottom i x => (s, q <- wp_winterbottom wp e i x a n ;; V <- particle_volume g q ;; Ok (OVolume V))
  end.
Definition w_run (s : wobj) (h : list w_op) : wobj := fold_left (fun s o => fst (w_step s o)) h s.
End Run.
