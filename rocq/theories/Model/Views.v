(** What is shown and exported: czone/viz/viz.py, the ASE exports of volumes and molecules
    (volume.py, molecule.py), molecules made from ASE or pymatgen objects, and the bounds
    of a scene (scene.py). *)
From Coq Require Import String Reals List ZArith Bool.
From Verif.Model Require Import Base Vec Voxel Generator Volume Molecule Scene Priority.
Import ListNotations.
Open Scope R_scope.

(** One of the four 3D axes of a figure: the series given to scatter in this order, the
    camera angles in degrees and the axis limits (lower and upper corner).  Ticks, grid,
    labels, sizes and colours are left out.  viz.py 16-66, 77-149, 160-232 *)
Record axes := mkAxes { ax_series : list (list vec); ax_azim : R; ax_elev : R; ax_limits : option (vec * vec) }.
Record figure := mkFig { fig_x : axes; fig_y : axes; fig_z : axes; fig_r : axes }.

(** the camera angles of the four axes, viz.py 29-39, 94-104, 177-187 *)
Definition four_views (series : list (list vec)) (lims : option (vec * vec)) (azim elev : R) : figure :=
  mkFig (mkAxes series 0 0 lims) (mkAxes series (-90) 0 lims) (mkAxes series (-90) 90 lims) (mkAxes series azim elev lims).

(** simple_view_with_rotate on an (N,3) array, viz.py 13-66 *)
Definition simple_view_with_rotate (data : list vec) (azim elev : R) : figure := four_views [data] None azim elev.

(** np.unique(species), viz.py 88, 171: the distinct values in increasing order *)
Definition np_unique (l : list Z) : list Z := map fst (unique_from 0 l).
(** the loop over np.unique(species), viz.py 88-93, 171-176: data[species == s] *)
Definition series_by_species (data : list vec) (species : list Z) : res (list (list vec)) :=
  mapM (fun s => index_mask data (map (fun z => Z.eqb z s) species)) (np_unique species).
(** simple_scene_view and simple_scene_view_with_rotate, viz.py 69-149, 152-232 (the same
    code).  The argument is a Scene (other objects: TypeError). *)
Definition simple_scene_view (s : scene) (azim elev : R) : res figure :=
  data <- all_atoms s ;;
  species <- all_species s ;;
  series <- series_by_species data species ;;
  Ok (four_views series (Some (sc_lo s, sc_hi s)) azim elev).

(** Scene.bounds setter, scene.py 50-54: the shape must be (2, 3) *)
Definition set_bounds (s : scene) (a : nparray) : scene * res unit :=
  match a_shape a with
  | [2%nat; 3%nat] => (mkScene (mkV (at_ a 0) (at_ a 1) (at_ a 2)) (mkV (at_ a 3) (at_ a 4) (at_ a 5)) (sc_objects s) (sc_checks s), Ok tt)
  | _ => (s, Err AssertionError)
  end.

(** BaseVolume.ase_atoms, volume.py 53-56, and BaseMolecule.ase_atoms, molecule.py 118-121:
    Atoms(symbols=species, positions=atoms) with ASE's default (zero) cell; a volume that
    was never populated has no species (AttributeError). *)
Definition obj_ase_atoms (o : sobj) : res ase :=
  sp <- read_species o ;;
  at_ <- read_atoms o ;;
  match sp, at_ with
  | Some sp, Some at_ => if Nat.eqb (List.length sp) (List.length at_) then Ok (mkAse sp at_ v0) else Err ValueError
  | _, _ => Err TypeError
  end.
(** BaseVolume.to_file, volume.py 93-100: one ase.io.write with the keywords of the call *)
Definition vol_to_file (v : volume) (format : option string) (dwf : option (list (Z * R))) : res (list write_call) :=
  im <- obj_ase_atoms (SVol v) ;; Ok [mkWrite im format dwf].

(** BaseMolecule.from_ase_atoms, molecule.py 238-243; None is an object that is not an ASE
    Atoms.  The constructor is called without origin and orientation. *)
Definition from_ase_atoms (a : option ase) : res molecule :=
  match a with
  | Some a => new_molecule (ase_symbols a) (ase_positions a) ONone None
  | None => Err TypeError
  end.
(** BaseMolecule.from_pmg_molecule, molecule.py 245-251: the sites of a pymatgen molecule as
    (atomic number, cartesian coordinates) *)
Definition from_pmg_molecule (a : option (list (Z * vec))) : res molecule :=
  match a with
  | Some sites => new_molecule (map fst sites) (map snd sites) ONone None
  | None => Err TypeError
  end.
