(** czone/generator/generator.py *)
From Coq Require Import Reals List ZArith Bool.
From Flocq Require Import Core.Raux.
From Verif.Model Require Import Base Vec Algebraic Transform Voxel Strain Post Amorphous Misc.
Import ListNotations.
Open Scope R_scope.

(** pymatgen Structure: lattice.matrix (rows are lattice vectors), fractional
    coordinates and atomic numbers.  External data. *)
Record structure := mkStruct { st_matrix : mat; st_frac : list vec; st_numbers : list Z }.

(** Crystalline Generator; a Generator without structure/voxel is not modelled.
    generator.py 62-194 *)
Record crystal := mkCrystal {
  g_structure : structure; g_voxel : voxel;
  g_strain : option hstrain; g_post : option post }.

(** Generator.structure setter, generator.py 115-127: keeps the origin of an
    existing voxel *)
Definition set_structure (old : option voxel) (s : structure) : res voxel :=
  match old with
  | None => new_voxel (st_matrix s) v0
  | Some v => new_voxel (st_matrix s) (vo_origin v)
  end.
(** Generator.__init__ with a structure, generator.py 87-104 *)
Definition new_crystal (s : structure) (strain : option hstrain) (origin : option vec) : res crystal :=
  v <- set_structure None s ;;
  Ok (mkCrystal s (match origin with Some o => set_vorigin v o | None => v end) strain None).

(** pymatgen's Lattice.from_parameters (external; angles in degrees): rows are the
    lattice vectors, c along z, a in the xz plane *)
Definition rad (deg : R) : R := deg * PI / 180.
Definition lattice_from_parameters (dims angs : vec) : mat :=
  let al := rad (vx angs) in let be := rad (vy angs) in let ga := rad (vz angs) in
  let val := (cos al * cos be - cos ga) / (sin al * sin be) in
  let gs := acos (Rmax (-1) (Rmin 1 val)) in
  mkM (mkV (vx dims * sin be) 0 (vx dims * cos be))
      (mkV (- vy dims * sin al * cos gs) (vy dims * sin al * sin gs) (vy dims * cos al))
      (mkV 0 0 (vz dims)).
(** Generator.from_unit_cell, generator.py 300-321.  pymatgen's Structure refuses lists of
    different length (StructureError, a ValueError). *)
Definition from_unit_cell (zs : list Z) (coords : list vec) (dims angs : vec)
           (strain : option hstrain) (origin : option vec) : res crystal :=
  if negb (Nat.eqb (length zs) (length coords)) then Err ValueError
  else new_crystal (mkStruct (lattice_from_parameters dims angs) coords zs) strain origin.

(** The space group of Generator.from_spacegroup, generator.py 281-284; pymatgen's tables of
    symbols and numbers and its site expansion (Structure.from_spacegroup) are external. *)
Record sg_tables (symbol : Type) := mkTables {
  symbol_of : Z -> option symbol; number_of : symbol -> option Z;
  expand : Z -> list Z -> list vec -> list Z * list vec }.
Arguments symbol_of {symbol}. Arguments number_of {symbol}. Arguments expand {symbol}.
Definition space_group {symbol} (tb : sg_tables symbol) (sgn : option Z) (sym : option symbol) : res Z :=
  s <- match sym with
       | Some s => Ok s
       | None => match sgn with
                 | None => Err TypeError
                 | Some n => match symbol_of tb n with Some s => Ok s | None => Err ValueError end
                 end
       end ;;
  match number_of tb s with Some n => Ok n | None => Err ValueError end.
(** Generator.from_spacegroup, generator.py 255-298 *)
Definition from_spacegroup {symbol} (tb : sg_tables symbol) (zs : list Z) (coords : list vec) (dims angs : vec)
           (sgn : option Z) (sym : option symbol) (strain : option hstrain) (origin : option vec) : res crystal :=
  n <- space_group tb sgn sym ;;
  if negb (Nat.eqb (length zs) (length coords)) then Err ValueError
  else let '(zs', coords') := expand tb n zs coords in
       new_crystal (mkStruct (lattice_from_parameters dims angs) coords' zs') strain origin.

(** The block of unit cells, itertools.product of three ranges (x slowest),
    generator.py 206-212 *)
Definition cells (lo hi : Z * Z * Z) : list (Z * Z * Z) :=
  let '(a0, a1, a2) := lo in let '(b0, b1, b2) := hi in
  flat_map (fun x => flat_map (fun y => map (fun z => (x, y, z)) (zrange a2 (b2 + 1)))
                              (zrange a1 (b1 + 1))) (zrange a0 (b0 + 1)).

(** Position of the site with fractional coordinates f in cell n:
    sbases @ n + sbases @ f + origin, generator.py 215-225 *)
Definition site_pos (v : voxel) (n : Z * Z * Z) (f : vec) : vec :=
  let '(a, b, c) := n in
  vadd (vadd (mv (sbases v) (mkV (IZR a) (IZR b) (IZR c))) (mv (sbases v) f)) (vo_origin v).

(** Positions and species of the block before post transform and strain: cell index
    slow, site index fast (reshape of lcoords[:, :, None] + scoords[:, None, :]);
    generator.py 214-226.  The fourth row carries the species (cell part 0). *)
Definition block_atoms (g : crystal) (ext : (Z * Z * Z) * (Z * Z * Z)) : list vec * list Z :=
  let st := g_structure g in
  let cs := cells (fst ext) (snd ext) in
  (flat_map (fun n => map (site_pos (g_voxel g) n) (st_frac st)) cs,
   flat_map (fun _ => map (fun z => (0 + z)%Z) (st_numbers st)) cs).

(** Generator.supply_atoms, generator.py 200-236.  [mk c] is the c-th random
    generator created so far in the program run (a post transform calls
    default_rng(None), so each is different); the counter is threaded through.
    Also returns the generator, whose strain field has been updated by
    scrape_params. *)
Definition crystal_supply (mk : nat -> nat -> nat -> R) (c : nat) (g : crystal) (bbox : list vec)
  : res (nat * crystal * (list vec * list Z)) :=
  ext <- get_extents (g_voxel g) bbox ;;
  let '(out, sp) := block_atoms g ext in
  let '(c', (out, sp)) := match g_post g with
                          | Some p => apply_post mk p c out sp
                          | None => (c, (out, sp))
                          end in
  match g_strain g with
  | None => Ok (c', g, (out, sp))
  | Some h =>
      let h' := scrape_params h (g_voxel g) in
      out' <- apply_strain h' out ;;
      Ok (c', mkCrystal (g_structure g) (g_voxel g) (Some h') (g_post g), (out', sp))
  end.

(** Generator.transform, generator.py 238-252 *)
Definition crystal_transform (g : crystal) (t : transform) : res crystal :=
  v <- set_bases (g_voxel g) (apply_bases t (vo_bases (g_voxel g))) ;;
  let v := if basis_only t then v else set_vorigin v (apply_pt t (vo_origin v)) in
  Ok (mkCrystal (g_structure g) v (g_strain g) (g_post g)).

(** AmorphousGenerator state, generator.py 347-360 *)
Record amorphous := mkAm {
  am_origin : option vec; am_species : Z; am_density : R; am_min_dist : R;
  am_old : option (list vec * list Z); am_use_old : bool }.
(** AmorphousGenerator.__init__, generator.py 347-360 *)
Definition new_amorphous (origin : option vec) (md density : R) (species : Z) : res amorphous :=
  if negb (Rltb 0 md) then Err AssertionError
  else if negb (Rltb 0 density) then Err AssertionError
  else Ok (mkAm origin species density md None false).

(** default density of gen_p_substrate, amorphous_algorithms.py 74 *)
Definition default_density : R := 1103075 / 10000000.

(** AmorphousGenerator.supply_atoms, generator.py 415-422: the density attribute is
    not passed on; [draws] is the stream of default_rng(seed=0). *)
Definition amorphous_supply (draws : list vec) (g : amorphous) (bbox : list vec)
  : res (amorphous * (list vec * list Z)) :=
  match (if am_use_old g then am_old g else None) with
  | Some r => Ok (g, r)
  | None =>
      match bbox with
      | [] => Err ValueError
      | p :: ps =>
          let dims := vsub (rows_max p ps) (rows_min p ps) in
          coords <- gen_p_substrate dims (am_min_dist g) default_density draws ;;
          let r := (coords, repeat (am_species g) (length coords)) in
          Ok (mkAm (am_origin g) (am_species g) (am_density g) (am_min_dist g) (Some r) (am_use_old g), r)
      end
  end.

(** What a user may do with an AmorphousGenerator: assign its attributes (generator.py
    371-404; [use_old_result] is a plain attribute, line 360) or ask for atoms (415-422).
    The result is the generator afterwards, how the step ended and the atoms supplied. *)
Inductive am_op :=
| OpMinDist (r : R) | OpDensity (r : R) | OpSpecies (z : Z) | OpOrigin (o : vec) | OpReuse (b : bool)
| OpSupply (draws : list vec) (bbox : list vec).
Definition am_step (g : amorphous) (o : am_op) : amorphous * res (option (list vec * list Z)) :=
  match o with
  | OpMinDist r =>
      if Rltb 0 r then (mkAm (am_origin g) (am_species g) (am_density g) r (am_old g) (am_use_old g), Ok None)
      else (g, Err AssertionError)
  | OpDensity r =>
      if Rltb 0 r then (mkAm (am_origin g) (am_species g) r (am_min_dist g) (am_old g) (am_use_old g), Ok None)
      else (g, Err AssertionError)
  | OpSpecies z => (mkAm (am_origin g) z (am_density g) (am_min_dist g) (am_old g) (am_use_old g), Ok None)
  | OpOrigin o => (mkAm (Some o) (am_species g) (am_density g) (am_min_dist g) (am_old g) (am_use_old g), Ok None)
  | OpReuse b => (mkAm (am_origin g) (am_species g) (am_density g) (am_min_dist g) (am_old g) b, Ok None)
  | OpSupply draws bbox =>
      match amorphous_supply draws g bbox with
      | Ok (g', r) => (g', Ok (Some r))
      | Err e => (g, Err e)
      end
  end.
Fixpoint am_run (g : amorphous) (ops : list am_op) : amorphous * list (res (option (list vec * list Z))) :=
  match ops with
  | [] => (g, [])
  | o :: ops => let '(g1, r) := am_step g o in let '(g2, rs) := am_run g1 ops in (g2, r :: rs)
  end.

(** The three generator classes; generator.py 62, 324, 425 *)
Inductive generator := GCrystal (g : crystal) | GAmorphous (g : amorphous) | GNull.

(** What get_bounding_box may hand to supply_atoms: an Nx3 array, an array of NaNs,
    the tuple (vertices, status) of algebraic.get_bounding_box, or None. *)
Inductive bbox := BArr (l : list vec) | BNaN | BTuple (l : list vec) (status : Z) | BNone.

(** floor(NaN).astype(int64) on x86-64 *)
Definition nan_int : Z := (- 2 ^ 63)%Z.

(** supply_atoms on the argument actually passed by Volume.populate_atoms.
    "box - self.origin" (voxel.py 119) raises ValueError for the ragged tuple and
    TypeError for None; AmorphousGenerator's np.max/np.min raise ValueError for the
    tuple (ragged) and TypeError for None (None - None).
    NaN boxes: crystal extents become the smallest int64 (post transform and strain
    on that single cell are not modelled); gen_p_substrate on NaN sizes fails on
    allocating the coordinate array (ValueError). *)
Definition supply_atoms (mk : nat -> nat -> nat -> R) (draws : list vec) (c : nat)
           (g : generator) (b : bbox) : res (nat * generator * (list vec * list Z)) :=
  match g, b with
  | GNull, _ => Ok (c, GNull, ([], []))
  | GCrystal k, BArr l =>
      r <- crystal_supply mk c k l ;;
      Ok (fst (fst r), GCrystal (snd (fst r)), snd r)
  | GCrystal k, BNaN =>
      let e := (nan_int, nan_int, nan_int) in
      if Reqb (det (sbases (g_voxel k))) 0 then Err LinAlgError
      else Ok (c, GCrystal k, block_atoms k (e, e))
  | GAmorphous a, BArr l =>
      r <- amorphous_supply draws a l ;; Ok (c, GAmorphous (fst r), snd r)
  | GAmorphous a, _ =>
      match (if am_use_old a then am_old a else None) with
      | Some r => Ok (c, GAmorphous a, r)
      | None => match b with BNone => Err TypeError | _ => Err ValueError end
      end
  | GCrystal _, BTuple _ _ => Err ValueError
  | GCrystal _, BNone => Err TypeError
  end.

(** generator.transform as called by Volume.transform: AmorphousGenerator and
    NullGenerator have no such method. *)
Definition generator_transform (g : generator) (t : transform) : res generator :=
  match g with
  | GCrystal c => c' <- crystal_transform c t ;; Ok (GCrystal c')
  | _ => Err AttributeError
  end.

(** BaseGenerator.from_generator, generator.py 46-60 *)
Definition from_generator (g : generator) (ts : list transform) : res generator :=
  foldM generator_transform ts g.
