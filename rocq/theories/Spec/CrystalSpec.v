(** The infinite crystal described by a basis B (columns), an origin and the sites
    of one cell. *)
From Coq Require Import Reals List ZArith.
From Verif.Model Require Import Vec Voxel Generator.
From Verif.Spec Require Import Geometry.
Import ListNotations.
Open Scope R_scope.

(** Position of the site with fractional coordinates f in the cell (a,b,c). *)
Definition lattice_site (B : mat) (o : vec) (n : Z * Z * Z) (f : vec) : vec :=
  let '(a, b, c) := n in vadd (mv B (vadd (zvec a b c) f)) o.

(** (p, z) is an atom of the infinite crystal. *)
Definition crystal_atom (B : mat) (o : vec) (sites : list (vec * Z)) (p : vec) (z : Z) : Prop :=
  exists n f, In (f, z) sites /\ p = lattice_site B o n f.

(** fractional coordinates in the unit cell *)
Definition in_cell (f : vec) : Prop :=
  (0 <= vx f < 1) /\ (0 <= vy f < 1) /\ (0 <= vz f < 1).

(** fractional coordinates in the unit cell or in one of the cells before it *)
Definition near_cell (f : vec) : Prop :=
  (-1 < vx f < 1) /\ (-1 < vy f < 1) /\ (-1 < vz f < 1).

(** no two listed sites coincide modulo the lattice *)
Definition distinct_mod_lattice (fs : list vec) : Prop :=
  forall i j fi fj a b c, nth_error fs i = Some fi -> nth_error fs j = Some fj ->
    vsub fi fj = zvec a b c -> i = j.

(** A generator as its constructor makes it: one species per site, invertible basis. *)
Definition well_formed (g : crystal) : Prop :=
  length (st_frac (g_structure g)) = length (st_numbers (g_structure g)) /\
  det (sbases (g_voxel g)) <> 0.
(** The (site, species) pairs of the unit cell. *)
Definition cell_sites (g : crystal) : list (vec * Z) :=
  combine (st_frac (g_structure g)) (st_numbers (g_structure g)).
