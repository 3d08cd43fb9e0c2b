(** Objects of a scene for which rounding is harmless, and the exact sites of their crystals. *)
From Coq Require Import Reals List ZArith.
From Verif.Model Require Import Base Vec Algebraic Transform Voxel Post Generator Volume Float FloatScene.
From Verif.Spec Require Import Geometry AlgSpec CrystalSpec FloatSpec.
Import ListNotations.
Open Scope R_scope.

(** the volume is given by surfaces of moderate size, one of them a sphere *)
Definition surfaces (o : fobj) : list alg := l_alg (fo_leaf o).
Definition fair (o : fobj) : Prop := l_points (fo_leaf o) = PNone /\ l_tri (fo_leaf o) = None /\
  Forall valid_alg (surfaces o) /\ Forall moderate (surfaces o) /\ (exists s, In (ASphere s) (surfaces o)) /\
  well_formed (fo_gen o) /\ vmid (vo_origin (g_voxel (fo_gen o))).
Definition site (o : fobj) (n : Z * Z * Z) (f : vec) : vec := lattice_site (sbases (g_voxel (fo_gen o))) (vo_origin (g_voxel (fo_gen o))) n f.
