(** Specification vocabulary for views and exports. *)
From Coq Require Import Reals List ZArith.
From Verif.Model Require Import Base Vec Voxel Scene Views.
Import ListNotations.
Open Scope R_scope.

(** matplotlib's camera: the direction from the centre of a 3D plot to the viewer, for
    azimuth and elevation in degrees *)
Definition viewer (a : axes) : vec :=
  let az := ax_azim a * (PI / 180) in let el := ax_elev a * (PI / 180) in
  mkV (cos el * cos az) (cos el * sin az) (sin el).
(** the four panels of a figure *)
Definition panels (f : figure) : list axes := [fig_x f; fig_y f; fig_z f; fig_r f].
(** the positions of the atoms of one species, in their order *)
Fixpoint of_species (s : Z) (atoms : list vec) (species : list Z) : list vec :=
  match atoms, species with
  | p :: ps, z :: zs => if Z.eq_dec z s then p :: of_species s ps zs else of_species s ps zs
  | _, _ => []
  end.

(** What a program does with a scene: replace its bounds, add an object. *)
Inductive scene_op := SceneBounds (a : nparray) | SceneAdd (o : sobj).
Definition scene_op_step (s : scene) (o : scene_op) : scene :=
  match o with SceneBounds a => fst (set_bounds s a) | SceneAdd o => add_object s o end.
Definition scene_after (s : scene) (h : list scene_op) : scene := fold_left scene_op_step h s.
(** a two by three array: its rows *)
Definition two_rows (a : nparray) : option (vec * vec) :=
  match a_shape a, a_data a with
  | [2%nat; 3%nat], [x; y; z; x'; y'; z'] => Some (mkV x y z, mkV x' y' z')
  | _, _ => None
  end.
(** the rows of the last such array assigned *)
Fixpoint last_bounds (b : vec * vec) (h : list scene_op) : vec * vec :=
  match h with
  | [] => b
  | SceneBounds a :: t => last_bounds (match two_rows a with Some b' => b' | None => b end) t
  | SceneAdd _ :: t => last_bounds b t
  end.
(** the objects added, in order *)
Fixpoint added (h : list scene_op) : list sobj :=
  match h with [] => [] | SceneBounds _ :: t => added t | SceneAdd o :: t => o :: added t end.
(** arrays have as many entries as their shape says *)
Definition array_ok (a : nparray) : Prop := length (a_data a) = fold_right Nat.mul 1%nat (a_shape a).
