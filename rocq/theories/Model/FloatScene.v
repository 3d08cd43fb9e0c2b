(** Scenes with rounded arithmetic: Scene.populate and MultiVolume.populate_atoms on volumes
    filled with crystals, all positions and all interior tests in binary64 (Float.v). *)
From Coq Require Import Reals List ZArith Bool.
From Verif.Model Require Import Base Vec Algebraic Transform Voxel Post Generator Volume Priority Float.
Import ListNotations.
Open Scope R_scope.

(** A volume with a crystal; [fo_frac] is what np.linalg.solve returns for its generator
    (Float.v, f_extents); [fo_ats] are the rows of ob.atoms with those of ob.species. *)
Record fobj := mkFobj { fo_leaf : leaf; fo_gen : crystal; fo_frac : vec -> vec; fo_ats : list (vec * Z) }.
Definition fo_prio (o : fobj) : Z := l_prio (fo_leaf o).

(** ob.populate_atoms(), volume.py 347-353, called at scene.py 148-149 and volume.py 481-482 *)
Definition fo_populate (w : world) (dotm dot1 dot2 : vec -> vec -> R) (o : fobj) : res fobj :=
  ats <- f_populate w dotm dot1 dot2 (fo_frac o) (fo_leaf o) (fo_gen o) ;;
  Ok (mkFobj (fo_leaf o) (fo_gen o) (fo_frac o) ats).

(** Scene.populate and then Scene.all_atoms with Scene.all_species, scene.py 135-164 and
    80-93; MultiVolume.populate_atoms, volume.py 479-503, is the same computation.  The
    masks are those of Priority.v with the rounded interior test. *)
Definition f_scene (w : world) (dotm dot1 dot2 : vec -> vec -> R) (objs : list fobj) : res (list (vec * Z)) :=
  os <- mapM (fo_populate w dotm dot1 dot2) objs ;;
  let s := sort_by fo_prio os in
  let cks := checks fo_prio (fun o => map fst (fo_ats o)) (fun o => f_leaf_inside w dot1 dot2 (fo_leaf o)) s in
  Ok (combine (stack_atoms (fun o => map fst (fo_ats o)) s cks)
              (stack_species (fun o => map snd (fo_ats o)) s cks)).
