(** Scenes that are populated again and again, also when populate raises half way: the
    objects are populated one after another, in place, and the masks are replaced only
    afterwards.  czone/scene/scene.py 61-72, 135-164; czone/volume/volume.py 347-353, 479-503;
    czone/generator/generator.py 200-236, 415-422.
    Simplification: generators give as many species as positions. *)
From Coq Require Import Reals List ZArith Bool.
From Verif.Model Require Import Base Vec Voxel Strain Post Generator Volume Molecule Priority Scene.
Import ListNotations.
Open Scope R_scope.

(** What supply_atoms leaves behind when it raises: a crystal may have drawn random numbers
    for its post transform and updated its strain field (generator.py 228-234); the other
    generators change nothing before they are done. *)
Definition supply_left (mk : nat -> nat -> nat -> R) (c : nat) (g : generator) (b : bbox) : nat * generator :=
  match g, b with
  | GCrystal k, BArr l =>
      match get_extents (g_voxel k) l with
      | Err _ => (c, g)
      | Ok ext =>
          let '(out, sp) := block_atoms k ext in
          let c' := match g_post k with Some p => fst (apply_post mk p c out sp) | None => c end in
          (c', match g_strain k with
               | None => g
               | Some h => GCrystal (mkCrystal (g_structure k) (g_voxel k) (Some (scrape_params h (g_voxel k))) (g_post k))
               end)
      end
  | _, _ => (c, g)
  end.

(** Volume.populate_atoms, volume.py 347-353: the atoms are assigned last *)
Definition leaf_populate_st (w : world) (c : nat) (l : leaf) : nat * leaf * res unit :=
  let bbox := get_bounding_box w l in
  match l_gen l with
  | None => (c, l, Err AttributeError)
  | Some g =>
      match supply_atoms (w_mk w) (w_draws w) c g bbox with
      | Err e => let '(c', g') := supply_left (w_mk w) c g bbox in (c', with_gen l (Some g'), Err e)
      | Ok (c', g', (coords, species)) =>
          let check := leaf_check w l coords in
          match (a <- index_mask coords check ;; sp <- index_mask species check ;; Ok (a, sp)) with
          | Err e => (c', with_gen l (Some g'), Err e)
          | Ok r => (c', with_atoms (with_gen l (Some g')) r, Ok tt)
          end
      end
  end.

(** [for ob in obs: ob.populate_atoms()], scene.py 148-149, volume.py 481-482 *)
Section Each.
Context {A : Type} (f : nat -> A -> nat * A * res unit).
Fixpoint each_st (c : nat) (l : list A) : nat * list A * res unit :=
  match l with
  | [] => (c, [], Ok tt)
  | x :: t =>
      let '(c1, x', r) := f c x in
      match r with
      | Err e => (c1, x' :: t, Err e)
      | Ok _ => let '(c2, t', r') := each_st c1 t in (c2, x' :: t', r')
      end
  end.
End Each.

(** populate_atoms of a Volume or MultiVolume, volume.py 479-503 *)
Fixpoint vol_populate_st (w : world) (c : nat) (v : volume) : nat * volume * res unit :=
  match v with
  | VLeaf l => let '(c', l', r) := leaf_populate_st w c l in (c', VLeaf l', r)
  | VMulti p vols cache =>
      let '(c', vols', r) := each_st (vol_populate_st w) c vols in
      match r with
      | Err e => (c', VMulti p vols' cache, Err e)
      | Ok _ =>
          let sorted := sort_by vol_prio vols' in
          let cks := checks vol_prio vol_atoms (vol_inside w) sorted in
          match sorted with
          | [] => (c', VMulti p [] cache, Err ValueError)
          | _ => (c', VMulti p sorted (Some (stack_atoms vol_atoms sorted cks, stack_species vol_species sorted cks)), Ok tt)
          end
      end
  end.
(** molecule.py 227-229: nothing to do *)
Definition ob_populate_st (w : world) (c : nat) (o : sobj) : nat * sobj * res unit :=
  match o with
  | SVol v => let '(c', v', r) := vol_populate_st w c v in (c', SVol v', r)
  | SMol m => (c, SMol m, Ok tt)
  end.
(** Scene.populate, scene.py 135-164 *)
Definition populate_st (w : world) (c : nat) (s : scene) : nat * scene * res unit :=
  match sc_objects s with
  | None => (c, s, Err TypeError)
  | Some objs =>
      let '(c', objs', r) := each_st (ob_populate_st w) c objs in
      match r with
      | Err e => (c', mkScene (sc_lo s) (sc_hi s) (Some objs') (sc_checks s), Err e)
      | Ok _ =>
          let sorted := sort_by ob_prio objs' in
          (c', mkScene (sc_lo s) (sc_hi s) (Some sorted) (Some (checks ob_prio ob_atoms (ob_inside w) sorted)), Ok tt)
      end
  end.

(** What a program does with a scene.  EvEdit: anything it does to the i-th object through
    the object's own methods; the scene is not told. *)
Inductive s_ev := EvAdd (o : sobj) | EvBounds (lo hi : vec) | EvEdit (i : nat) (o : sobj) | EvPopulate.
Fixpoint put_obj (i : nat) (o : sobj) (l : list sobj) : list sobj :=
  match l, i with [], _ => [] | _ :: t, O => o :: t | x :: t, S i' => x :: put_obj i' o t end.
(** add_object, scene.py 61-72; bounds setter, 50-54 *)
Definition ev_step (w : world) (cs : nat * scene) (e : s_ev) : nat * scene * res unit :=
  let '(c, s) := cs in
  match e with
  | EvAdd o => (c, add_object s o, Ok tt)
  | EvBounds lo hi => (c, mkScene lo hi (sc_objects s) (sc_checks s), Ok tt)
  | EvEdit i o => (c, mkScene (sc_lo s) (sc_hi s) (option_map (put_obj i o) (sc_objects s)) (sc_checks s), Ok tt)
  | EvPopulate => populate_st w c s
  end.
Definition ev_run (w : world) (cs : nat * scene) (h : list s_ev) : nat * scene := fold_left (fun cs e => fst (ev_step w cs e)) h cs.
