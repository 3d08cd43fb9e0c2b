(** Object identity.  The other model files treat Python objects as values; this file
    keeps them in a heap, so that sharing between volumes, multi-volumes and the
    caller's variables is visible.  czone/volume/volume.py, czone/generator/generator.py,
    czone/volume/algebraic.py.

    Heap objects are algebraic objects, strain fields, generators, Volumes and
    MultiVolumes.  Simplification: arrays (points, matrices, atoms), structures and
    voxels are values, that is, they are never shared between two objects. *)
From Coq Require Import Reals List ZArith Bool.
From Verif.Model Require Import Base Vec Algebraic Transform Voxel Strain Generator Volume.
Import ListNotations.
Open Scope R_scope.

Definition loc := nat.
(** [OGen g st]: g carries no strain field itself, [st] refers to it.
    [OVol l algs gen]: l carries neither algebraic objects nor a generator. *)
Inductive obj :=
| OAlg (a : alg)
| OStrain (h : hstrain)
| OGen (g : generator) (st : option loc)
| OVol (l : leaf) (algs : list loc) (gen : option loc)
| OMulti (prio : Z) (vols : list loc).
Definition heap := list obj.

Definition get (h : heap) (x : loc) : option obj := nth_error h x.
(** assignment to the fields of an existing object *)
Fixpoint put (h : heap) (x : loc) (o : obj) : heap :=
  match h, x with
  | [], _ => []
  | _ :: t, O => o :: t
  | a :: t, Datatypes.S x' => a :: put t x' o
  end.
(** a new object *)
Definition alloc (h : heap) (o : obj) : heap * loc := (h ++ [o], length h).

(** A generator's strain_field attribute, generator.py 150-156; AmorphousGenerator and
    NullGenerator ignore it *)
Definition gen_with (g : generator) (s : option hstrain) : generator :=
  match g with
  | GCrystal c => GCrystal (mkCrystal (g_structure c) (g_voxel c) s (g_post c))
  | _ => g
  end.
Definition gen_strain (g : generator) : option hstrain :=
  match g with GCrystal c => g_strain c | _ => None end.

(** The values of heap objects, as the other model files see them *)
Definition view_alg (h : heap) (x : loc) : option alg :=
  match get h x with Some (OAlg a) => Some a | _ => None end.
Definition view_strain (h : heap) (x : loc) : option hstrain :=
  match get h x with Some (OStrain s) => Some s | _ => None end.
Definition view_gen (h : heap) (x : loc) : option generator :=
  match get h x with
  | Some (OGen g None) => Some (gen_with g None)
  | Some (OGen g (Some s)) => match view_strain h s with
                              | Some hs => Some (gen_with g (Some hs))
                              | None => None
                              end
  | _ => None
  end.
Fixpoint view_algs (h : heap) (xs : list loc) : option (list alg) :=
  match xs with
  | [] => Some []
  | x :: t => match view_alg h x, view_algs h t with
              | Some a, Some l => Some (a :: l)
              | _, _ => None
              end
  end.
Definition assemble (l : leaf) (a : list alg) (g : option generator) : leaf :=
  with_gen (with_alg l a) g.
Definition view_leaf (h : heap) (v : loc) : option leaf :=
  match get h v with
  | Some (OVol l algs gen) =>
      match view_algs h algs with
      | Some a => match gen with
                  | None => Some (assemble l a None)
                  | Some g => match view_gen h g with
                              | Some g' => Some (assemble l a (Some g'))
                              | None => None
                              end
                  end
      | None => None
      end
  | _ => None
  end.

(** copy.deepcopy of an algebraic object and of a generator (with its strain field) *)
Definition deepcopy_alg (h : heap) (x : loc) : heap * res loc :=
  match view_alg h x with
  | Some a => let '(h', y) := alloc h (OAlg a) in (h', Ok y)
  | None => (h, Err AssertionError)
  end.
Definition deepcopy_gen (h : heap) (x : loc) : heap * res loc :=
  match get h x with
  | Some (OGen g None) => let '(h', y) := alloc h (OGen g None) in (h', Ok y)
  | Some (OGen g (Some s)) =>
      match view_strain h s with
      | Some hs => let '(h1, s') := alloc h (OStrain hs) in
                   let '(h2, y) := alloc h1 (OGen g (Some s')) in (h2, Ok y)
      | None => (h, Err TypeError)
      end
  | _ => (h, Err TypeError)
  end.

(** Volume.add_alg_object, volume.py 184-193: appends a deep copy *)
Definition h_add_alg (h : heap) (v x : loc) : heap * res unit :=
  match get h v with
  | Some (OVol l algs gen) =>
      let '(h1, r) := deepcopy_alg h x in
      match r with
      | Ok y => (put h1 v (OVol l (algs ++ [y]) gen), Ok tt)
      | Err e => (h1, Err e)
      end
  | _ => (h, Err AttributeError)
  end.
(** Volume.add_generator, volume.py 225-235: a deep copy, whose origin may be set *)
Definition h_add_gen (h : heap) (v x : loc) (origin : option vec) : heap * res unit :=
  match get h v with
  | Some (OVol l algs gen) =>
      let '(h1, r) := deepcopy_gen h x in
      match r with
      | Err e => (h1, Err e)
      | Ok y =>
          match get h1 y with
          | Some (OGen g st) =>
              match add_generator (empty_leaf 0) g origin with
              | Ok l' => match l_gen l' with
                         | Some g' => (put (put h1 y (OGen g' st)) v (OVol l algs (Some y)), Ok tt)
                         | None => (h1, Err TypeError)
                         end
              | Err e => (h1, Err e)
              end
          | _ => (h1, Err TypeError)
          end
      end
  | _ => (h, Err AttributeError)
  end.

(** Generator.transform in place, generator.py 238-252 *)
Definition h_gen_transform (h : heap) (x : loc) (t : transform) : heap * res unit :=
  match get h x with
  | Some (OGen g st) => match generator_transform g t with
                        | Ok g' => (put h x (OGen g' st), Ok tt)
                        | Err e => (h, Err e)
                        end
  | _ => (h, Err AttributeError)
  end.
(** the loop over alg_objects in Volume.transform, volume.py 284-287: each object is
    changed in place and put back *)
Fixpoint h_algs_transform (h : heap) (xs : list loc) (t : transform) : heap * res unit :=
  match xs with
  | [] => (h, Ok tt)
  | x :: rest =>
      match view_alg h x with
      | Some a => let '(a', r) := apply_alg_st t a in
                  let h' := put h x (OAlg a') in
                  match r with Ok _ => h_algs_transform h' rest t | Err e => (h', Err e) end
      | None => (h, Err TypeError)
      end
  end.
(** the first part of Volume.transform, volume.py 281-283 *)
Definition points_transform (w : world) (l : leaf) (t : transform) : leaf * res unit :=
  match l_points l with
  | PNone => (l, Ok tt)
  | PBad => (l, Err ValueError)
  | PArr p => let '(l', r) := set_points w l (A2 (map (apply_pt t) p)) in
              match r with Ok _ => createHull w l' | Err e => (l', Err e) end
  end.
(** Volume.transform, volume.py 276-291 *)
Definition h_vol_transform (w : world) (h : heap) (v : loc) (t : transform) : heap * res unit :=
  match get h v with
  | Some (OVol l algs gen) =>
      let '(l1, r1) := points_transform w l t in
      let h1 := put h v (OVol l1 algs gen) in
      match r1 with
      | Err e => (h1, Err e)
      | Ok _ =>
          let '(h2, r2) := h_algs_transform h1 algs t in
          match r2 with
          | Err e => (h2, Err e)
          | Ok _ => match locked t, gen with
                    | true, Some g => h_gen_transform h2 g t
                    | _, _ => (h2, Ok tt)
                    end
          end
      end
  | _ => (h, Err AttributeError)
  end.
(** transform of a Volume or MultiVolume, volume.py 276-291, 457-462.  [fuel] bounds the
    nesting depth (a MultiVolume may contain itself; Python then stops with a
    RecursionError); running out is NeedMore. *)
Fixpoint h_transform (w : world) (fuel : nat) (h : heap) (x : loc) (t : transform) : heap * res unit :=
  match fuel with
  | O => (h, Err NeedMore)
  | Datatypes.S n =>
      match get h x with
      | Some (OMulti _ vols) =>
          (fix go (h : heap) (vs : list loc) : heap * res unit :=
             match vs with
             | [] => (h, Ok tt)
             | v :: rest => let '(h', r) := h_transform w n h v t in
                            match r with Ok _ => go h' rest | Err e => (h', Err e) end
             end) h vols
      | _ => h_vol_transform w h x t
      end
  end.

(** loops of the from_... constructors: stop at the first exception *)
Fixpoint h_each {A} (f : heap -> A -> heap * res unit) (h : heap) (l : list A) : heap * res unit :=
  match l with
  | [] => (h, Ok tt)
  | x :: t => let '(h', r) := f h x in
              match r with Ok _ => h_each f h' t | Err e => (h', Err e) end
  end.
(** Volume.from_volume, volume.py 356-378; [g] is the generator keyword *)
Definition h_from_volume (w : world) (h : heap) (v : loc) (g : option loc) (ts : list transform) : heap * res loc :=
  match get h v with
  | Some (OVol l algs gen) =>
      let new := match l_points l with
                 | PNone => new_volume w None [] None None (l_prio l) default_vtol
                 | PArr p => new_volume w (Some p) [] None None (l_prio l) default_vtol
                 | PBad => Err AssertionError
                 end in
      match new with
      | Err e => (h, Err e)
      | Ok l0 =>
          let '(h1, v') := alloc h (OVol l0 [] None) in
          let '(h2, r2) := h_each (fun h x => h_add_alg h v' x) h1 algs in
          match r2 with
          | Err e => (h2, Err e)
          | Ok _ =>
              match (match g with Some g => Some g | None => gen end) with
              | None => (h2, Err TypeError)
              | Some g =>
                  let '(h3, r3) := h_add_gen h2 v' g None in
                  match r3 with
                  | Err e => (h3, Err e)
                  | Ok _ => let '(h4, r4) := h_each (fun h t => h_vol_transform w h v' t) h3 ts in
                            match r4 with Ok _ => (h4, Ok v') | Err e => (h4, Err e) end
                  end
              end
          end
      end
  | _ => (h, Err AttributeError)
  end.
(** from_volume of a Volume or MultiVolume, volume.py 356-378, 505-521; fuel as above *)
Fixpoint h_copy (w : world) (fuel : nat) (h : heap) (x : loc) (g : option loc) (ts : list transform) : heap * res loc :=
  match fuel with
  | O => (h, Err NeedMore)
  | Datatypes.S n =>
      match get h x with
      | Some (OMulti p vols) =>
          let '(h1, r) :=
            (fix go (h : heap) (vs : list loc) : heap * res (list loc) :=
               match vs with
               | [] => (h, Ok [])
               | v :: rest => let '(h', r) := h_copy w n h v g ts in
                              match r with
                              | Err e => (h', Err e)
                              | Ok y => let '(h'', r') := go h' rest in
                                        (h'', rmap (cons y) r')
                              end
               end) h vols in
          match r with
          | Err e => (h1, Err e)
          | Ok ys => let '(h2, m) := alloc h1 (OMulti p ys) in (h2, Ok m)
          end
      | _ => h_from_volume w h x g ts
      end
  end.

(** Writing back what Volume.populate_atoms changes: the atoms of the volume, and the
    state of its generator and strain field (volume.py 347-353, generator.py 229-236,
    415-422).  Nothing is written when it raises (simplification). *)
Definition h_populate (w : world) (c : nat) (h : heap) (v : loc) : heap * res nat :=
  match get h v, view_leaf h v with
  | Some (OVol l algs gen), Some l0 =>
      match leaf_populate w c l0 with
      | Err e => (h, Err e)
      | Ok (c', l1) =>
          let h1 := put h v (OVol (with_gen (with_alg l1 []) None) algs gen) in
          match gen, l_gen l1 with
          | Some x, Some g1 =>
              match get h1 x with
              | Some (OGen _ st) =>
                  let h2 := put h1 x (OGen (gen_with g1 None) st) in
                  match st, gen_strain g1 with
                  | Some s, Some hs => (put h2 s (OStrain hs), Ok c')
                  | _, _ => (h2, Ok c')
                  end
              | _ => (h1, Ok c')
              end
          | _, _ => (h1, Ok c')
          end
      end
  | _, _ => (h, Err AttributeError)
  end.

(** What a caller can do.  Objects are named by location: the caller may use objects they
    created, and those they reached through v.generator, v.alg_objects or
    m.volumes.  [MutAlg], [MutGen] and [MutStrain] stand for any change of such an
    object through its own methods and setters. *)
Inductive op :=
| NewAlg (a : alg) | NewStrain (s : hstrain) | NewGen (g : generator)
| NewVol (points : option (list vec)) (prio : Z)
| NewMulti (prio : Z)
| FromAlg (x : loc) (ts : list transform) | FromGen (x : loc) (ts : list transform)
| Copy (x : loc) (g : option loc) (ts : list transform)
| SetStrain (g s : loc)
| MutAlg (x : loc) (a : alg) | MutGen (x : loc) (g : generator) | MutStrain (x : loc) (s : hstrain)
| AddAlg (v x : loc) | AddGen (v x : loc) (origin : option vec)
| AddPoints (v : loc) (a : ndarray) | SetPriority (v : loc) (p : Z)
| AddVolume (m v : loc)
| Transform (x : loc) (t : transform)
| Populate (v : loc) (c : nat).

(** One call.  The heap returned is the one left behind also when the call raises.
    [fuel] as in [h_transform].  For Copy the type check of the generator keyword
    (volume.py 234) is moved to the front, so that it names an existing object. *)
Definition run (w : world) (fuel : nat) (h : heap) (o : op) : heap * res loc :=
  match o with
  | NewAlg a => let '(h', x) := alloc h (OAlg a) in (h', Ok x)
  | NewStrain s => let '(h', x) := alloc h (OStrain s) in (h', Ok x)
  | NewGen g => let '(h', x) := alloc h (OGen (gen_with g None) None) in (h', Ok x)
  | NewVol pts p => match new_volume w pts [] None None p default_vtol with
                    | Ok l => let '(h', x) := alloc h (OVol l [] None) in (h', Ok x)
                    | Err e => (h, Err e)
                    end
  | NewMulti p => let '(h', x) := alloc h (OMulti p []) in (h', Ok x)
  | FromAlg x ts => match view_alg h x with
                    | Some a => match from_alg_object a ts with
                                | Ok a' => let '(h', y) := alloc h (OAlg a') in (h', Ok y)
                                | Err e => (h, Err e)
                                end
                    | None => (h, Err AttributeError)
                    end
  | FromGen x ts => let '(h1, r) := deepcopy_gen h x in
                    match r with
                    | Err e => (h1, Err e)
                    | Ok y => let '(h2, r2) := h_each (fun h t => h_gen_transform h y t) h1 ts in
                              match r2 with Ok _ => (h2, Ok y) | Err e => (h2, Err e) end
                    end
  | Copy x g ts => match g with
                   | Some y => match get h y with
                               | Some (OGen _ _) => h_copy w fuel h x g ts
                               | _ => (h, Err TypeError)
                               end
                   | None => h_copy w fuel h x g ts
                   end
  | SetStrain g s => match get h g, view_strain h s with
                     | Some (OGen g0 _), Some _ => (put h g (OGen g0 (Some s)), Ok g)
                     | _, _ => (h, Err AssertionError)
                     end
  | MutAlg x a => match get h x with Some (OAlg _) => (put h x (OAlg a), Ok x) | _ => (h, Err AttributeError) end
  | MutGen x g => match get h x with Some (OGen _ st) => (put h x (OGen (gen_with g None) st), Ok x) | _ => (h, Err AttributeError) end
  | MutStrain x s => match get h x with Some (OStrain _) => (put h x (OStrain s), Ok x) | _ => (h, Err AttributeError) end
  | AddAlg v x => let '(h', r) := h_add_alg h v x in (h', rmap (fun _ => v) r)
  | AddGen v x o => let '(h', r) := h_add_gen h v x o in (h', rmap (fun _ => v) r)
  | AddPoints v a => match get h v with
                     | Some (OVol l algs gen) => let '(l', r) := add_points w l a in
                                                 (put h v (OVol l' algs gen), rmap (fun _ => v) r)
                     | _ => (h, Err AttributeError)
                     end
  | SetPriority v p => match get h v with
                       | Some (OVol l algs gen) => (put h v (OVol (with_prio l p) algs gen), Ok v)
                       | Some (OMulti _ vs) => (put h v (OMulti p vs), Ok v)
                       | _ => (h, Err AttributeError)
                       end
  | AddVolume m v => match get h m, get h v with
                     | Some (OMulti p vs), Some (OVol _ _ _) | Some (OMulti p vs), Some (OMulti _ _) =>
                         (put h m (OMulti p (vs ++ [v])), Ok m)
                     | _, _ => (h, Err AssertionError)
                     end
  | Transform x t => let '(h', r) := h_transform w fuel h x t in (h', rmap (fun _ => x) r)
  | Populate v c => let '(h', r) := h_populate w c h v in (h', rmap (fun _ => v) r)
  end.
