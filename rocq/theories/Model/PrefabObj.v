(** The defect prefabs and the grain boundary as objects that are made, assigned to and
    built from again and again: czone/prefab/prefab.py 58-145, 219-366, 449-515. *)
From Coq Require Import Reals List ZArith Bool.
From Flocq Require Import Core.
From Verif.Model Require Import Base Vec Algebraic Voxel Generator Volume Snap Prefab.
Import ListNotations.
Open Scope R_scope.

(** A value handed to a setter.  Strings, which int() would parse, are not modelled. *)
Inductive num := NInt (z : Z) | NBool (b : bool) | NFloat (r : R) | NOther.
(** int(val): truncation towards zero *)
Definition py_int (v : num) : res Z :=
  match v with NInt z => Ok z | NBool b => Ok (Z.b2z b) | NFloat r => Ok (Ztrunc r) | NOther => Err TypeError end.
(** a number compared with 0.0 and 1.0; other values raise *)
Definition py_real (v : num) : res R :=
  match v with NInt z => Ok (IZR z) | NBool b => Ok (IZR (Z.b2z b)) | NFloat r => Ok r | NOther => Err TypeError end.
(** isinstance(val, int), prefab.py 99-103, 354-358; True and False are ints *)
Definition py_isint (v : num) : res Z :=
  match v with NInt z => Ok z | NBool b => Ok (Z.b2z b) | _ => Err AssertionError end.

(** fccMixedTwinSF, fccStackingFault, fccTwin, wurtziteStackingFault *)
Inductive prefab_kind := KMixed | KFault | KTwin | KWurtzite.
(** The attributes of a prefab, prefab.py 64-69, 325-328.  [None] stands for Python's None;
    the numbers are set by the constructor before anything can read them.  The ratio is
    used by fccMixedTwinSF only. *)
Record prefab := mkPf {
  pf_kind : prefab_kind; pf_N : Z; pf_plane : Z * Z * Z; pf_ratio : R; pf_sep : Z;
  pf_gen : option crystal; pf_vol : option volume }.
(** Assignments to the attributes.  The generator and the volume are given as [None] when
    the value is not a crystalline Generator (for instance an AmorphousGenerator or None),
    or not a volume.  Planes that are not triples of integers are not modelled. *)
Inductive setting :=
| SetN (v : num) | SetSep (v : num) | SetPlane (h : Z * Z * Z) | SetRatio (v : num)
| SetGen (g : option crystal) | SetVol (v : option volume).

(** the ratio read by build_object, prefab.py 111-113, 246-248, 284-286 *)
Definition ratio_of (p : prefab) : R :=
  match pf_kind p with KFault => 1 | KTwin => 0 | _ => pf_ratio p end.
(** the plane read by build_object, prefab.py 105-108, 361-363 *)
Definition plane_of (p : prefab) : Z * Z * Z :=
  match pf_kind p with KWurtzite => (0, 0, 2)%Z | _ => pf_plane p end.

(** The setters, prefab.py 89-142, 250-252, 288-290, 344-384: the object afterwards and the
    exception, if any.  The plane of wurtziteStackingFault has no setter; assigning its
    ratio makes an attribute that nothing reads. *)
Definition set_setting (p : prefab) (s : setting) : prefab * res unit :=
  let '(mkPf k n h r m g v) := p in
  match s with
  | SetN x => match py_int x with Ok n => (mkPf k n h r m g v, Ok tt) | Err e => (p, Err e) end
  | SetSep x => match py_isint x with Ok m => (mkPf k n h r m g v, Ok tt) | Err e => (p, Err e) end
  | SetPlane h =>
      match k with KWurtzite => (p, Err AttributeError) | _ => (mkPf k n h r m g v, Ok tt) end
  | SetRatio x =>
      match k with
      | KMixed => match (q <- py_real x ;; fcc_ratio_ok q) with
                  | Ok r => (mkPf k n h r m g v, Ok tt) | Err e => (p, Err e) end
      | _ => (p, Ok tt)
      end
  | SetGen (Some g) => (mkPf k n h r m (Some g) v, Ok tt)
  | SetVol (Some v) => (mkPf k n h r m g (Some v), Ok tt)
  | SetGen None | SetVol None => (p, Err AssertionError)
  end.
(** a statement of a constructor: the exception ends it *)
Definition init_step (p : prefab) (s : setting) : res prefab :=
  let '(p', r) := set_setting p s in _ <- r ;; Ok p'.
(** prefab.py 58-82, 238-247, 276-285, 320-338: the generator and the volume are only
    assigned when they are not None. *)
Definition new_prefab (k : prefab_kind) (gen : option (option crystal)) (vol : option (option volume))
           (ratio N sep : num) (h : Z * Z * Z) : res prefab :=
  let opt {A} (f : option A -> setting) (x : option (option A)) := match x with None => [] | Some y => [f y] end in
  foldM init_step
    ([SetN N] ++ match k with KWurtzite => [] | _ => [SetPlane h; SetRatio ratio] end ++ [SetSep sep] ++
     opt SetGen gen ++ opt SetVol vol)
    (mkPf k 0 (0, 0, 0)%Z 0 0 None None).
(** the defaults of the constructors, prefab.py 58-64, 238-243, 276-281, 320-324 *)
Definition default_prefab (k : prefab_kind) : res prefab :=
  new_prefab k None None (NFloat (1 / 2)) (NInt 1) (NInt (match k with KWurtzite => 6 | _ => 3 end)) (1, 1, 1)%Z.

(** What build_object returns: the volume, and whether the defect types say that there are
    twins and stacking faults, prefab.py 188, 213-216, 412, 443-446 (the wurtzite prefab
    always says that there are stacking faults and has no entry for twins). *)
Record built := mkBuilt { bt_volume : volume; bt_twin : bool; bt_fault : bool }.
(** build_object(return_defect_types=True), prefab.py 145-216, 386-446; None has neither
    voxel nor get_bounding_box. [draws] feeds get_N_splits, [us] np.random.rand. *)
Definition build_prefab (w : world) (p : prefab) (draws : list nat) (us : list R) : res built :=
  match pf_gen p with
  | None => Err AttributeError
  | Some g =>
      match pf_kind p with
      | KWurtzite =>
          match pf_vol p with
          | None => _ <- reciprocal_bases (g_voxel g) ;; Err AttributeError
          | Some v => r <- wz_build w g v (pf_N p) (pf_sep p) draws ;; Ok (mkBuilt r false true)
          end
      | _ =>
          match pf_vol p with
          | None => Err AttributeError
          | Some v =>
              r <- fcc_build w g v (pf_N p) (pf_sep p) (plane_of p) (ratio_of p) draws us ;;
              Ok (mkBuilt (snd r) (fa_twin (fst r)) (fa_sf (fst r)))
          end
      end
  end.

(** SimpleGrainBoundary with its two zone axes as they are stored; the other attributes are
    plain, prefab.py 455-490.  The axes are given as flat lists (nested ones of size three
    are not modelled). *)
Record boundary := mkBd { bd_z1 : vec; bd_z2 : vec }.
Inductive axis_setting := SetZ1 (l : list R) | SetZ2 (l : option (list R)).
Definition axis_of (l : list R) : res vec :=
  match l with [x; y; z] => Ok (mkV x y z) | _ => Err AssertionError end.
(** z1 and z2 setters, prefab.py 492-519: None stands for the z1 of this moment *)
Definition set_axis (b : boundary) (s : axis_setting) : boundary * res unit :=
  match s with
  | SetZ1 l => match axis_of l with Ok z => (mkBd z (bd_z2 b), Ok tt) | Err e => (b, Err e) end
  | SetZ2 None => (mkBd (bd_z1 b) (bd_z1 b), Ok tt)
  | SetZ2 (Some l) => match axis_of l with Ok z => (mkBd (bd_z1 b) z, Ok tt) | Err e => (b, Err e) end
  end.
(** prefab.py 473-474 *)
Definition new_boundary (z1 : list R) (z2 : option (list R)) : res boundary :=
  z <- axis_of z1 ;;
  z' <- match z2 with None => Ok z | Some l => axis_of l end ;;
  Ok (mkBd z z').
(** build_object, prefab.py 521-539, with the stored axes *)
Definition build_boundary (w : world) (b : boundary) (pl : option alg) (v : volume) (g : crystal) : res volume :=
  gb_build w (mkGB (bd_z1 b) (Some (bd_z2 b)) 0 None pl None v g).
