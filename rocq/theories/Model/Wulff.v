(** czone/prefab/wulff.py.  The shape itself is computed by the external package
    wulffpack; here a particle is what wulffpack hands back: its forms (lists of
    symmetry-equivalent facets), its facets, and its facet fractions. *)
From Coq Require Import Reals String List ZArith Bool.
From Flocq Require Import Core.Raux.
From Verif.Model Require Import Base Vec Algebraic Transform Voxel Strain Generator Volume.
Import ListNotations.
Open Scope R_scope.

(** wulffpack Facet: normal, distance_from_origin, vertices *)
Record facet := mkFacet { f_normal : vec; f_dist : R; f_vertices : list vec }.
(** wulffpack BaseParticle: forms, and facet_fractions.  _yield_facets() runs over the
    facets of the forms in order. *)
Record particle := mkParticle { pa_forms : list (list facet); pa_fractions : list (list Z * R) }.
Definition yield_facets (p : particle) : list facet := concat (pa_forms p).

(** Plane(f.normal, f.normal * f.distance_from_origin), wulff.py 105-108, 121-124 *)
Definition plane_from_facet (f : facet) : res plane :=
  new_plane (f_normal f) (vscale (f_dist f) (f_normal f)) default_tol.
(** planes_from_form, wulff.py 111-124 *)
Definition planes_from_form (form : list facet) : res (list plane) := mapM plane_from_facet form.
(** planes_from_wulff, wulff.py 95-108 *)
Definition planes_from_wulff (p : particle) : res (list plane) := mapM plane_from_facet (yield_facets p).

(** The Python values a caller may pass for natoms and surface_energies: integers,
    floats, dictionaries, or anything else (without .items(), not convertible to int). *)
Inductive pykey := KTuple (h : list Z) | KOther.
Inductive pyval := VInt (n : Z) | VFloat (r : R) | VDict (l : list (pykey * pyval)) | VOther.

(** natoms setter, wulff.py 70-75; int() truncates floats *)
Definition set_natoms (v : pyval) : res Z :=
  match v with VInt n => Ok n | VFloat r => Ok (Ztrunc r) | _ => Err TypeError end.
(** isinstance(key, tuple) and isinstance(val, float), wulff.py 85 *)
Definition energy_item (kv : pykey * pyval) : res (list Z * R) :=
  match kv with (KTuple h, VFloat r) => Ok (h, r) | _ => Err AssertionError end.
(** surface_energies setter, wulff.py 82-88 *)
Definition set_energies (v : pyval) : res (list (list Z * R)) :=
  match v with VDict l => mapM energy_item l | _ => Err AttributeError end.
(** twin_energy setter, wulff.py 327-330 *)
Definition set_twin (v : pyval) : res R :=
  match v with VFloat r => Ok r | _ => Err AssertionError end.

(** What wulffpack computes: SingleCrystal, Winterbottom and Decahedron/Icosahedron
    (external; may raise).  get_primitive_structure and the ASE conversion of the
    generator's structure (wulff.py 55-60) are part of these functions' input. *)
Record wulffpack := mkWP {
  wp_single : list (list Z * R) -> structure -> Z -> res particle;
  wp_winterbottom : list (list Z * R) -> list Z -> R -> structure -> Z -> res particle;
  wp_twinned : list (list Z * R) -> R -> structure -> Z -> res (particle * R) }.

(** WulffSingle, wulff.py 134-152; [ws_wulff] is the cached particle *)
Record wulff_single := mkWS {
  ws_gen : crystal; ws_natoms : Z; ws_energies : list (list Z * R); ws_wulff : option particle }.

(** WulffSingle.__init__, wulff.py 136-143 *)
Definition new_single (g : crystal) (energies natoms : pyval) : res wulff_single :=
  n <- set_natoms natoms ;;
  e <- set_energies energies ;;
  Ok (mkWS g n e None).
(** default natoms=1000, wulff.py 139 *)
Definition default_natoms : pyval := VInt 1000.

(** the property setters on an existing object, wulff.py 55-88: none of them clears
    the cached particle *)
Definition single_set_gen (s : wulff_single) (g : crystal) : wulff_single :=
  mkWS g (ws_natoms s) (ws_energies s) (ws_wulff s).
Definition single_set_natoms (s : wulff_single) (v : pyval) : res wulff_single :=
  n <- set_natoms v ;; Ok (mkWS (ws_gen s) n (ws_energies s) (ws_wulff s)).
Definition single_set_energies (s : wulff_single) (v : pyval) : res wulff_single :=
  e <- set_energies v ;; Ok (mkWS (ws_gen s) (ws_natoms s) e (ws_wulff s)).

(** WulffSingle.wulff, wulff.py 154-158 *)
Definition single_wulff (wp : wulffpack) (s : wulff_single) : res (wulff_single * particle) :=
  match ws_wulff s with
  | Some p => Ok (s, p)
  | None => p <- wp_single wp (ws_energies s) (g_structure (ws_gen s)) (ws_natoms s) ;;
            Ok (mkWS (ws_gen s) (ws_natoms s) (ws_energies s) (Some p), p)
  end.
(** Volume(alg_objects=planes, generator=g): no points, no origin, priority 0 *)
Definition plane_volume (w : world) (planes : list plane) (g : option generator) : res leaf :=
  new_volume w None (map APlane planes) g None 0 default_vtol.
(** WulffSingle.get_construction, wulff.py 160-165 (without facet areas; with them the
    same volume is paired with the fractions) *)
Definition single_construction (w : world) (wp : wulffpack) (s : wulff_single) : res (wulff_single * volume) :=
  r <- single_wulff wp s ;;
  planes <- planes_from_wulff (snd r) ;;
  l <- plane_volume w planes (Some (GCrystal (ws_gen s))) ;;
  Ok (fst r, VLeaf l).
(** WulffSingle.get_areas, wulff.py 167-168: reads the cache directly *)
Definition single_areas (s : wulff_single) : res (list (list Z * R)) :=
  match ws_wulff s with Some p => Ok (pa_fractions p) | None => Err AttributeError end.
(** WulffSingle.winterbottom, wulff.py 170-192; always computed afresh *)
Definition single_winterbottom (w : world) (wp : wulffpack) (s : wulff_single) (interface : list Z) (e : R) : res volume :=
  p <- wp_winterbottom wp (ws_energies s) interface e (g_structure (ws_gen s)) (ws_natoms s) ;;
  planes <- planes_from_wulff p ;;
  l <- plane_volume w planes (Some (GCrystal (ws_gen s))) ;;
  Ok (VLeaf l).

(** WulffSingle.cube / cuboctohedron / octohedron / truncated_octohedron,
    wulff.py 194-252.  "cls(generator, natoms)" passes natoms as surface_energies;
    the four differ only in the [energies] given to get_construction, where they land
    in return_facet_areas (a non-empty dictionary is true). *)
Definition convenience (w : world) (wp : wulffpack) (g : crystal) (natoms : pyval) (energies : list (list Z * R))
  : res (volume * list (list Z * R)) :=
  s <- new_single g natoms default_natoms ;;
  r <- single_construction w wp s ;;
  a <- single_areas (fst r) ;;
  Ok (snd r, a).
Definition cube_energies : list (list Z * R) := [([1; 0; 0]%Z, 1)].
Definition cuboctohedron_energies : list (list Z * R) := [([1; 0; 0]%Z, 1); ([1; 1; 1]%Z, 115 / 100)].
Definition octohedron_energies : list (list Z * R) := [([1; 1; 1]%Z, 1)].
Definition truncated_energies : list (list Z * R) := [([1; 0; 0]%Z, 11 / 10); ([1; 1; 0]%Z, 115 / 100); ([1; 1; 1]%Z, 1)].

(** lists[idx].append(x) *)
Fixpoint append_at {A} (idx : nat) (x : A) (ls : list (list A)) : res (list (list A)) :=
  match ls, idx with
  | [], _ => Err IndexError
  | l :: t, O => Ok ((l ++ [x]) :: t)
  | l :: t, Datatypes.S i => t' <- append_at i x t ;; Ok (l :: t')
  end.
(** one facet of a form: idx = i // (len_p // n), wulff.py 341-343, 425-427 *)
Definition deal_one {A} (n len : nat) (ls : list (list A)) (ix : nat * A) : res (list (list A)) :=
  if Nat.eqb (len / n) 0 then Err ZeroDivisionError
  else append_at (fst ix / (len / n)) (snd ix) ls.
(** the facets of one form, wulff.py 338-343, 422-427 *)
Definition deal_form {A} (n : nat) (ls : list (list A)) (planes : list A) : res (list (list A)) :=
  foldM (deal_one n (length planes)) (combine (seq 0 (length planes)) planes) ls.
(** all forms, wulff.py 336-343 (n = 5) and 419-427 (n = 20) *)
Definition grain_planes (n : nat) (forms : list (list facet)) : res (list (list plane)) :=
  foldM (fun ls form => planes <- planes_from_form form ;; deal_form n ls planes) forms (repeat [] n).

(** Cylinder(...) and Sphere(...) called with keyword arguments, some of which may be
    missing; algebraic.py 84-92, 240-250.  A missing required argument is a TypeError. *)
Definition cylinder_kw (axis point : option vec) (radius length : option R) : res cylinder :=
  match axis, point, radius, length with
  | Some a, Some p, Some r, Some l => new_cylinder a p r l default_tol
  | _, _, _, _ => Err TypeError
  end.

(** WulffDecahedron, wulff.py 312-330 *)
Record wulff_twin := mkWT { wt_gen : crystal; wt_natoms : Z; wt_energies : list (list Z * R); wt_twin : R }.
Definition new_twin (g : crystal) (energies twin natoms : pyval) : res wulff_twin :=
  n <- set_natoms natoms ;; e <- set_energies energies ;; t <- set_twin twin ;; Ok (mkWT g n e t).

(** np.max of a list; ValueError when empty (np.vstack([]) as well) *)
Definition np_max (l : list R) : res R := match l with [] => Err ValueError | x :: t => Ok (fold_left Rmax t x) end.
Definition np_min (l : list R) : res R := match l with [] => Err ValueError | x :: t => Ok (fold_left Rmin t x) end.
(** the crystal of grain i: rotated by i * 2 pi / 5 about z, strained by sf along its
    first lattice direction; wulff.py 350-357.  The strain field object is shared by
    all grains until add_generator copies it. *)
Definition grain_generator (g : crystal) (h : hstrain) (i : nat) : res crystal :=
  match rot_v (mkV 0 0 1) (INR i * 2 * PI / 5) with
  | None => Err AssertionError
  | Some m => rot <- new_rotation m None true false ;;
              g' <- crystal_transform g rot ;;
              Ok (mkCrystal (g_structure g') (g_voxel g') (Some h) (g_post g'))
  end.
(** WulffDecahedron.get_construction, wulff.py 332-371 *)
Definition decahedron_construction (w : world) (wp : wulffpack) (d : wulff_twin) : res volume :=
  r <- wp_twinned wp (wt_energies d) (wt_twin d) (g_structure (wt_gen d)) (wt_natoms d) ;;
  let '(p, sf) := r in
  lists <- grain_planes 5 (pa_forms p) ;;
  vols <- mapM (fun pl => plane_volume w pl None) lists ;;
  h <- new_hstrain (Some (St6 sf 1 1 0 0 0)) None "crystal"%string ;;
  vols <- mapM (fun iv : nat * leaf => g <- grain_generator (wt_gen d) h (fst iv) ;; add_generator (snd iv) (GCrystal g) None)
               (combine (seq 0 5) vols) ;;
  zs <- mapM (fun f => np_max (map vz (f_vertices f))) (yield_facets p) ;;
  lo <- np_min zs ;;
  b <- new_plane (mkV 0 0 (-1)) (mkV 0 0 lo) default_tol ;;
  hi <- np_max zs ;;
  t <- new_plane (mkV 0 0 1) (mkV 0 0 hi) default_tol ;;
  c <- cylinder_kw None None (Some (/ 1000)) None ;;
  axis <- new_volume w None [APlane b; APlane t; ACyl c] (Some (GCrystal (wt_gen d))) None 0 default_vtol ;;
  Ok (VMulti 0 (map VLeaf (vols ++ [axis])) None).

(** WulffIcosahedron._strain_from_111, wulff.py 397-413, on an array of points; NaN for
    a basis sending [1,1,1] to 0 *)
Definition strain_from_111 (points : list vec) (basis : mat) (sf : R) : res (list vec) :=
  let v := mv basis (mkV 1 1 1) in
  if Reqb (norm v) 0 then Err NaNValue else
  let u := vscale (/ norm v) v in
  Ok (map (fun p => vadd p (vscale (sf - 1) (vsub p (vscale (dot p u) u)))) points).
(** the same called with keyword arguments, points required *)
Definition strain_from_111_kw (points : option (list vec)) (basis : option mat) (sf : option R) : res (list vec) :=
  match points with
  | None => Err TypeError
  | Some p => strain_from_111 p (match basis with Some b => b | None => mI end) (match sf with Some s => s | None => 1 end)
  end.
(** WulffIcosahedron.icosahedral_scale_factor, wulff.py 392-395 *)
Definition icosahedral_k : R := (5 + sqrt 5) / 8.
Definition icosahedral_scale_factor : R := sqrt (2 / (3 * icosahedral_k - 1)).

(** WulffIcosahedron.get_construction, wulff.py 415-456, up to the first argument of
    IStrain: "self._strain_from_111()" calls the strain function without its points.
    (Its second argument calls a float.)  Both raise TypeError, so that the rest, which
    is left out here, is never reached. *)
Definition icosahedron_construction (w : world) (wp : wulffpack) (d : wulff_twin) : res volume :=
  r <- wp_twinned wp (wt_energies d) (wt_twin d) (g_structure (wt_gen d)) (wt_natoms d) ;;
  let '(p, sf) := r in
  lists <- grain_planes 20 (pa_forms p) ;;
  vols <- mapM (fun pl => plane_volume w pl None) lists ;;
  _ <- strain_from_111_kw None None None ;;
  Err TypeError.
