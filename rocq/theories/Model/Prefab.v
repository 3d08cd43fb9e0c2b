(** czone/prefab/prefab.py *)
From Coq Require Import Reals List ZArith Bool.
From Verif.Model Require Import Base Vec Algebraic Transform Voxel Generator Volume Misc Snap.
Import ListNotations.
Open Scope R_scope.

(** l[i] for a Python list: negative indices count from the end *)
Definition py_get {A} (l : list A) (i : Z) : res A :=
  let n := Z.of_nat (length l) in
  let j := if (i <? 0)%Z then (i + n)%Z else i in
  if ((j <? 0) || (n <=? j))%Z then Err IndexError
  else match nth_error l (Z.to_nat j) with Some x => Ok x | None => Err IndexError end.

(** np.array(self.plane) *)
Definition vec_of (h : Z * Z * Z) : vec := let '(a, b, c) := h in mkV (IZR a) (IZR b) (IZR c).
(** pymatgen Lattice.d_hkl (external): 1 / |hkl in the reciprocal lattice|, from the
    structure, not from the (scaled, transformed) voxel *)
Definition d_hkl (s : structure) (h : Z * Z * Z) : res R :=
  rm <- inv (st_matrix s) ;; Ok (/ norm (mv rm (vec_of h))).

(** bbox[np.argmin(ci), :] and bbox[np.argmax(ci), :], first index on ties;
    prefab.py 153-155, 378-380 *)
Definition arg_first (better : R -> R -> bool) (f : vec -> R) (p : vec) (ps : list vec) : vec :=
  fold_left (fun best q => if better (f q) (f best) then q else best) ps p.
(** start and finish, prefab.py 149-161, 374-386.  Spheres override the box, the last
    one wins, and their centre is not used.  A tuple or None has no attribute T
    (AttributeError); an empty box makes argmin fail; a box of NaNs is not modelled
    (NaNValue). *)
Definition extremes (nv : vec) (b : bbox) (algs : list alg) : res (vec * vec) :=
  se <- match b with
        | BArr (p :: ps) => Ok (arg_first Rltb (dot nv) p ps, arg_first (fun x y => Rltb y x) (dot nv) p ps)
        | BArr [] => Err ValueError
        | BNaN => Err NaNValue
        | BTuple _ _ | BNone => Err AttributeError
        end ;;
  Ok (fold_left (fun se a => match a with
                             | ASphere s => (vscale (-1 * s_radius s) nv, vscale (s_radius s) nv)
                             | _ => se
                             end) algs se).

(** the loop appending planes, prefab.py 175-178, 400-403 *)
Fixpoint stack_planes (n : nat) (normal : vec) (d : R) (pt : vec) : res (list plane) :=
  match n with
  | O => Ok []
  | S n' =>
      let pt := vadd pt (vscale d normal) in
      pl <- new_plane normal pt default_tol ;;
      rest <- stack_planes n' normal d pt ;;
      Ok (pl :: rest)
  end.
(** all planes of the family across the host, prefab.py 163-178, 388-403 *)
Definition plane_stack (g : crystal) (h : Z * Z * Z) (start finish : vec) : res (list plane) :=
  sp <- snap_plane start g h Floor ;;
  ep <- snap_plane finish g h Ceil ;;
  let d_tot := dist_from_plane ep (p_point sp) in
  d <- d_hkl (g_structure g) h ;;
  let n := Z.to_nat (np_round (d_tot / d)) in
  rest <- stack_planes n (p_normal sp) d (p_point sp) ;;
  Ok (sp :: rest).

Section Defects.
Variables (w : world) (host : leaf).
(** [step aux gen pl] is the transformation of one defect; [aux] is the loop state *)
Context {Aux : Type} (step : Aux -> crystal -> plane -> res (Aux * transform)).
(** one pass of the loop, prefab.py 190-211, 418-441 *)
Definition defect_pass (N : Z) (splits : list Z) (planes : list plane)
           (st : Aux * crystal * list volume) (i : Z) : res (Aux * crystal * list volume) :=
  let '(aux, gen, vols) := st in
  s <- py_get splits i ;;
  pl <- py_get planes s ;;
  r <- step aux gen pl ;;
  gen' <- crystal_transform gen (snd r) ;;
  nv <- leaf_from_volume w host (Some (GCrystal gen')) [] ;;
  pl' <- new_plane (p_normal pl) (p_point pl) default_tol ;;
  let nv := with_prio (with_alg nv (l_alg nv ++ [APlane pl'])) (N - (i + 1)) in
  Ok (fst r, gen', vols ++ [VLeaf nv]).
(** sub volumes and MultiVolume, prefab.py 180-216, 405-446.  [draws] feeds
    get_N_splits. *)
Definition build_defects (g : crystal) (N min_sep : Z) (planes : list plane) (draws : list nat) (aux : Aux)
  : res (Aux * volume) :=
  splits <- get_N_splits N min_sep (Z.of_nat (length planes)) draws ;;
  let splits := rev splits in
  v0 <- leaf_from_volume w host (Some (GCrystal g)) [] ;;
  r <- foldM (defect_pass N splits planes) (zrange 0 N) (aux, g, [VLeaf (with_prio v0 N)]) ;;
  Ok (fst (fst r), VMulti 0 (snd r) None).
End Defects.

(** np.sign(self.plane) *)
Definition sign_vec (h : Z * Z * Z) : vec := let '(a, b, c) := h in vec_of (Z.sgn a, Z.sgn b, Z.sgn c).
(** loop state of fccMixedTwinSF: remaining draws of np.random.rand, twin_last, and
    whether a twin / a stacking fault has been placed *)
Record fcc_aux := mkAux { fa_draws : list R; fa_twin_last : R; fa_twin : bool; fa_sf : bool }.
(** prefab.py 191-201 *)
Definition fcc_step (h : Z * Z * Z) (ratio : R) (a : fcc_aux) (gen : crystal) (pl : plane) : res (fcc_aux * transform) :=
  match fa_draws a with
  | [] => Err NeedMore
  | u :: us =>
      if Rltb u ratio then
        let burger := mv (mscale (fa_twin_last a) (sbases (g_voxel gen)))
                         (vmul (vscale (1 / 3) (mkV 1 1 (-2))) (sign_vec h)) in
        Ok (mkAux us (fa_twin_last a) (fa_twin a) true, TTranslation burger true false)
      else Ok (mkAux us (fa_twin_last a * -1) true (fa_sf a), TReflection pl true false)
  end.
(** fccMixedTwinSF.build_object, prefab.py 145-216.  fccStackingFault and fccTwin
    (prefab.py 219-292) are the cases ratio = 1 and ratio = 0.  The host must be a
    Volume: a MultiVolume has no get_bounding_box.  norm_vec is NaN only for a zero
    plane or a singular basis, for which snap_plane fails below in any case. *)
Definition fcc_build (w : world) (g : crystal) (host : volume) (N min_sep : Z) (h : Z * Z * Z) (ratio : R)
           (draws : list nat) (us : list R) : res (fcc_aux * volume) :=
  match host with
  | VMulti _ _ _ => Err AttributeError
  | VLeaf l =>
      let nv := mv (vo_bases (g_voxel g)) (vec_of h) in
      let nv := vscale (/ norm nv) nv in
      se <- extremes nv (get_bounding_box w l) (l_alg l) ;;
      planes <- plane_stack g h (fst se) (snd se) ;;
      build_defects w l (fcc_step h ratio) g N min_sep planes draws (mkAux us 1 false false)
  end.
(** the constructor's checks, prefab.py 96-103, 114-118 (N is any int here) *)
Definition fcc_ratio_ok (ratio : R) : res R := if Rleb 0 ratio && Rleb ratio 1 then Ok ratio else Err AssertionError.

(** np.allclose on one component, default tolerances *)
Definition np_close (a b : R) : bool := Rleb (Rabs (a - b)) (/ 10 ^ 8 + / 10 ^ 5 * Rabs b).
Definition all_close (a b : vec) : bool := np_close (vx a) (vx b) && np_close (vy a) (vy b) && np_close (vz a) (vz b).
(** prefab.py 415-432; the state is the polarity, flipped at 441 *)
Definition wz_step (bz : vec) (polarity : R) (gen : crystal) (pl : plane) : res (R * transform) :=
  p1 <- snap_plane (p_point pl) gen (0, 0, 1)%Z Nearest ;;
  p2 <- snap_plane (p_point pl) gen (0, 0, 2)%Z Nearest ;;
  let bsf := if all_close (p_point p1) (p_point p2) then 2 else 1 in
  let b := mv (mscale polarity (sbases (g_voxel gen))) (vscale (bsf / 3) (mkV 1 (-1) 0)) in
  Ok (polarity * -1, TTranslation (vadd b bz) true false).
(** wurtziteStackingFault.build_object, prefab.py 368-446 *)
Definition wz_build (w : world) (g : crystal) (host : volume) (N min_sep : Z) (draws : list nat) : res volume :=
  rb <- reciprocal_bases (g_voxel g) ;;
  match host with
  | VMulti _ _ _ => Err AttributeError
  | VLeaf l =>
      let h := (0, 0, 2)%Z in
      let nv := mv rb (vec_of h) in
      let nv := vscale (/ norm nv) nv in
      se <- extremes nv (get_bounding_box w l) (l_alg l) ;;
      planes <- plane_stack g h (fst se) (snd se) ;;
      let bz := mv (mscale (1 / 2) (sbases (g_voxel g))) (mkV 0 0 (-1)) in
      r <- build_defects w l (wz_step bz) g N min_sep planes draws 1 ;;
      Ok (snd r)
  end.

(** SimpleGrainBoundary, prefab.py 449-539: z1 and z2 are zone axes (z2 defaults to
    z1), r1, r2 and point are accepted and never used; plane must be an algebraic
    object (Miller indices or None fail the assertion of add_alg_object) and volume a
    Volume (a MultiVolume has no add_alg_object). *)
Record grain_boundary := mkGB {
  gb_z1 : vec; gb_z2 : option vec; gb_r1 : R; gb_r2 : option R; gb_plane : option alg;
  gb_point : option vec; gb_volume : volume; gb_generator : crystal }.
(** SimpleGrainBoundary.build_object, prefab.py 521-539.  A NaN matrix fails the
    assertions of Rotation. *)
Definition gb_rotation (g : crystal) (z : vec) : res transform :=
  match rot_vtv (mv (sbases (g_voxel g)) z) (mkV 0 0 1) with
  | Some m => new_rotation m None true false
  | None => Err AssertionError
  end.
Definition gb_build (w : world) (b : grain_boundary) : res volume :=
  let g := gb_generator b in
  let z2 := match gb_z2 b with Some z => z | None => gb_z1 b end in
  rot1 <- gb_rotation g (gb_z1 b) ;;
  rot2 <- gb_rotation g z2 ;;
  g1 <- crystal_transform g rot1 ;;
  g2 <- crystal_transform g rot2 ;;
  v1 <- vol_from_volume w (gb_volume b) (Some (GCrystal g1)) [] ;;
  match v1, gb_plane b with
  | VMulti _ _ _, _ => Err AttributeError
  | VLeaf _, None => Err AssertionError
  | VLeaf l1, Some a =>
      v2 <- vol_from_volume w (gb_volume b) (Some (GCrystal g2)) [] ;;
      match v2 with
      | VLeaf l2 => Ok (VMulti 0 [VLeaf (with_alg l1 (l_alg l1 ++ [a])); VLeaf (with_prio l2 (l_prio l2 + 1))] None)
      | VMulti _ _ _ => Err AttributeError
      end
  end.
