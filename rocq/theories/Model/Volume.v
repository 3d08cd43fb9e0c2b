(** czone/volume/volume.py *)
From Coq Require Import Reals List ZArith Bool.
From Verif.Model Require Import Base Vec Algebraic Transform Voxel Post Generator Priority.
Import ListNotations.
Open Scope R_scope.

(** Everything external the volume code calls, as arguments of the model:
    - w_find pts tol p:  Delaunay(hull vertices of pts).find_simplex(p, tol) >= 0
    - w_qhull pts:       ConvexHull/Delaunay accept the points (full dimensional)
    - w_linprog, w_halfspace: scipy's solvers, see Model/Algebraic.v
    - w_mk: the random generators created so far; w_draws: the stream of
      default_rng(0) used by gen_p_substrate. *)
Record world := mkWorld {
  w_find : list vec -> R -> vec -> bool;
  w_qhull : list vec -> bool;
  w_linprog : list (vec * R * R) -> lp_result;
  w_halfspace : list (vec * R * R) -> vec -> option (list vec);
  w_mk : nat -> nat -> nat -> R;
  w_draws : list vec }.

(** makeRectPrism, volume.py 529-554 *)
Definition unit_cube : list vec :=
  [mkV 0 0 0; mkV 1 0 0; mkV 0 1 0; mkV 0 0 1; mkV 1 1 0; mkV 1 0 1; mkV 0 1 1; mkV 1 1 1].
Definition makeRectPrism (a b c : R) (center : option vec) : list vec :=
  let points := map (fun p => vmul p (mkV a b c)) unit_cube in
  match center with
  | None => points
  | Some ctr => map (fun p => vadd p (vsub ctr (vmean points))) points
  end.

(** Volume._points: None, an Nx3 array, or an array of another shape (left behind by
    the points setter, volume.py 179, or by addPoints of one point, volume.py 261). *)
Inductive pts := PNone | PArr (l : list vec) | PBad.

(** Volume, volume.py 103-165.  [l_hull] and [l_tri] hold the point sets from which
    the ConvexHull and the Delaunay triangulation were last built. *)
Record leaf := mkLeaf {
  l_points : pts; l_hull : option (list vec); l_tri : option (list vec);
  l_alg : list alg; l_gen : option generator; l_prio : Z; l_tol : R;
  l_atoms : option (list vec * list Z) }.

Definition with_points (l : leaf) (p : pts) : leaf :=
  mkLeaf p (l_hull l) (l_tri l) (l_alg l) (l_gen l) (l_prio l) (l_tol l) (l_atoms l).
Definition with_hull (l : leaf) (h t : option (list vec)) : leaf :=
  mkLeaf (l_points l) h t (l_alg l) (l_gen l) (l_prio l) (l_tol l) (l_atoms l).
Definition with_alg (l : leaf) (a : list alg) : leaf :=
  mkLeaf (l_points l) (l_hull l) (l_tri l) a (l_gen l) (l_prio l) (l_tol l) (l_atoms l).
Definition with_gen (l : leaf) (g : option generator) : leaf :=
  mkLeaf (l_points l) (l_hull l) (l_tri l) (l_alg l) g (l_prio l) (l_tol l) (l_atoms l).
Definition with_atoms (l : leaf) (a : list vec * list Z) : leaf :=
  mkLeaf (l_points l) (l_hull l) (l_tri l) (l_alg l) (l_gen l) (l_prio l) (l_tol l) (Some a).
Definition with_prio (l : leaf) (p : Z) : leaf :=
  mkLeaf (l_points l) (l_hull l) (l_tri l) (l_alg l) (l_gen l) p (l_tol l) (l_atoms l).

(** Volume.createHull, volume.py 241-247; scipy's QhullError is a ValueError here *)
Definition createHull (w : world) (l : leaf) : leaf * res unit :=
  match l_points l with
  | PArr p => if Nat.leb (length p) 3 then (l, Err AssertionError)
              else if w_qhull w p then (with_hull l (Some p) (Some p), Ok tt)
              else (l, Err ValueError)
  | PNone => (l, Err AttributeError)
  | PBad => (l, Err AssertionError)
  end.

(** Volume.addPoints, volume.py 249-274.  np.append of an array that is not Nx3
    with an Nx3 array raises ValueError; np.expand_dims(points) without axis raises
    TypeError.  "self._hull.add_points" raises AttributeError only when there is no
    hull yet; the incremental hull is updated, self._tri is not. *)
Definition add_points (w : world) (l : leaf) (a : ndarray) : leaf * res unit :=
  let update (l' : leaf) (new : list vec) :=
    match l_hull l' with
    | Some h => (with_hull l' (Some (h ++ new)) (l_tri l'), Ok tt)
    | None => createHull w l'
    end in
  match l_points l, a with
  | PNone, A1 _ => (with_points l PBad, Err TypeError)
  | PNone, A2 new => update (with_points l (PArr new)) new
  | PBad, _ => (l, Err ValueError)
  | PArr old, A1 v => update (with_points l (PArr (old ++ [v]))) [v]
  | PArr old, A2 new => update (with_points l (PArr (old ++ new))) new
  end.

(** Volume.points setter, volume.py 176-182; AssertionError becomes ValueError *)
Definition set_points (w : world) (l : leaf) (a : ndarray) : leaf * res unit :=
  let '(l', r) := add_points w (with_points l PBad) a in
  (l', match r with Err AssertionError => Err ValueError | _ => r end).

(** Volume.add_generator, volume.py 225-235.  NullGenerator has no voxel. *)
Definition add_generator (l : leaf) (g : generator) (origin : option vec) : res leaf :=
  match g, origin with
  | GAmorphous _, _ | _, None => Ok (with_gen l (Some g))
  | GCrystal c, Some o =>
      Ok (with_gen l (Some (GCrystal (mkCrystal (g_structure c) (set_vorigin (g_voxel c) o)
                                                (g_strain c) (g_post c)))))
  | GNull, Some _ => Err AttributeError
  end.

(** Volume.__init__, volume.py 131-165 *)
Definition empty_leaf (tol : R) : leaf := mkLeaf PNone None None [] None 0%Z tol None.
Definition new_volume (w : world) (points : option (list vec)) (algs : list alg)
           (g : option generator) (gen_origin : option vec) (prio : Z) (tol : R) : res leaf :=
  l <- match points with
       | None => Ok (empty_leaf tol)
       | Some p => let '(l, r) := add_points w (empty_leaf tol) (A2 p) in rmap (fun _ => l) r
       end ;;
  l <- match g with None => Ok l | Some g => add_generator l g gen_origin end ;;
  Ok (with_alg (with_prio l prio) (l_alg l ++ algs)).
(** Default tolerance 1e-10, volume.py 136 *)
Definition default_vtol : R := / 10 ^ 10.

(** Volume.checkIfInterior for one point (the numpy code works row by row),
    volume.py 293-312 *)
Definition leaf_inside (w : world) (l : leaf) (p : vec) : bool :=
  let check := true in
  let check := match l_tri l with
               | Some t => check && w_find w t (l_tol l) p
               | None => check
               end in
  fold_left (fun c a => c && alg_interior a p) (l_alg l) check.

(** Volume.checkIfInterior as written, on a whole array of points: masks combined
    with np.logical_and, volume.py 301-312.  It is [leaf_inside] row by row
    (theorem C17_batch_is_pointwise). *)
Definition leaf_check (w : world) (l : leaf) (ps : list vec) : list bool :=
  let check := ones (length ps) in
  let check := match l_tri l with
               | Some t => mask_and check (map (w_find w t (l_tol l)) ps)
               | None => check
               end in
  fold_left (fun c a => mask_and c (map (alg_interior a) ps)) (l_alg l) check.

(** The alg_objects that are spheres / planes / cylinders, volume.py 327-341 *)
Definition spheres_of (l : list alg) : list sphere :=
  flat_map (fun a => match a with ASphere s => [s] | _ => [] end) l.
Definition planes_of (l : list alg) : list plane :=
  flat_map (fun a => match a with APlane p => [p] | _ => [] end) l.
Definition cyls_of (l : list alg) : list cylinder :=
  flat_map (fun a => match a with ACyl c => [c] | _ => [] end) l.
(** sorted(range(n), key=radius)[0]: the first sphere of smallest radius *)
Definition smallest_sphere (s : sphere) (l : list sphere) : sphere :=
  fold_left (fun best x => if Rltb (s_radius x) (s_radius best) then x else best) l s.

(** Volume.get_bounding_box, volume.py 314-344 *)
Definition get_bounding_box (w : world) (l : leaf) : bbox :=
  match l_points l with
  | PArr p => BArr p
  | PBad => BArr []
  | PNone =>
      match spheres_of (l_alg l) with
      | s :: ss =>
          let b := smallest_sphere s ss in
          let d := 2 * s_radius b in
          BArr (map (fun p => vadd p (vsub (s_center b) (vscale (d / 2) (mkV 1 1 1))))
                    (makeRectPrism d d d None))
      | [] =>
          let planes := planes_of (l_alg l) in
          if Nat.ltb 3 (length planes) then
            let '(v, st) := bounding_box_planes (w_linprog w) (w_halfspace w) planes in BTuple v st
          else match cyls_of (l_alg l) with
               | c :: _ => match cyl_bounding_box c with Some b => BArr b | None => BNaN end
               | [] => BNone
               end
      end
  end.

(** Volume.populate_atoms, volume.py 347-353 *)
Definition leaf_populate (w : world) (c : nat) (l : leaf) : res (nat * leaf) :=
  let bbox := get_bounding_box w l in
  match l_gen l with
  | None => Err AttributeError
  | Some g =>
      r <- supply_atoms (w_mk w) (w_draws w) c g bbox ;;
      let '(c', g', (coords, species)) := r in
      let check := leaf_check w l coords in
      a <- index_mask coords check ;;
      sp <- index_mask species check ;;
      Ok (c', with_atoms (with_gen l (Some g')) (a, sp))
  end.

(** Volume.transform, volume.py 276-291.  Returns the state the object is left in,
    also when an exception is raised half way. *)
Definition leaf_transform (w : world) (l : leaf) (t : transform) : leaf * res unit :=
  let '(l1, r1) :=
    match l_points l with
    | PNone => (l, Ok tt)
    | PBad => (l, Err ValueError)
    | PArr p => let '(l', r) := set_points w l (A2 (map (apply_pt t) p)) in
                match r with Ok _ => createHull w l' | Err e => (l', Err e) end
    end in
  match r1 with
  | Err e => (l1, Err e)
  | Ok _ =>
      (* the loop over alg_objects replaces them one by one *)
      let fix go (done todo : list alg) : list alg * res unit :=
        match todo with
        | [] => (done, Ok tt)
        | a :: rest => match apply_alg t a with
                       | Ok a' => go (done ++ [a']) rest
                       | Err e => (done ++ fst (apply_alg_st t a) :: rest, Err e)
                       end
        end in
      let '(algs, r2) := go [] (l_alg l1) in
      let l2 := with_alg l1 algs in
      match r2 with
      | Err e => (l2, Err e)
      | Ok _ =>
          match locked t, l_gen l2 with
          | true, Some g => match generator_transform g t with
                            | Ok g' => (with_gen l2 (Some g'), Ok tt)
                            | Err e => (l2, Err e)
                            end
          | _, _ => (l2, Ok tt)
          end
      end
  end.

(** Volume.from_volume, volume.py 356-378; [g] is the generator keyword.
    add_generator(None) raises TypeError. *)
Definition leaf_from_volume (w : world) (l : leaf) (g : option generator) (ts : list transform) : res leaf :=
  new <- match l_points l with
         | PNone => new_volume w None (l_alg l) None None (l_prio l) default_vtol
         | PArr p => new_volume w (Some p) (l_alg l) None None (l_prio l) default_vtol
         | PBad => Err AssertionError
         end ;;
  new <- match (match g with Some g => Some g | None => l_gen l end) with
         | Some g => add_generator new g None
         | None => Err TypeError
         end ;;
  foldM (fun v t => let '(v', r) := leaf_transform w v t in rmap (fun _ => v') r) ts new.

(* ------------------------------------------------------------------ *)
(** BaseVolume: a Volume or a MultiVolume (volume.py 381-410).  [cache] holds
    _atoms/_species of the MultiVolume.  Value semantics: no volume object occurs
    twice in a tree (aliasing is treated in Model/Heap.v). *)
Inductive volume :=
| VLeaf (l : leaf)
| VMulti (prio : Z) (vols : list volume) (cache : option (list vec * list Z)).

Definition vol_prio (v : volume) : Z := match v with VLeaf l => l_prio l | VMulti p _ _ => p end.
(** BaseVolume.atoms / .species, volume.py 43-51 *)
Definition vol_result (v : volume) : option (list vec * list Z) :=
  match v with VLeaf l => l_atoms l | VMulti _ _ c => c end.
Definition vol_atoms (v : volume) : list vec :=
  match vol_result v with Some r => fst r | None => [] end.
Definition vol_species (v : volume) : list Z :=
  match vol_result v with Some r => snd r | None => [] end.

(** checkIfInterior, volume.py 293-312 and 464-477 *)
Fixpoint vol_inside (w : world) (v : volume) (p : vec) : bool :=
  match v with
  | VLeaf l => leaf_inside w l p
  | VMulti _ vols _ => existsb (fun v' => vol_inside w v' p) vols
  end.

(** MultiVolume.checkIfInterior as written, on an array of points, volume.py 472-477 *)
Fixpoint vol_check (w : world) (v : volume) (ps : list vec) : list bool :=
  match v with
  | VLeaf l => leaf_check w l ps
  | VMulti _ vols _ => fold_left (fun c v' => mask_or c (vol_check w v' ps)) vols (zeros (length ps))
  end.

(** populate_atoms, volume.py 347-353 and 479-503; np.vstack([]) raises ValueError *)
Fixpoint vol_populate (w : world) (c : nat) (v : volume) : res (nat * volume) :=
  match v with
  | VLeaf l => r <- leaf_populate w c l ;; Ok (fst r, VLeaf (snd r))
  | VMulti p vols _ =>
      r <- mapMS (vol_populate w) c vols ;;
      let sorted := sort_by vol_prio (snd r) in
      let cks := checks vol_prio vol_atoms (vol_inside w) sorted in
      match sorted with
      | [] => Err ValueError
      | _ => Ok (fst r, VMulti p sorted (Some (stack_atoms vol_atoms sorted cks,
                                               stack_species vol_species sorted cks)))
      end
  end.

(** transform, volume.py 276-291 and 457-462 *)
Fixpoint vol_transform (w : world) (v : volume) (t : transform) : volume * res unit :=
  match v with
  | VLeaf l => let '(l', r) := leaf_transform w l t in (VLeaf l', r)
  | VMulti p vols c =>
      let fix go (l : list volume) : list volume * res unit :=
        match l with
        | [] => ([], Ok tt)
        | x :: rest =>
            let '(x', r) := vol_transform w x t in
            match r with
            | Err e => (x' :: rest, Err e)
            | Ok _ => let '(rest', r') := go rest in (x' :: rest', r')
            end
        end in
      let '(vols', r) := go vols in (VMulti p vols' c, r)
  end.

(** from_volume, volume.py 356-378 and 505-521 *)
Fixpoint vol_from_volume (w : world) (v : volume) (g : option generator) (ts : list transform) : res volume :=
  match v with
  | VLeaf l => rmap VLeaf (leaf_from_volume w l g ts)
  | VMulti p vols _ =>
      vs <- mapM (fun v' => vol_from_volume w v' g ts) vols ;;
      Ok (VMulti p vs None)
  end.
