(** czone/surface/alpha_shape.py.  scipy's Delaunay triangulation and the random
    perturbations are arguments. *)
From Coq Require Import Reals List ZArith Bool.
From Verif.Model Require Import Base Vec Molecule.
Import ListNotations.
Open Scope R_scope.

(** tetrahedron_circumradii for one tetrahedron, alpha_shape.py 21-49: the centre
    relative to the first vertex.  [None]: the division by a = 0 gives NaN or an
    infinity. *)
Definition circum_center (p0 p1 p2 p3 : vec) : option vec :=
  let q1 := vsub p1 p0 in let q2 := vsub p2 p0 in let q3 := vsub p3 p0 in
  let '(mkV x1 y1 z1) := q1 in let '(mkV x2 y2 z2) := q2 in let '(mkV x3 y3 z3) := q3 in
  let l1 := x1 * x1 + y1 * y1 + z1 * z1 in
  let l2 := x2 * x2 + y2 * y2 + z2 * z2 in
  let l3 := x3 * x3 + y3 * y3 + z3 * z3 in
  let dx := l1 * (y2 * z3 - z2 * y3) - l2 * (y1 * z3 - z1 * y3) + l3 * (y1 * z2 - z1 * y2) in
  let dy := l1 * (x2 * z3 - z2 * x3) - l2 * (x1 * z3 - z1 * x3) + l3 * (x1 * z2 - z1 * x2) in
  let dz := l1 * (x2 * y3 - y2 * x3) - l2 * (x1 * y3 - y1 * x3) + l3 * (x1 * y2 - y1 * x2) in
  let aa := x1 * (y2 * z3 - z2 * y3) - x2 * (y1 * z3 - z1 * y3) + x3 * (y1 * z2 - z1 * y2) in
  let a := 2 * aa in
  if Reqb a 0 then None else Some (mkV (dx / a) (- dy / a) (dz / a)).
Definition circumradius (p0 p1 p2 p3 : vec) : option R :=
  option_map norm (circum_center p0 p1 p2 p3).

(** scipy.spatial.Delaunay: [simplices] has four vertex indices per tetrahedron,
    [neighbors] the four neighbouring tetrahedra, entry k lying across the face
    opposite vertex k and -1 if there is none. *)
Record triangulation := mkTri { simplices : list (list nat); neighbors : list (list Z) }.

(** circumradii[i] <= probe_radius; comparisons with NaN or infinity are false *)
Definition simplex_passes (points : list vec) (probe : R) (s : list nat) : bool :=
  match map (fun k => nth k points v0) s with
  | [p0; p1; p2; p3] =>
      match circumradius p0 p1 p2 p3 with Some r => Rleb r probe | None => false end
  | _ => false
  end.
(** probe_test, alpha_shape.py 70-73 *)
Definition probe_test (points : list vec) (probe : R) (tri : triangulation) : list bool :=
  map (simplex_passes points probe) (simplices tri).
(** probe_test after the sampling loop, alpha_shape.py 138-148; [samples] holds the
    perturbed points of each pass.  With no pass the name is never bound. *)
Definition probe_test_sampled (samples : list (list vec)) (probe : R) (tri : triangulation) : res (list bool) :=
  match samples with
  | [] => Err UnboundLocalError
  | p :: ps => Ok (fold_left (fun acc q => mask_or acc (probe_test q probe tri)) ps (probe_test p probe tri))
  end.

(** a[i] for a boolean array and a numpy integer (negative ones count from the end);
    the indices come from the triangulation and are in range *)
Definition bget (l : list bool) (z : Z) : bool :=
  match py_index (length l) z with Ok i => nth i l false | Err _ => false end.

(** outside, alpha_shape.py 77 and 152 *)
Definition tri_outside (tri : triangulation) : list bool :=
  map (fun nb => Nat.ltb (length (filter (fun z => 0 <=? z)%Z nb)) 4) (neighbors tri).
(** neighbor_check, alpha_shape.py 84-86 and 159-161 *)
Definition neighbor_check (tri : triangulation) (probe : list bool) : list bool :=
  map (fun nb => existsb (fun z => negb (bget probe z) && bget (tri_outside tri) z) nb) (neighbors tri).
(** surface_tris, alpha_shape.py 89 and 164 *)
Definition surface_tris (tri : triangulation) (probe : list bool) : list bool :=
  mask_and probe (mask_or (tri_outside tri) (neighbor_check tri probe)).
(** out_points, alpha_shape.py 93-95 and 168-170 *)
Definition out_points (tri : triangulation) (probe : list bool) : list nat :=
  let sub_points := compress (surface_tris tri probe) (simplices tri) in
  let sub_neighbors := compress (surface_tris tri probe) (neighbors tri) in
  concat (map (fun sn => compress (map (fun z => negb ((z =? -1)%Z || negb (bget probe z))) (snd sn)) (fst sn))
              (combine sub_points sub_neighbors)).
(** a_tris, alpha_shape.py 105-106 and 180-181 *)
Definition alpha_tris (tri : triangulation) (probe : list bool) : list bool :=
  mask_not (mask_and (tri_outside tri) (mask_not probe)).

(** The returned surface indices and shape_dict: list(set(out_points)), tri,
    surface_tris and a_tris *)
Record shape := mkShape { sh_points : list nat; sh_tri : triangulation; sh_surface : list bool; sh_alpha : list bool }.
Definition shape_of (tri : triangulation) (probe : list bool) : shape :=
  mkShape (nodup Nat.eq_dec (out_points tri probe)) tri (surface_tris tri probe) (alpha_tris tri probe).

Section Algorithms.
Variable delaunay : list vec -> triangulation.
Definition perturb (points noise : list vec) : list vec :=
  map (fun pq => vadd (fst pq) (snd pq)) (combine points noise).
(** alpha_shape_alg_3D, alpha_shape.py 51-110; [n1] is 1e-4*rand, [n2] is 1e-10*rand *)
Definition alpha_shape (points : list vec) (probe : R) (n1 n2 : list vec) : shape :=
  let points := perturb points n1 in
  let tri := delaunay points in
  shape_of tri (probe_test (perturb points n2) probe tri).
(** alpha_shape_alg_3D_with_sampling, alpha_shape.py 113-185; [noises] is one array
    std*standard_normal per sample *)
Definition alpha_shape_sampled (points : list vec) (probe : R) (noises : list (list vec)) : res shape :=
  let tri := delaunay points in
  pt <- probe_test_sampled (map (perturb points) noises) probe tri ;;
  Ok (shape_of tri pt).
End Algorithms.
