(** Vocabulary for the defect prefabs: which member of a group provides a position,
    and how the defect planes cut the host. *)
From Coq Require Import Reals List ZArith.
From Verif.Model Require Import Base Vec Algebraic Generator Volume Misc Snap.
Import ListNotations.
Open Scope R_scope.

(** Member number k provides position p: it contains p and no other member whose
    priority number is smaller or equal does (the rule of C05). *)
Definition serves (w : world) (vols : list volume) (k : nat) (p : vec) : Prop :=
  exists v, nth_error vols k = Some v /\ vol_inside w v p = true /\
    forall j u, j <> k -> nth_error vols j = Some u -> (vol_prio u <= vol_prio v)%Z -> vol_inside w u p = false.

(** p is on the interior side of the plane (opposite to its normal, up to the plane's
    tolerance): the plane is above p. *)
Definition below (pl : plane) (p : vec) : Prop := dot (vsub p (p_point pl)) (p_normal pl) < p_tol pl.
(** height of a plane along its normal *)
Definition height (pl : plane) : R := dot (p_point pl) (p_normal pl).

(** Grain k is the one delimited by the lowest defect plane above p; grain 0 is the
    one above all planes.  Coinciding planes are told apart by their position. *)
Definition lowest_above (defects : list plane) (p : vec) (k : nat) : Prop :=
  match k with
  | O => forall pl, In pl defects -> ~ below pl p
  | S j => exists pl, nth_error defects j = Some pl /\ below pl p /\
             forall i pl', nth_error defects i = Some pl' -> below pl' p -> height pl <= height pl' /\ (i <= j)%nat
  end.

(** A host whose interior test is the one of a fresh volume made of the same points and
    surfaces: no points, or the triangulation of its points and the default tolerance. *)
Definition pristine (l : leaf) : Prop :=
  (l_points l = PNone /\ l_tri l = None) \/
  (exists pts, l_points l = PArr pts /\ l_tri l = Some pts /\ l_tol l = / 10 ^ 10).

(** mirror image in a plane with unit normal *)
Definition mirror (pl : plane) (p : vec) : vec :=
  vsub p (vscale (2 * dot (vsub p (p_point pl)) (p_normal pl)) (p_normal pl)).

(** face-centred cubic translations in fractional coordinates of the cubic cell: half
    integers whose doubles have an even sum *)
Definition fcc_vector (x : vec) : Prop :=
  exists a b c, x = vscale (1 / 2) (mkV (IZR a) (IZR b) (IZR c)) /\ Z.even (a + b + c) = true.
(** cubic cell: a rotated (or reflected), uniformly scaled cube *)
Definition cubic (B : mat) : Prop := exists s, s <> 0 /\ mm B (mt B) = mscale (s * s) mI /\ mm (mt B) B = mscale (s * s) mI.
(** one of the eight {111} planes *)
Definition is_111 (h : Z * Z * Z) : Prop :=
  let '(a, b, c) := h in (a * a = 1 /\ b * b = 1 /\ c * c = 1)%Z.

(** number of twins among the first k random numbers: those not below the ratio *)
Definition twins (ratio : R) (us : list R) (k : nat) : nat :=
  length (filter (fun u => if Rlt_dec u ratio then false else true) (firstn k us)).
(** (1/3)[1 1 -2] with the signs of the plane's indices, in fractional coordinates *)
Definition partial_112 (h : Z * Z * Z) : vec :=
  let '(a, b, c) := h in mkV (IZR (Z.sgn a) / 3) (IZR (Z.sgn b) / 3) (-2 * IZR (Z.sgn c) / 3).

(** d is the spacing of the planes with Miller indices h in the lattice of structure s:
    one over the length of the reciprocal vector, the G whose products with the lattice
    vectors (the rows of the matrix) are the indices. *)
Definition interplanar (s : structure) (h : Z * Z * Z) (d : R) : Prop :=
  let '(a, b, c) := h in
  det (st_matrix s) <> 0 /\ exists G, mv (st_matrix s) G = mkV (IZR a) (IZR b) (IZR c) /\ d = / norm G.

(** The two ends between which planes are laid, in direction n: the poles, about the
    coordinate origin, of the last sphere of the host, or else its lowest and highest
    point. *)
Inductive ends (n : vec) (l : leaf) : vec -> vec -> Prop :=
| ends_sphere pre s post : l_alg l = pre ++ ASphere s :: post -> (forall s', ~ In (ASphere s') post) ->
    (l_points l = PNone \/ exists p ps, l_points l = PArr (p :: ps)) ->
    ends n l (vscale (- s_radius s) n) (vscale (s_radius s) n)
| ends_points pts lo hi : l_points l = PArr pts -> (forall s, ~ In (ASphere s) (l_alg l)) ->
    In lo pts -> In hi pts -> (forall p, In p pts -> dot n lo <= dot n p <= dot n hi) -> ends n l lo hi.
(** The number of planes laid between the ends: the floor and ceil planes of
    snap_plane_near_point, and one every spacing between them. *)
Definition stack_count (g : crystal) (h : Z * Z * Z) (lo hi : vec) (count : Z) : Prop :=
  exists sp ep d, snap_plane lo g h Floor = Ok sp /\ snap_plane hi g h Ceil = Ok ep /\ interplanar (g_structure g) h d /\
    count = (1 + np_round (dist_from_plane ep (p_point sp) / d))%Z.

(** numpy.allclose with its default tolerances, b being the reference *)
Definition points_close (a b : vec) : Prop :=
  Rabs (vx a - vx b) <= / 10 ^ 8 + / 10 ^ 5 * Rabs (vx b) /\
  Rabs (vy a - vy b) <= / 10 ^ 8 + / 10 ^ 5 * Rabs (vy b) /\
  Rabs (vz a - vz b) <= / 10 ^ 8 + / 10 ^ 5 * Rabs (vz b).
