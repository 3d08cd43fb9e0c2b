(** Histories of transformations of moderate size. *)
From Coq Require Import Reals List ZArith.
From Verif.Model Require Import Base Vec Algebraic Transform Voxel Generator Volume.
From Verif.Spec Require Import FloatSpec.
Import ListNotations.
Open Scope R_scope.

(** the elementary transformations behind a (nested) MultiTransform, in order *)
Fixpoint elementary (t : transform) : list transform :=
  match t with
  | TMulti ts => flat_map elementary ts
  | _ => [t]
  end.
(** where a point is, exactly, after the elementary transformations [ts] *)
Definition exact_place (ts : list transform) (p : vec) : vec := fold_left (fun q t => apply_pt t q) ts p.

Definition origin_within (B : R) (o : option vec) : Prop :=
  match o with Some o => norm o <= B | None => True end.
(** An elementary transformation with shift and origin at most B from zero.  A matrix
    lengthens no vector by more than the factor 1 + d; the normal of a mirror plane has
    length 1 up to rounding. *)
Definition tame (d B : R) (t : transform) : Prop :=
  match t with
  | TTranslation s _ _ => norm s <= B
  | TMatrix m o _ _ => (forall x, norm (mv m x) <= (1 + d) * norm x) /\ origin_within B o
  | TInversion o _ _ => origin_within B o
  | TReflection pl _ _ => Rabs (norm (p_normal pl) - 1) <= / 2 ^ 50 /\ norm (p_point pl) <= B
  | TMulti _ => False
  end.
(** the point never gets further than B from zero on its way *)
Definition stays (B : R) (ts : list transform) (p : vec) : Prop :=
  forall before after, ts = before ++ after -> norm (exact_place before p) <= B.
(** the displacement allowed for n steps *)
Definition allowed (d B : R) (n : nat) : R := INR n * (1 + d) ^ n * (/ 2 ^ 40 * B).

(** the cell vectors *)
Definition cell_vectors (b : mat) : list vec := [r0 (mt b); r1 (mt b); r2 (mt b)].
(** the cell vectors of [b] never get longer than A under [ts] *)
Definition cell_within (A : R) (ts : list transform) (b : mat) : Prop :=
  forall before after, ts = before ++ after ->
    Forall (fun c => norm c <= A) (cell_vectors (apply_bases (TMulti before) b)).

(** ** Surfaces *)
(** A matrix shortens no vector by more than the factor 1 - d. *)
Definition stiff (d : R) (t : transform) : Prop :=
  match t with TMatrix m _ _ _ => forall x, (1 - d) * norm x <= norm (mv m x) | _ => True end.
(** the centre of a ball, the point of a plane, the midpoint of a cylinder *)
Definition anchor (a : alg) : vec :=
  match a with ASphere s => s_center s | APlane p => p_point p | ACyl c => c_point c end.
(** the normal of a plane and the axis of a cylinder; a ball has none *)
Definition heading (a : alg) : option vec :=
  match a with ASphere _ => None | APlane p => Some (p_normal p) | ACyl c => Some (c_axis c) end.
(** both have length 1 up to rounding and point the same way up to [e] *)
Definition headings_near (e : R) (n n' : option vec) : Prop :=
  match n, n' with
  | None, None => True
  | Some n, Some n' => Rabs (norm n - 1) <= / 2 ^ 50 /\ Rabs (norm n' - 1) <= / 2 ^ 50 /\ dist n n' <= e
  | _, _ => False
  end.
(** same kind of surface with the same radius, length and tolerance *)
Definition same_make (a b : alg) : Prop :=
  match a, b with
  | ASphere s, ASphere s' => s_radius s' = s_radius s /\ s_tol s' = s_tol s
  | APlane p, APlane p' => p_tol p' = p_tol p
  | ACyl c, ACyl c' => c_radius c' = c_radius c /\ c_length c' = c_length c /\ c_tol c' = c_tol c
  | _, _ => False
  end.
(** the turn allowed for the direction of a surface in n steps *)
Definition allowed_turn (d : R) (n : nat) : R := INR n * (1 + (3 * d + / 2 ^ 40)) ^ n * / 2 ^ 39.

(** ** A volume and the crystal in it, moved together *)
(** [ts] is a history of rigid or nearly rigid motions of moderate size; it takes the
    surfaces of [l] to [moved] and the crystal [g] to [g'] in exact arithmetic.  Cell
    vectors stay shorter than A, everything else stays within B of zero. *)
Definition carried (d A B : R) (ts : list transform) (l : leaf) (moved : list alg) (g g' : crystal) : Prop :=
  let all := flat_map elementary ts in
  0 <= d <= / 4 /\ 1 <= A /\ 1 <= B <= 2 ^ 19 /\
  Forall (tame d B) all /\ Forall (stiff d) all /\ INR (length all) * (1 + d) ^ length all <= 2 ^ 40 /\
  l_points l = PNone /\ l_tri l = None /\
  Forall (fun a => moderate a /\ stays B all (anchor a)) (l_alg l) /\
  Forall2 (fun a a' => apply_alg (TMulti ts) a = Ok a') (l_alg l) moved /\
  foldM crystal_transform ts g = Ok g' /\ vo_scale (g_voxel g') = SAll 1 /\
  cell_within A all (vo_bases (g_voxel g)) /\
  stays B (flat_map elementary (filter (fun t => negb (basis_only t)) ts)) (vo_origin (g_voxel g)).
(** the displacement allowed for the site with coordinates [f] in cell [k] *)
Definition site_drift (d A B : R) (n : nat) (k : Z * Z * Z) (f : vec) : R :=
  let '(a, b, c) := k in
  (Rabs (IZR a + vx f) + Rabs (IZR b + vy f) + Rabs (IZR c + vz f)) * allowed d A n + allowed d B n.
(** sites that are not too many cells away, for cell vectors no longer than A *)
Definition moderate_site (A : R) (k : Z * Z * Z) (f : vec) : Prop :=
  let '(a, b, c) := k in
  (Rabs (IZR a) + Rabs (vx f) + (Rabs (IZR b) + Rabs (vy f)) + (Rabs (IZR c) + Rabs (vz f))) * A <= 2 ^ 21.
(** as many species as sites, and a cell whose volume is not lost when its vectors, no
    longer than A, are displaced by e *)
Definition solid_cell (A e : R) (g : crystal) : Prop :=
  length (st_frac (g_structure g)) = length (st_numbers (g_structure g)) /\
  7 * (A * A * e) < Rabs (det (vo_bases (g_voxel g))).
