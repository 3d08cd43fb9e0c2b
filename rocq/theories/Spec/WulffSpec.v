(** Specification vocabulary for Wulff constructions. *)
From Coq Require Import Reals List ZArith.
From Verif.Model Require Import Base Vec Algebraic Wulff.
Import ListNotations.
Open Scope R_scope.

(** The half space n.x < d of a facet, widened by the plane tolerance 1e-5. *)
Definition in_facet (f : facet) (x : vec) : Prop := dot (f_normal f) x < f_dist f + / 100000.
(** A plane bounding exactly the facet's half space. *)
Definition bounds (f : facet) (pl : plane) : Prop := forall x, plane_interior pl x = true <-> in_facet f x.
(** wulffpack normalises facet normals. *)
Definition unit_facets (fs : list facet) : Prop := Forall (fun f => norm (f_normal f) = 1) fs.

(** The j-th of n equal consecutive blocks of a list. *)
Definition block {A} (n j : nat) (l : list A) : list A :=
  firstn (length l / n) (skipn (j * (length l / n)) l).
