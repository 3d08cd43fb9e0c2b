(** The settings of volumes and molecules that do not concern their shape: priority, hull
    tolerance, warnings.  czone/volume/volume.py 59-68, 131-158, 211-223, 403-410;
    czone/molecule/molecule.py 33-60, 154-164. *)
From Coq Require Import Reals List ZArith Bool.
From Verif.Model Require Import Base.
Import ListNotations.
Open Scope R_scope.

(** Values by the class that isinstance and issubdtype look at: int, bool, a numpy integer
    (np.int64 ...), float (np.float64 is a subclass of float), another numpy float (np.float32),
    anything else. *)
Inductive pyval := VInt (z : Z) | VBool (b : bool) | VNpInt (z : Z) | VFloat (r : R) | VNpFloat (r : R) | VOther.
(** isinstance(val, int): bool is a subclass of int, numpy integers are not *)
Definition is_int (v : pyval) : bool := match v with VInt _ | VBool _ => true | _ => false end.
(** np.issubdtype(type(val), np.integer): int becomes np.int_, bool becomes np.bool_ *)
Definition is_np_integer (v : pyval) : bool := match v with VInt _ | VNpInt _ => true | _ => false end.
(** isinstance(val, float) *)
Definition is_float (v : pyval) : bool := match v with VFloat _ => true | _ => false end.
(** isinstance(val, bool) *)
Definition is_bool (v : pyval) : bool := match v with VBool _ => true | _ => false end.

(** Volume, MultiVolume, Molecule.  Only volumes have a tolerance, only molecules a
    print_warnings property; on the others those names are plain attributes, which the code
    never reads (not modelled). *)
Inductive okind := KVolume | KMulti | KMolecule.
Record settings := mkSet { se_kind : okind; se_priority : pyval; se_tolerance : pyval; se_warn : pyval }.
Inductive set_op := SPriority (v : pyval) | STolerance (v : pyval) | SWarn (v : pyval).

(** the setters: volume.py 63-68 and 220-223, molecule.py 55-60 and 159-164 *)
Definition s_step (s : settings) (o : set_op) : settings * res unit :=
  let '(mkSet k p t w) := s in
  match o, k with
  | SPriority v, KMolecule => if is_np_integer v then (mkSet k v t w, Ok tt) else (s, Err TypeError)
  | SPriority v, _ => if is_int v then (mkSet k v t w, Ok tt) else (s, Err TypeError)
  | STolerance v, KVolume => if is_float v then (mkSet k p v w, Ok tt) else (s, Err AssertionError)
  | SWarn v, KMolecule => if is_bool v then (mkSet k p t v, Ok tt) else (s, Err TypeError)
  | _, _ => (s, Ok tt)
  end.
Definition s_run (s : settings) (h : list set_op) : settings := fold_left (fun s o => fst (s_step s o)) h s.

(** Volume(priority=p, tolerance=t), volume.py 131-158: the tolerance is stored as it is;
    MultiVolume(priority=p), 403-410; Molecule(...), molecule.py 33-39 (no priority argument). *)
Definition init_volume (p t : pyval) : res settings :=
  match s_step (mkSet KVolume (VInt 0) t (VBool true)) (SPriority p) with (s, Ok _) => Ok s | (_, Err e) => Err e end.
Definition init_multi (p : option pyval) : res settings :=
  let s0 := mkSet KMulti (VInt 0) (VFloat 0) (VBool true) in
  match p with None => Ok s0 | Some p => match s_step s0 (SPriority p) with (s, Ok _) => Ok s | (_, Err e) => Err e end end.
Definition init_molecule : settings := mkSet KMolecule (VInt 0) (VFloat 0) (VBool true).
