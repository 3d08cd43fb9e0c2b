(** czone/transform/strain.py *)
From Coq Require Import Reals List Bool ZArith String.
From Verif.Model Require Import Base Vec Voxel.
Import ListNotations.
Open Scope R_scope.

(** HStrain state.  [hs_bases] is None until scrape_params has been called in
    crystal mode.  strain.py 88-117.  [hs_generator_origin] is origin_type ==
    "generator". *)
Record hstrain := mkH {
  hs_matrix : mat; hs_origin : vec; hs_generator_origin : bool;
  hs_mode : string; hs_bases : option mat }.

(** The values accepted by HStrain.matrix: 3, 3x3, 9 or 6 (Voigt) numbers. *)
Inductive strain_arg :=
| St3 (a : vec) | St33 (m : mat) | St9 (a b c d e f g h i : R) | St6 (a b c d e f : R)
| StBad.
(** HStrain.matrix setter, strain.py 128-144 *)
Definition strain_matrix (a : strain_arg) : res mat :=
  match a with
  | St3 v => Ok (mkM (mkV (vx v) 0 0) (mkV 0 (vy v) 0) (mkV 0 0 (vz v)))
  | St33 m => Ok m
  | St9 a b c d e f g h i => Ok (mkM (mkV a b c) (mkV d e f) (mkV g h i))
  | St6 a b c d e f => Ok (mkM (mkV a f e) (mkV f b d) (mkV e d c))
  | StBad => Err ValueError
  end.

(** [np.squeeze(np.array(vals))], strain.py 129: axes of length one are dropped;
    the shape that is left decides the branch taken in lines 130-144. *)
Definition squeeze (shape : list nat) : list nat :=
  filter (fun n => negb (Nat.eqb n 1)) shape.
Definition strain_arg_of (a : nparray) : strain_arg :=
  match squeeze (a_shape a) with
  | [3%nat] => St3 (mkV (at_ a 0) (at_ a 1) (at_ a 2))
  | [3%nat; 3%nat] => St33 (mkM (mkV (at_ a 0) (at_ a 1) (at_ a 2)) (mkV (at_ a 3) (at_ a 4) (at_ a 5)) (mkV (at_ a 6) (at_ a 7) (at_ a 8)))
  | [9%nat] => St9 (at_ a 0) (at_ a 1) (at_ a 2) (at_ a 3) (at_ a 4) (at_ a 5) (at_ a 6) (at_ a 7) (at_ a 8)
  | [6%nat] => St6 (at_ a 0) (at_ a 1) (at_ a 2) (at_ a 3) (at_ a 4) (at_ a 5)
  | _ => StBad
  end.
(** Assignment to HStrain.matrix, strain.py 128-144: the strain afterwards and how
    the assignment ended *)
Definition set_strain_matrix (h : hstrain) (a : nparray) : hstrain * res unit :=
  match strain_matrix (strain_arg_of a) with
  | Ok m => (mkH m (hs_origin h) (hs_generator_origin h) (hs_mode h) (hs_bases h), Ok tt)
  | Err e => (h, Err e)
  end.

(** BaseStrain.mode setter, strain.py 75-80: the condition
    [val == "crystal" or "standard"] is always true. *)
Definition set_mode (h : hstrain) (m : string) : res hstrain :=
  if (String.eqb m "crystal" || negb (String.eqb "standard" ""))%bool
  then Ok (mkH (hs_matrix h) (hs_origin h) (hs_generator_origin h) m (hs_bases h))
  else Err ValueError.

(** HStrain.__init__, strain.py 101-117; [origin = None] is origin="generator".  For an
    array, [origin != "generator"] is True with the numpy (< 1.22) that setup.py asks
    for; later versions of numpy compare element by element, which is not modelled. *)
Definition new_hstrain (a : option strain_arg) (origin : option vec) (mode : string) : res hstrain :=
  m <- match a with None => Ok mI | Some a => strain_matrix a end ;;
  set_mode (mkH m (match origin with Some o => o | None => v0 end)
                (match origin with Some _ => false | None => true end) mode None) mode.

(** BaseStrain.scrape_params, strain.py 40-50 *)
Definition scrape_params (h : hstrain) (v : voxel) : hstrain :=
  mkH (hs_matrix h)
      (if hs_generator_origin h then vo_origin v else hs_origin h)
      (hs_generator_origin h) (hs_mode h)
      (if String.eqb (hs_mode h) "crystal" then Some (sbases v) else hs_bases h).

(** HStrain.apply_strain, strain.py 149-164: row vectors,
    sp @ inv(bases).T @ matrix @ bases.T  (or  sp @ matrix), about the origin.
    inv(None) raises LinAlgError in numpy. *)
Definition apply_strain (h : hstrain) (pts : list vec) : res (list vec) :=
  if String.eqb (hs_mode h) "crystal" then
    match hs_bases h with
    | None => Err LinAlgError
    | Some b =>
        bi <- inv b ;;
        Ok (map (fun p => vadd (vm (vm (vm (vsub p (hs_origin h)) (mt bi)) (hs_matrix h)) (mt b))
                               (hs_origin h)) pts)
    end
  else Ok (map (fun p => vadd (vm (vsub p (hs_origin h)) (hs_matrix h)) (hs_origin h)) pts).

(** Positional arguments of numpy.random.rand: integers are dimensions, anything
    else (here: a tuple) raises TypeError. *)
Inductive pyarg := PyInt (n : nat) | PyTuple (l : list nat).
Definition np_random_rand (args : list pyarg) : res (list nat) :=
  mapM (fun a => match a with PyInt n => Ok n | PyTuple _ => Err TypeError end) args.

(** IStrain state: which attributes have been assigned. *)
Record istrain (F K : Type) := mkI { is_fun : option F; is_kwargs : option K }.
Arguments mkI {F K}. Arguments is_fun {F K}. Arguments is_kwargs {F K}.

(** IStrain.strain_fun setter, strain.py 221-232.  [call f shape kw] is the shape
    of the result of the user's function on an array of that shape.
    "np.random.rand((100, 3))" passes a tuple; only AssertionError is caught. *)
Definition set_strain_fun {F K} (call : F -> list nat -> K -> res (list nat))
           (s : istrain F K) (f : F) : res (istrain F K) :=
  ref_arr <- np_random_rand [PyTuple [100; 3]%nat] ;;
  kw <- match is_kwargs s with Some k => Ok k | None => Err AttributeError end ;;
  test_arr <- call f ref_arr kw ;;
  if list_eq_dec Nat.eq_dec test_arr [100; 3]%nat
  then Ok (mkI (Some f) (is_kwargs s)) else Err ValueError.

(** IStrain.__init__, strain.py 183-198: strain_fun is assigned first (with the
    user's function or the identity lambda), fun_kwargs last. *)
Definition new_istrain {F K} (call : F -> list nat -> K -> res (list nat)) (identity : F)
           (f : option F) (kwargs : K) : res (istrain F K) :=
  s <- set_strain_fun call (mkI None None) (match f with Some f => f | None => identity end) ;;
  Ok (mkI (is_fun s) (Some kwargs)).
