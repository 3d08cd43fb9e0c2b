(** snap_plane_near_point of czone/volume/algebraic.py 422-494. *)
From Coq Require Import Reals List ZArith Bool String.
From Verif.Model Require Import Base Vec Algebraic Voxel Strain Generator.
Import ListNotations.
Open Scope R_scope.

(** mode: "nearest", "ceil", "floor"; any other string leaves new_point at zero.
    algebraic.py 463-479 *)
Inductive snap_mode := Nearest | Ceil | Floor | OtherMode.

(** One component of new_point: f is the fractional coordinate, h the Miller index,
    target = 1/h, rounding f/target and multiplying by target; a zero index (target
    infinite) keeps f.  algebraic.py 466-479 *)
Definition snap_coord (m : snap_mode) (f : R) (h : Z) : R :=
  match m with
  | OtherMode => 0
  | _ =>
      if (h =? 0)%Z then f
      else let target := / IZR h in
           let rnd := match m with Nearest => np_round | Ceil => round_away | _ => np_fix end in
           IZR (rnd (f / target)) * target
  end.

(** algebraic.py 422-494.  [miller] is the index triple; HStrain is the only strain
    field modelled.  The fractional coordinates are unbound for a strain field whose
    mode is not "crystal" (UnboundLocalError when a rounding mode reads them for some
    axis). *)
Definition snap_plane (point : vec) (g : crystal) (miller : Z * Z * Z) (m : snap_mode) : res plane :=
  let '(h, k, l) := miller in
  let hkl := mkV (IZR h) (IZR k) (IZR l) in
  let sb := sbases (g_voxel g) in
  fc <- match g_strain g with
        | None => rmap Some (solve sb point)
        | Some s => if String.eqb (hs_mode s) "crystal"
                    then rmap Some (solve (mm (hs_matrix s) sb) point)
                    else Ok None
        end ;;
  new <- match m, fc with
         | OtherMode, _ => Ok v0
         | _, None => Err UnboundLocalError
         | _, Some f => Ok (mkV (snap_coord m (vx f) h) (snap_coord m (vy f) k) (snap_coord m (vz f) l))
         end ;;
  match g_strain g with
  | None =>
      rb <- inv sb ;;
      new_plane (mv (mt rb) hkl) (mv sb new) default_tol
  | Some s =>
      let G := hs_matrix s in
      iv <- inv (mm sb G) ;;
      new_plane (mv (mt iv) hkl) (mv (mm G sb) new) default_tol
  end.
