(** What the assignments to a prefab mean. *)
From Coq Require Import Reals List ZArith.
From Flocq Require Import Core.
From Verif.Model Require Import Base Vec Algebraic Voxel Generator Volume PrefabObj.
Import ListNotations.
Open Scope R_scope.

(** the number of defects an assignment asks for: floats are cut off towards zero *)
Definition asks_N (s : setting) : option Z :=
  match s with
  | SetN (NInt z) => Some z
  | SetN (NBool b) => Some (if b then 1 else 0)%Z
  | SetN (NFloat r) => Some (Ztrunc r)
  | _ => None
  end.
(** the least separation: whole numbers only *)
Definition asks_sep (s : setting) : option Z :=
  match s with
  | SetSep (NInt z) => Some z
  | SetSep (NBool b) => Some (if b then 1 else 0)%Z
  | _ => None
  end.
(** the plane: any, but that of the wurtzite prefab is fixed *)
Definition asks_plane (k : prefab_kind) (s : setting) : option (Z * Z * Z) :=
  match k, s with KWurtzite, _ => None | _, SetPlane h => Some h | _, _ => None end.
(** a number as a real *)
Definition real_of (v : num) : option R :=
  match v with NInt z => Some (IZR z) | NBool b => Some (if b then 1 else 0) | NFloat r => Some r | NOther => None end.
(** the ratio: a number from 0 to 1; only the mixed prefab listens *)
Definition asks_ratio (k : prefab_kind) (s : setting) : option R :=
  match k, s with
  | KMixed, SetRatio v =>
      match real_of v with
      | Some r => if Rle_dec 0 r then if Rle_dec r 1 then Some r else None else None
      | None => None
      end
  | _, _ => None
  end.
Definition asks_gen (s : setting) : option (option crystal) := match s with SetGen (Some g) => Some (Some g) | _ => None end.
Definition asks_vol (s : setting) : option (option volume) := match s with SetVol (Some v) => Some (Some v) | _ => None end.
(** assignments that are refused, with the exception *)
Definition refusal (k : prefab_kind) (s : setting) : option exn :=
  match s with
  | SetN NOther => Some TypeError
  | SetSep (NFloat _) | SetSep NOther => Some AssertionError
  | SetPlane _ => match k with KWurtzite => Some AttributeError | _ => None end
  | SetRatio v =>
      match k with
      | KMixed => match real_of v with
                  | None => Some TypeError
                  | Some r => if Rle_dec 0 r then if Rle_dec r 1 then None else Some AssertionError else Some AssertionError
                  end
      | _ => None
      end
  | SetGen None | SetVol None => Some AssertionError
  | _ => None
  end.
(** a program that assigns one attribute after another, going on after refusals *)
Definition settings_after (p : prefab) (h : list setting) : prefab := fold_left (fun p s => fst (set_setting p s)) h p.
Definition axes_after (b : boundary) (h : list axis_setting) : boundary := fold_left (fun b s => fst (set_axis b s)) h b.
(** a list that names a zone axis *)
Definition names_axis (l : list R) (z : vec) : Prop := l = [vx z; vy z; vz z].
