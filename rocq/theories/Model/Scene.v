(** czone/scene/scene.py *)
From Coq Require Import String Reals List ZArith Bool.
From Verif.Model Require Import Base Vec Voxel Generator Volume Molecule Priority.
Import ListNotations.
Open Scope R_scope.

(** What add_object accepts (scene.py 61-72); other objects are silently ignored. *)
Inductive sobj := SVol (v : volume) | SMol (m : molecule).
Definition ob_prio (o : sobj) : Z := match o with SVol v => vol_prio v | SMol m => m_prio m end.
(** ob.atoms / ob.species; None when the object was never populated *)
Definition ob_result (o : sobj) : option (list vec * list Z) :=
  match o with SVol v => vol_result v | SMol m => Some (m_atoms m, m_species m) end.
Definition ob_atoms (o : sobj) : list vec := match ob_result o with Some r => fst r | None => [] end.
Definition ob_species (o : sobj) : list Z := match ob_result o with Some r => snd r | None => [] end.
Definition ob_inside (w : world) (o : sobj) (p : vec) : bool :=
  match o with SVol v => vol_inside w v p | SMol m => mol_inside m p end.
Definition ob_populate (w : world) (c : nat) (o : sobj) : res (nat * sobj) :=
  match o with
  | SVol v => r <- vol_populate w c v ;; Ok (fst r, SVol (snd r))
  | SMol m => Ok (c, SMol m)
  end.

(** Scene state, scene.py 24-43; [sc_objects] is None until an object is added *)
Record scene := mkScene {
  sc_lo : vec; sc_hi : vec;
  sc_objects : option (list sobj);
  sc_checks : option (list (list bool)) }.

(** add_object, scene.py 61-72 *)
Definition add_object (s : scene) (o : sobj) : scene :=
  mkScene (sc_lo s) (sc_hi s)
          (Some (match sc_objects s with None => [o] | Some l => l ++ [o] end))
          (sc_checks s).

(** __init__, scene.py 24-43: bounds default to those of makeRectPrism(10,10,10) *)
Definition new_scene (bounds : option (vec * vec)) (objs : list sobj) : scene :=
  let b := match bounds with
           | Some b => b
           | None => match makeRectPrism 10 10 10 None with
                     | p :: ps => (rows_min p ps, rows_max p ps)
                     | [] => (v0, v0)
                     end
           end in
  fold_left add_object objs (mkScene (fst b) (snd b) None None).

(** populate, scene.py 135-164: iterating over None raises TypeError *)
Definition populate (w : world) (c : nat) (s : scene) : res (nat * scene) :=
  match sc_objects s with
  | None => Err TypeError
  | Some objs =>
      r <- mapMS (ob_populate w) c objs ;;
      let sorted := sort_by ob_prio (snd r) in
      Ok (fst r, mkScene (sc_lo s) (sc_hi s) (Some sorted)
                         (Some (checks ob_prio ob_atoms (ob_inside w) sorted)))
  end.

(** ob.atoms: None for a Volume that was never populated (volume.py 142), while a
    MultiVolume then has no such attribute (403-410).  ob.species: no such attribute before
    the first populate_atoms (353, 502).  Molecules always have both. *)
Definition read_atoms (o : sobj) : res (option (list vec)) :=
  match ob_result o, o with
  | Some r, _ => Ok (Some (fst r))
  | None, SVol (VLeaf _) => Ok None
  | None, _ => Err AttributeError
  end.
Definition read_species (o : sobj) : res (option (list Z)) :=
  match ob_result o with Some r => Ok (Some (snd r)) | None => Err AttributeError end.

(** [read(ob)[self._checks[i]] for i, ob in enumerate(self.objects)], scene.py 86-87,
    92-93, from left to right: the attribute, then _checks[i] (TypeError when it is None,
    IndexError when a mask is missing), then indexing (TypeError for None). *)
Fixpoint select {A} (read : sobj -> res (option (list A))) (cks : option (list (list bool)))
         (objs : list sobj) : res (list (list A)) :=
  match objs with
  | [] => Ok []
  | o :: rest =>
      v <- read o ;;
      m <- match cks with
           | None => Err TypeError
           | Some [] => Err IndexError
           | Some (m :: _) => Ok m
           end ;;
      a <- match v with
           | None => Err TypeError
           | Some l => index_mask l m
           end ;;
      rs <- select read (match cks with Some (_ :: ms) => Some ms | c => c end) rest ;;
      Ok (a :: rs)
  end.
(** np.vstack / np.hstack of a list of blocks: at least one is needed *)
Definition np_stack {A} (blocks : list (list A)) : res (list A) :=
  match blocks with [] => Err ValueError | _ => Ok (concat blocks) end.

(** all_atoms, scene.py 83-87 *)
Definition all_atoms (s : scene) : res (list vec) :=
  match sc_objects s with
  | None => Err TypeError
  | Some objs => b <- select read_atoms (sc_checks s) objs ;; np_stack b
  end.
(** all_species, scene.py 89-93 *)
Definition all_species (s : scene) : res (list Z) :=
  match sc_objects s with
  | None => Err TypeError
  | Some objs => b <- select read_species (sc_checks s) objs ;; np_stack b
  end.
(** species_from_object, scene.py 103-109, for a non-negative index *)
Definition species_from_object (s : scene) (i : nat) : res (list vec) :=
  match sc_objects s with
  | None => Err TypeError
  | Some objs =>
      match nth_error objs i with
      | None => Err IndexError
      | Some o =>
          v <- read_atoms o ;;
          m <- match sc_checks s with
               | None => Err TypeError
               | Some cks => match nth_error cks i with Some m => Ok m | None => Err IndexError end
               end ;;
          match v with None => Err TypeError | Some l => index_mask l m end
      end
  end.

(** ASE Atoms(symbols, positions, cell), scene.py 95-101 *)
Record ase := mkAse { ase_symbols : list Z; ase_positions : list vec; ase_cell : vec }.
Definition ase_atoms (s : scene) : res ase :=
  sp <- all_species s ;;
  at_ <- all_atoms s ;;
  Ok (mkAse sp at_ (vsub (sc_hi s) (sc_lo s))).

(** to_file, scene.py 166-187.  The keyword arguments are the optional format, the
    optional debye_waller_factors and the rest (irrelevant, omitted).  The result is
    the list of ase.io.write calls made: images, format and Debye-Waller factors. *)
Record write_call := mkWrite { wr_images : ase; wr_format : option string; wr_dwf : option (list (Z * R)) }.
Definition dw_default : R := (1 / 10) * (1 / 10) * 8 * (PI * PI).
Definition to_file (s : scene) (format : option string) (user_dwf : option (list (Z * R)))
  : res (list write_call) :=
  match format with
  | Some f =>
      if String.eqb f "prismatic" then
        sp <- all_species s ;;
        let dwf := map (fun z => (z, dw_default)) (nodup Z.eq_dec sp) in
        im <- ase_atoms s ;;
        match user_dwf with
        | Some _ => Err TypeError   (* debye_waller_factors given twice *)
        | None => Ok [mkWrite im format (Some dwf)]
        end
      else Ok []
  | None => im <- ase_atoms s ;; Ok [mkWrite im None user_dwf]
  end.
