(** czone/surface/adsorbate.py.  Random numbers, the triangulation and pymatgen's
    element table are arguments. *)
From Coq Require Import String Reals List ZArith Bool.
From Verif.Model Require Import Base Vec Transform Volume Molecule AlphaShape.
Import ListNotations.
Open Scope R_scope.

(** sparse_matrix_from_tri, adsorbate.py 39-49: the entry mat[a,b] after the loops *)
Definition graph_entry (tets : list (list nat)) (a b : nat) : bool :=
  existsb (fun s =>
    existsb (fun i =>
      existsb (fun j =>
        let ii := nth i s 0%nat in let jj := nth j s 0%nat in
        (Nat.eqb a ii && Nat.eqb b jj) || (Nat.eqb a jj && Nat.eqb b ii))
        (seq (i + 1) (4 - (i + 1))))
      (seq 0 4)) tets.
(** N = np.max(simplices)+1; ValueError on an empty array *)
Definition graph_size (tets : list (list nat)) : res nat :=
  match concat tets with
  | [] => Err ValueError
  | x :: xs => Ok (fold_left Nat.max xs x + 1)%nat
  end.
(** graph @ v, adsorbate.py 141-142.  The float vector of walk counts is modelled by
    exact integers. *)
Definition graph_mul (tets : list (list nat)) (v : list Z) : list Z :=
  map (fun i => fold_right Z.add 0%Z (map (fun j => if graph_entry tets i j then nth j v 0%Z else 0%Z) (seq 0 (length v))))
      (seq 0 (length v)).
Fixpoint set_nth {A} (i : nat) (x : A) (l : list A) : list A :=
  match l, i with
  | [], _ => []
  | _ :: t, O => x :: t
  | y :: t, S i' => y :: set_nth i' x t
  end.
(** get_nearest_neighbors once the graph is built, adsorbate.py 138-145: [N] is its size
    and [tets] the groups of four vertices joined with each other.  [target] is a
    non-negative index. *)
Definition walk_shells (N : nat) (tets : list (list nat)) (target N_shells : nat) : res (list nat) :=
  if Nat.leb N target then Err IndexError else
  let v := set_nth target 1%Z (repeat 0%Z N) in
  let v := Nat.iter N_shells (graph_mul tets) v in
  let v := set_nth target 0%Z v in
  Ok (filter (fun i => negb (nth i v 0 =? 0)%Z) (seq 0 N)).
(** The (1,K,4) array that the selection by a tuple of indices gives (adsorbate.py 135:
    shape_dict["a_tris"] is what np.nonzero returns, a tuple holding one array).  The loop
    of sparse_matrix_from_tri then runs once, with s the whole (K,4) array: s[i] is row i,
    and mat[s[i], s[j]] = 1 joins the k-th vertex of tetrahedron i with the k-th of
    tetrahedron j, for i < j < 4.  Column k of the first four rows plays the part of a
    tetrahedron. *)
Definition first_columns (sel : list (list nat)) : list (list nat) :=
  map (fun k => map (fun i => nth k (nth i sel []) 0%nat) (seq 0 4)) (seq 0 4).
(** get_nearest_neighbors, adsorbate.py 112-145; with surface_only=False and fewer than four
    tetrahedra s[j] raises IndexError *)
Definition get_nearest_neighbors (target : nat) (sh : shape) (N_shells : nat) (surface_only : bool) : res (list nat) :=
  let sel := compress (if surface_only then sh_surface sh else sh_alpha sh) (simplices (sh_tri sh)) in
  N <- graph_size sel ;;
  if surface_only then walk_shells N sel target N_shells
  else if Nat.ltb (length sel) 4 then Err IndexError
  else walk_shells N (first_columns sel) target N_shells.

(** find_approximate_normal, adsorbate.py 51-110.  [sequence] is the array of drawn
    indices, so its length is max_steps.  w is [None] once it has become NaN (the
    comparison w @ x >= margin is then always false); an entry of w_list is [None]
    when it is NaN. *)
Section Normal.
Variables (points : list vec) (decay tol margin : R).
Definition w_init : vec := mkV (/ 10 ^ 10) (/ 10 ^ 10) (/ 10 ^ 10).
Definition normal_update (w : option vec) (x : vec) (j : nat) : option (option vec * option R) :=
  match w with
  | None => None
  | Some w =>
      if Rleb margin (dot w x) then
        let w_new := vsub w (vscale (decay ^ j) x) in
        if Reqb (norm w_new) 0 then Some (None, None)
        else Some (Some (vscale (/ norm w_new) w_new), Some (dot w_new w / (norm w_new * norm w)))
      else None
  end.
Definition above (x : option R) : bool := match x with Some r => Rltb (1 - tol) r | None => false end.
(** [wl] is w_list reversed *)
Definition stop_now (wl : list (option R)) : bool := Nat.ltb 5 (length wl) && forallb above (firstn 5 wl).
Fixpoint normal_loop (sequence : list nat) (w : option vec) (j : nat) (wl : list (option R)) : res (option vec) :=
  match sequence with
  | [] => Err IndexError
  | k :: rest =>
      let '(w, j, wl) :=
        match normal_update w (nth k points v0) j with
        | Some (w', d) => (w', S j, d :: wl)
        | None => (w, j, wl)
        end in
      if stop_now wl then Ok w else
      match rest with [] => Ok w | _ => normal_loop rest w j wl end
  end.
Definition find_approximate_normal (sequence : list nat) : res (option vec) :=
  normal_loop sequence (Some w_init) 0 [].
End Normal.

(** [sub] occurs in [s]: Python's  sub in s *)
Fixpoint str_in (sub s : string) : bool :=
  String.prefix sub s || match s with EmptyString => false | String _ t => str_in sub t end.
(** The values a filter may carry; element symbols have been replaced by their atomic
    numbers (pymatgen, external). *)
Inductive filter_val :=
| FNumbers (zs : list Z)
| FMask (m : list bool)
| FFun (f : list vec -> list bool).
(** np.logical_and of two masks of the same length *)
Definition mask_and_chk (a b : list bool) : res (list bool) :=
  if Nat.eqb (length a) (length b) then Ok (mask_and a b) else Err ValueError.
(** One iteration of the filter loop, adsorbate.py 210-226.  A value of another kind than
    documented for its key is TypeError here (numpy would accept some of them, such as a
    mask given as indices). *)
Definition apply_filter (atoms : list vec) (species : list Z) (valid : list bool) (kv : string * filter_val) : res (list bool) :=
  let '(key, val) := kv in
  if str_in "element" key then
    match val with
    | FNumbers [] => Err TypeError
    | FNumbers zs => mask_and_chk valid (map (fun s => existsb (Z.eqb s) zs) species)
    | _ => Err TypeError
    end
  else if str_in "mask" key then
    match val with FMask m => mask_and_chk valid m | _ => Err TypeError end
  else if str_in "indices" key then
    match val with
    | FNumbers zs =>
        js <- mapM (py_index (length atoms)) zs ;;
        mask_and_chk valid (map (fun i => existsb (Nat.eqb i) js) (seq 0 (length atoms)))
    | _ => Err TypeError
    end
  else if str_in "spatial" key then
    match val with FFun f => mask_and_chk valid (f atoms) | _ => Err TypeError end
  else Ok valid.
(** The candidate indices, adsorbate.py 205-228 *)
Definition candidates (atoms : list vec) (species : list Z) (surface_ind : list nat) (filters : list (string * filter_val)) : res (list nat) :=
  let valid := map (fun i => existsb (Nat.eqb i) surface_ind) (seq 0 (length atoms)) in
  valid <- foldM (apply_filter atoms species) filters valid ;;
  Ok (compress valid (seq 0 (length atoms))).

(** Neighbour vectors scaled as in adsorbate.py 236-242; ValueError from np.min on an
    empty array, NaN when an atom coincides with the target *)
Definition neighbor_vectors (atoms : list vec) (target : nat) (nn : list nat) : res (list vec) :=
  let pos := map (fun i => vsub (nth i atoms v0) (nth target atoms v0)) nn in
  match map norm pos with
  | [] => Err ValueError
  | n :: ns =>
      if existsb (fun r => Reqb r 0) (n :: ns) then Err NaNValue else
      let mn := fold_left Rmin ns n in
      Ok (map (fun p => vscale (/ ((norm p / mn) ^ 2)) (vscale (/ mn) p)) pos)
  end.
(** np.max over the margins *)
Definition max_margin (w : vec) (nn : list vec) : R :=
  match map (dot w) nn with [] => 0 | m :: ms => fold_left Rmax ms m end.
(** The margin loop, adsorbate.py 245-261.  [seqs] holds, per iteration, the index
    sequence drawn from the seeded generator; [j] counts down from 10. *)
Fixpoint margin_loop (nn : list vec) (seqs : list (list nat)) (best : R) (j : nat) (w : option vec) : res (option vec) :=
  match j with
  | O => Ok w
  | S j' =>
      match seqs with
      | [] => Err NeedMore
      | s :: rest =>
          w <- find_approximate_normal nn (95 / 100) (/ 10 ^ 4) best s ;;
          match w with
          | None => margin_loop nn rest best j' w
          | Some wv =>
              let m := max_margin wv nn in
              if Rltb m best then margin_loop nn rest m 10 w else margin_loop nn rest best j' w
          end
      end
  end.

(** From the chosen target and normal to the result, adsorbate.py 264-292.  The
    matrices of NaNs make Rotation() fail its assertions. *)
Definition place_adsorbate (wd : world) (vol : volume) (mol : molecule) (adsorbate_idx : pyidx) (bond_length : R)
    (mol_vector : vec) (mol_rotation : R) (target : vec) (normal : option vec) : res (molecule * bool) :=
  let '(mol_out, r) := set_origin_idx mol adsorbate_idx in
  _ <- r ;;
  match normal with
  | None => Err AssertionError
  | Some normal =>
    let m_vec := mv (m_orient mol_out) mol_vector in
    o <- mol_origin mol_out ;;
    match rot_vtv m_vec normal with
    | None => Err AssertionError
    | Some R1 =>
      rot <- new_rotation R1 (Some o) true false ;;
      mol_out <- mol_transform mol_out rot true ;;
      o <- mol_origin mol_out ;;
      match rot_v normal mol_rotation with
      | None => Err AssertionError
      | Some R2 =>
        rot <- new_rotation R2 (Some o) true false ;;
        mol_out <- mol_transform mol_out rot true ;;
        let new_origin := vadd target (vscale bond_length normal) in
        o <- mol_origin mol_out ;;
        mol_out <- mol_transform mol_out (TTranslation (vsub new_origin o) true false) true ;;
        Ok (mol_out, forallb negb (vol_check wd vol (m_atoms mol_out)))
      end
    end
  end.

(** add_adsorbate, adsorbate.py 147-292 (debug=False).  [sh] is the alpha shape of the
    volume's atoms, [pick] the position drawn by rng.choice, [seqs] the index
    sequences; ValueError when there is nothing to choose from. *)
Definition add_adsorbate (wd : world) (vol : volume) (sh : shape) (pick : nat) (seqs : list (list nat))
    (mol : molecule) (adsorbate_idx : pyidx) (bond_length : R) (mol_vector : vec) (mol_rotation : R)
    (filters : list (string * filter_val)) (N_shells : nat) (surface_only : bool) : res (nat * (molecule * bool)) :=
  let atoms := vol_atoms vol in
  cand <- candidates atoms (vol_species vol) (sh_points sh) filters ;;
  target <- match nth_error cand pick with Some t => Ok t | None => Err ValueError end ;;
  nn <- get_nearest_neighbors target sh N_shells surface_only ;;
  vecs <- neighbor_vectors atoms target nn ;;
  normal <- margin_loop vecs seqs 0 10 None ;;
  r <- place_adsorbate wd vol mol adsorbate_idx bond_length mol_vector mol_rotation (nth target atoms v0) normal ;;
  Ok (target, r).
