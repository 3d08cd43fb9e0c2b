(** Conflict resolution between objects by priority.
    czone/scene/scene.py 111-164 (Scene._get_priorities, Scene.populate) and
    czone/volume/volume.py 433-455, 479-503 (MultiVolume._get_priorities,
    MultiVolume.populate_atoms) contain the same code; both are instances of the
    definitions below.

    [Ob] is the type of objects, [Pt] of positions, [Sp] of species numbers; [prio],
    [atoms], [species], [inside] are the object's priority, atoms, species and
    checkIfInterior (point-wise). *)
From Coq Require Import List ZArith Bool.
From Verif.Model Require Import Base.
Import ListNotations.

Section Prio.
Context {Ob Pt Sp : Type}.
Variable prio : Ob -> Z.
Variable atoms : Ob -> list Pt.
Variable species : Ob -> list Sp.
Variable inside : Ob -> Pt -> bool.

(** list.sort(key=lambda ob: ob.priority): Python's sort is stable; a stable
    sort has exactly one result, here computed by insertion.
    scene.py 122, volume.py 444 *)
Fixpoint insert_by (x : Ob) (l : list Ob) : list Ob :=
  match l with
  | [] => [x]
  | y :: t => if (prio x <=? prio y)%Z then x :: l else y :: insert_by x t
  end.
Fixpoint sort_by (l : list Ob) : list Ob :=
  match l with
  | [] => []
  | x :: t => insert_by x (sort_by t)
  end.

(** np.unique(plevels, return_index=True)[1]: for each distinct value in
    ascending order, the index of its first occurrence.  numpy sorts the values;
    here the distinct values are inserted into an ascending list together with
    the first index at which they occur.  scene.py 126, volume.py 448 *)
Fixpoint unique_insert (v : Z) (i : nat) (l : list (Z * nat)) : list (Z * nat) :=
  match l with
  | [] => [(v, i)]
  | (w, j) :: t =>
      if (v <? w)%Z then (v, i) :: l
      else if (v =? w)%Z then (w, Nat.min i j) :: t
      else (w, j) :: unique_insert v i t
  end.
Fixpoint unique_from (i : nat) (l : list Z) : list (Z * nat) :=
  match l with
  | [] => []
  | v :: t => unique_insert v i (unique_from (S i) t)
  end.
Definition np_unique_index (l : list Z) : list nat := map snd (unique_from 0 l).

(** rel_plevels[i:] += 1   scene.py 129, volume.py 451 *)
Fixpoint bump_from (i : nat) (l : list nat) : list nat :=
  match i, l with
  | _, [] => []
  | O, x :: t => S x :: bump_from O t
  | S i', x :: t => x :: bump_from i' t
  end.

(** scene.py 127-129, volume.py 449-451 *)
Definition rel_plevels (n : nat) (idx : list nat) : list nat :=
  fold_left (fun r i => bump_from i r) (tl idx) (repeat O n).

(** np.append(idx, len(objects))   scene.py 131, volume.py 453 *)
Definition offsets (n : nat) (idx : list nat) : list nat := idx ++ [n].

(** Scene._get_priorities applied to the (already sorted) list.
    scene.py 122-133, volume.py 443-455 *)
Definition get_priorities (objs : list Ob) : list nat * list nat :=
  let plevels := map prio objs in
  let idx := np_unique_index plevels in
  (rel_plevels (length objs) idx, offsets (length objs) idx).

(** objects[j].checkIfInterior(ob.atoms)   scene.py 161, volume.py 495.  The numpy code
    computes a mask for the whole array; that this is the row-by-row answer is theorem
    C17_batch_is_pointwise for volumes, and Molecule.checkIfInterior is constant. *)
Definition interior_mask (o : Ob) (pts : list Pt) : list bool := map (inside o) pts.

(** The inner loop  for j in range(eidx): if i != j: check = ...
    scene.py 158-162, volume.py 492-496 *)
Definition check_object (objs : list Ob) (i : nat) (ob : Ob) (eidx : nat) : list bool :=
  fold_left
    (fun check jo =>
       let '(j, oj) := jo in
       if Nat.eqb i j then check
       else mask_and check (mask_not (interior_mask oj (atoms ob))))
    (firstn eidx (combine (seq 0 (length objs)) objs))
    (ones (length (atoms ob))).

(** The outer loop of populate; [objs] is the sorted list.
    scene.py 152-164, volume.py 486-498 *)
Definition checks (objs : list Ob) : list (list bool) :=
  let '(rel, offs) := get_priorities objs in
  map (fun io => let '(i, ob) := io in
                 check_object objs i ob (nth (S (nth i rel 0)) offs 0))
      (combine (seq 0 (length objs)) objs).

(** [ob.atoms[checks[i],:] for i, ob in enumerate(objects)] stacked.
    scene.py 86-93 (vstack/hstack), volume.py 500-503 *)
Definition stack_atoms (objs : list Ob) (cks : list (list bool)) : list Pt :=
  concat (map (fun co => compress (fst co) (atoms (snd co))) (combine cks objs)).
Definition stack_species (objs : list Ob) (cks : list (list bool)) : list Sp :=
  concat (map (fun co => compress (fst co) (species (snd co))) (combine cks objs)).

End Prio.
