(** czone/transform/post.py *)
From Coq Require Import Reals List ZArith Bool.
From Verif.Model Require Import Base Vec.
Import ListNotations.
Open Scope R_scope.

(** ChemicalSubstitution, ArbitraryPostTransform, PostSequence; post.py 36, 61, 68 *)
Inductive post :=
| PChem (target substitute : list Z) (frac : R)
| PArb (f : list vec -> list Z -> list vec * list Z)
| PSeq (ts : list post).

(** ChemicalSubstitution.__init__, post.py 38-42 *)
Definition new_chem (target substitute : list Z) (frac : R) : res post :=
  if Nat.eqb (length target) (length substitute) then Ok (PChem target substitute frac)
  else Err AssertionError.

(** One pass  out[(species == t) & (probs <= frac)] = s , post.py 50-53; [u] is the
    array of uniform draws of this pass. *)
Definition chem_pass (u : nat -> R) (frac : R) (t s : Z) (species out : list Z) : list Z :=
  map (fun iso => let '(i, (so, o)) := iso in
                  if (so =? t)%Z && Rleb (u i) frac then s else o)
      (combine (seq 0 (length species)) (combine species out)).

(** ChemicalSubstitution._replace_species, post.py 44-55.  [rng k i] is entry i of
    the k-th uniform array drawn from the generator made by default_rng(seed). *)
Definition replace_species (rng : nat -> nat -> R) (target substitute : list Z) (frac : R)
           (species : list Z) : list Z :=
  fold_left (fun out kts => let '(k, (t, s)) := kts in chem_pass (rng k) frac t s species out)
            (combine (seq 0 (length target)) (combine target substitute)) species.

(** apply_function, post.py 57-58, 65-66, 94-99.  [mk c] is the c-th random generator
    created during the call: with an explicit seed all of them are the same stream,
    with seed=None they differ.  The counter is threaded through. *)
Fixpoint apply_post (mk : nat -> nat -> nat -> R) (t : post)
         (c : nat) (ps : list vec) (ss : list Z) : nat * (list vec * list Z) :=
  match t with
  | PChem target substitute frac => (S c, (ps, replace_species (mk c) target substitute frac ss))
  | PArb f => (c, f ps ss)
  | PSeq ts => fold_left (fun st t' => apply_post mk t' (fst st) (fst (snd st)) (snd (snd st)))
                         ts (c, (ps, ss))
  end.

(** PostSequence.add_transform, post.py 78-92 (a single transform or a list) *)
Definition seq_add (t : post) (new : list post) : post :=
  match t with PSeq ts => PSeq (ts ++ new) | _ => t end.
