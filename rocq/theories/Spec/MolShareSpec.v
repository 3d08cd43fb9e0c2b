(** What a program told a molecule, and which arrays it wrote to. *)
From Coq Require Import Reals List Arith ZArith.
From Verif.Model Require Import Base Vec Molecule MolShare.
Import ListNotations.

(** the program's own arrays as it goes along *)
Definition mine_step (f : nat -> list vec) (e : mevent) : nat -> list vec :=
  match e with WriteMine b i v => upd_fun f b (put_row i v (f b)) | _ => f end.
Definition mats_step (f : nat -> mat) (e : mevent) : nat -> mat :=
  match e with WriteMat i r => upd_fun f i r | _ => f end.
(** The calls of a history, each with the values the arrays had then. *)
Fixpoint told (ms : nat -> mat) (mine : nat -> list vec) (h : list mevent) : list mol_op :=
  match h with
  | [] => []
  | e :: h =>
      (match e with
       | GiveAtoms s b => [OSetAtoms s (mine b)]
       | GivePositions b => [OUpdatePositions (mine b)]
       | GiveOrient i => [OOrient (ms i)]
       | Call o => [o]
       | _ => []
       end) ++ told (mats_step ms e) (mine_step mine e) h
  end.
(** No matrix is written to after it was given as an orientation. *)
Definition orients_left_alone (h : list mevent) : Prop :=
  forall h1 i h2 r h3, h <> h1 ++ GiveOrient i :: h2 ++ WriteMat i r :: h3.
(** Nothing read from the molecule is written to. *)
Definition writes_back (e : mevent) : Prop := match e with WriteGot _ _ _ | WriteOrigin _ => True | _ => False end.
(** the same molecule but for its orientation *)
Definition same_but_orient (m m' : molecule) : Prop :=
  m_species m = m_species m' /\ m_atoms m = m_atoms m' /\ m_tracking m = m_tracking m' /\ m_origin m = m_origin m' /\
  m_oidx m = m_oidx m' /\ m_prio m = m_prio m'.
