(** What the settings accept, and what they are after a history of assignments. *)
From Coq Require Import Reals List ZArith.
From Verif.Model Require Import Base Settings.
Import ListNotations.
Open Scope R_scope.

(** whole numbers of any class, and their values *)
Inductive whole : pyval -> Z -> Prop := whole_int z : whole (VInt z) z | whole_np z : whole (VNpInt z) z.
(** numbers of any class *)
Inductive real_number : pyval -> R -> Prop :=
| rn_int z : real_number (VInt z) (IZR z) | rn_np z : real_number (VNpInt z) (IZR z) | rn_float r : real_number (VFloat r) r | rn_npf r : real_number (VNpFloat r) r.

(** the values each kind of object takes for its priority *)
Definition takes_priority (k : okind) (v : pyval) : Prop :=
  match k with
  | KMolecule => exists z, v = VInt z \/ v = VNpInt z
  | _ => (exists z, v = VInt z) \/ (exists b, v = VBool b)
  end.
Inductive priority_given (k : okind) : set_op -> pyval -> Prop := pg v : takes_priority k v -> priority_given k (SPriority v) v.
Inductive tolerance_given : set_op -> pyval -> Prop := tg r : tolerance_given (STolerance (VFloat r)) (VFloat r).
Inductive warn_given : set_op -> pyval -> Prop := wg b : warn_given (SWarn (VBool b)) (VBool b).
