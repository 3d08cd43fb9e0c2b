(** What a program told an object, and which of its arrays and planes it then left alone. *)
From Coq Require Import Reals List Arith.
From Verif.Model Require Import Base Vec Voxel Algebraic Transform TransformObj Sharing.
Import ListNotations.

(** The assignments of a history, each with the values the arrays and planes had then.
    Writing into an array keeps its shape (numbers that do not fit are refused). *)
Fixpoint said (c : client) (h : list event) : list t_op :=
  match h with
  | [] => []
  | e :: h =>
      match e with
      | GiveShift i => SetShift (c_arr c i) :: said c h
      | GiveMatrix i => SetMatrix false (c_arr c i) :: said c h
      | GiveOrigin i => SetOrigin (c_arr c i) :: said c h
      | GivePlane j => SetPlane (Some (c_plane c j)) :: said c h
      | GiveLocked b => SetLocked b :: said c h
      | GiveBasisOnly b => SetBasisOnly b :: said c h
      | MovePlane j p => said (mkC (c_arr c) (fun k => if Nat.eqb j k then p else c_plane c k)) h
      | Write i d =>
          if Nat.eqb (length d) (length (a_data (c_arr c i)))
          then said (mkC (fun k => if Nat.eqb i k then mkArr (a_shape (c_arr c i)) d else c_arr c k) (c_plane c)) h
          else said c h
      end
  end.
(** No array is written to after it was given as a matrix. *)
Definition matrices_left_alone (h : list event) : Prop :=
  forall h1 i h2 d h3, h <> h1 ++ GiveMatrix i :: h2 ++ Write i d :: h3.
Definition planes_left_alone (h : list event) : Prop :=
  forall h1 j h2 p h3, h <> h1 ++ GivePlane j :: h2 ++ MovePlane j p :: h3.
