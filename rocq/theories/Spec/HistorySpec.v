(** What a history of assignments leaves behind. *)
From Coq Require Import List.
Import ListNotations.

(** [last_of sel b h x]: x is what the last step of the history h that [sel] recognises
    assigns, or b if there is no such step. *)
Inductive last_of {A B} (sel : A -> option B) : B -> list A -> B -> Prop :=
| last_none b : last_of sel b [] b
| last_set b h o x : last_of sel b h x -> forall y, sel o = Some y -> last_of sel b (h ++ [o]) y
| last_keep b h o x : last_of sel b h x -> sel o = None -> last_of sel b (h ++ [o]) x.
