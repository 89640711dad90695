(** * Words for histories of a field *)
From Verif Require Export Model.Field.

(** Target numbers that are integers, or the words; floats are left out. *)
Definition whole (i : index) : Prop := match i with Float _ => False | _ => True end.

(** Queries whose target, if they have one, is such. *)
Definition whole_query (q : query) : Prop :=
  match q with QPath _ i _ => whole i | QNavigation i _ _ _ => whole i | _ => True end.

(** None, or a geometry that is valid and not empty. *)
Definition proper (G : Type) (is_valid is_empty : G -> bool) (v : option G) : Prop :=
  forall g, v = Some g -> is_valid g = true /\ is_empty g = false.
