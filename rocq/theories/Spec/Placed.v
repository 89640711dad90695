(** * What it means that an array row holds a member of a group *)
From Verif Require Export Model.Placement.
Open Scope R_scope.

(** Row [a] is member [m] moved to a position the generator drew; only the
    position (and for three-circle agents the shoulders) may differ from the
    member handed in. *)
Definition placed_from (k : kind) (gen : nat -> option vec) (m : member) (a : agent) : Prop :=
  exists d p, gen d = Some p /\
    match k with
    | Circular => a = set_position p (m_row m)
    | ThreeCircle => exists l r, a = set_position_rs r (set_position_ls l (set_position p (m_row m)))
    end.

