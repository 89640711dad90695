(** * Skin-to-skin distance of bodies made of circles *)
From Verif Require Export Spec.Plane.
Open Scope R_scope.

(** A circle: centre and radius; a body: a list of circles, the first being the
    torso whose centre is the position of the body. *)
Definition circle : Type := (vec * R)%type.

(** Gap between the skins of two circles (negative when they overlap). *)
Definition gap (c d : circle) : R := edist (fst c) (fst d) - (snd c + snd d).

(** [n] is the direction from [b] to [a]: [a - b = |a - b| n], of unit length
    unless the points coincide, then zero. *)
Definition direction_from_to (b a n : vec) : Prop :=
  V (vx a - vx b) (vy a - vy b) = V (edist a b * vx n) (edist a b * vy n) /\
  (a <> b -> is_unit n) /\ (a = b -> n = vzero).
