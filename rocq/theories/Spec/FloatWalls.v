(** * Walls parallel to an axis *)
From Verif Require Export Model.Agent Model.Geom2D Spec.Doubles Spec.FloatPush.
Open Scope R_scope.

(** [hypot] of a vector along an axis is exact (Annex F of the C standard). *)
Definition exact_on_axes (hypot : R -> R -> R) : Prop := forall d, double d -> hypot 0 d = Rabs d /\ hypot d 0 = Rabs d.
(** The wall lies on the line whose coordinate [across] is [c], and the agent is beside it:
    the coordinate [along] is between those of the ends. *)
Definition beside (along across : vec -> R) (o : obstacle) (c : R) (a : agent) : Prop :=
  across (p0 o) = c /\ across (p1 o) = c /\ along (p0 o) <> along (p1 o) /\
  Rmin (along (p0 o)) (along (p1 o)) <= along (a_position a) <= Rmax (along (p0 o)) (along (p1 o)).
Definition axes (along across : vec -> R) : Prop := (along = vx /\ across = vy) \/ (along = vy /\ across = vx).
Definition wall_doubles (o : obstacle) : Prop := vdouble (p0 o) /\ vdouble (p1 o).
Definition body_doubles (a : agent) : Prop :=
  vdouble (a_position a) /\ vdouble (a_velocity a) /\ vdouble (a_force a) /\ double (a_radius a) /\ double (a_mu a) /\ double (a_kappa a) /\ double (a_damping a).
(** No computed length is below a coordinate. *)
Definition above_coordinates (hypot : R -> R -> R) : Prop := forall x y, double x -> double y -> Rabs x <= hypot x y /\ Rabs y <= hypot x y.
(** The wall lies on the line whose coordinate [across] is [c]. *)
Definition on_line (along across : vec -> R) (o : obstacle) (c : R) : Prop :=
  across (p0 o) = c /\ across (p1 o) = c /\ along (p0 o) <> along (p1 o).
