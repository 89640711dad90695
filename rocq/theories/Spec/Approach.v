(** * Velocities approaching a target *)
From Verif Require Export Spec.Plane.
Open Scope R_scope.

(** Deviation of a velocity from the target velocity [v0] in direction [e0]. *)
Definition deviation (v0 : R) (e0 v : vec) : vec := V (vx v - v0 * vx e0) (vy v - v0 * vy e0).
(** [w] is [v] shortened by a factor of at most [c], keeping the direction. *)
Definition shrunk (c : R) (v w : vec) : Prop :=
  exists k, 0 < k <= c /\ w = V (k * vx v) (k * vy v).
