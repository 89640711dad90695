(** * Somebody alone on a way that is marked and free *)
From Verif Require Export Spec.Pace Spec.Overlap.
Open Scope R_scope.

(** The navigation map of the target [t] can be had, and says [u] at the point [p]. *)
Definition says (e : env) (t : Z) (u p : vec) : Prop :=
  exists m directions, e_nav e (1/10) (1/2) (3/10) t = Ok (m, directions) /\
  let '(column, row) := indicer m p in
  (0 <= row < Z.of_nat (rows directions))%Z /\ (0 <= column < Z.of_nat (cols directions))%Z /\
  at_ directions (Z.to_nat row) (Z.to_nat column) = Some u.
(** No point of a wall is nearer to [p] than [rho]. *)
Definition clear_of_walls (walls : list (obstacle)) (rho : R) (p : vec) : Prop :=
  forall o q, In o walls -> on_segment (p0 o) (p1 o) q -> rho <= edist p q.
(** Whichever way they face, nobody built like [a] reaches further than [rho] from their position. *)
Definition slim (k : kind) (a : agent) (rho : R) : Prop :=
  match k with
  | Circular => a_radius a <= rho
  | ThreeCircle => a_r_t a <= rho /\ Rabs (a_r_ts a) + a_r_s a <= rho
  end.
(** Where somebody who starts at [p] is after the time [t] if they walk at the pace [v] in
    the direction [u]. *)
Definition walked (p u : vec) (v t : R) : vec := V (vx p + t * (v * vx u)) (vy p + t * (v * vy u)).
(** How far from there they may be, as the random force, at most [3 * s] per mass, has it. *)
Definition leeway (tau s start t : R) : R := t * (tau * (3 * s)) + astray tau (3 * s) start.
(** How far the velocity of [a] is from the one they are told to have. *)
Definition off_told (a : agent) (u : vec) : R := elen (deviation (a_target_velocity a) u (a_velocity a)).
(** How far [p] is along the way that starts at [q] in the direction [u], and how far beside it. *)
Definition progress (q u p : vec) : R := (vx p - vx q) * vx u + (vy p - vy q) * vy u.
Definition beside (q u p : vec) : R := Rabs ((vx p - vx q) * vy u - (vy p - vy q) * vx u).
