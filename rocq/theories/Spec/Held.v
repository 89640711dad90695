(** * A single walker at a wall *)
From Verif Require Export Spec.Limits.
Open Scope R_scope.

(** How far [x] is to the left of the line through the wall, seen from its first end to its
    second; negative to the right. *)
Definition off (o : obstacle) (x : vec) : R :=
  ((vx (p1 o) - vx (p0 o)) * (vy x - vy (p0 o)) - (vy (p1 o) - vy (p0 o)) * (vx x - vx (p0 o))) / edist (p0 o) (p1 o).
(** The foot of the perpendicular from [x] to that line lies on the wall. *)
Definition beside (o : obstacle) (x : vec) : Prop :=
  exists q, on_segment (p0 o) (p1 o) q /\ (vx x - vx q) * (vx (p1 o) - vx (p0 o)) + (vy x - vy q) * (vy (p1 o) - vy (p0 o)) = 0.

(** A person as the shipped body types describe them, with the shipped constants of the contact
    force, of adjusting and of the random force. *)
Definition pedestrian (a : agent) : Prop :=
  50 <= a_mass a <= 90 /\ 0 <= a_target_velocity a <= 155/100 /\ 15/100 <= a_radius a /\
  a_mu a = 120000 /\ a_kappa a = 40000 /\ a_damping a = 500 /\ a_tau_adj a = 1/2 /\ 0 <= a_std_rand_force a <= 1/10.

(** Agent [i] has nobody within 3 m, touches none of the [others], and is beside the wall
    [o]. *)
Definition only_wall (e : env) (i : nat) (o : obstacle) (others : list obstacle) (s : sim) : Prop :=
  company (e_kind e) (s_agents s) i 0 /\
  forall a, nth_error (s_agents s) i = Some a -> beside o (a_position a) /\
    forall w, In w others -> p0 w <> p1 w -> ~ body_hits_wall (body (e_kind e) a) (p0 w) (p1 w).

(** The foot of the perpendicular is at least [d] from both ends of the wall. *)
Definition well_beside (o : obstacle) (d : R) (x : vec) : Prop :=
  exists q, on_segment (p0 o) (p1 o) q /\ (vx x - vx q) * (vx (p1 o) - vx (p0 o)) + (vy x - vy q) * (vy (p1 o) - vy (p0 o)) = 0 /\
    d <= edist q (p0 o) /\ d <= edist q (p1 o).
(** How far somebody walking at speed [v] comes along a wall in [n] updates at most. *)
Definition slide (v : R) (n : nat) : R := INR n / 100 * (v + 34/1000 * INR n).
