(** * Agents on whom nothing acts, and bodies made of explicit values *)
From Verif Require Export Model.Validation Model.Simulation Spec.Crowds Spec.Loads.
Open Scope R_scope.

(** No force and no torque is pending; nothing the equations of motion divide by is zero. *)
Definition calm (k : kind) (a : agent) : Prop :=
  a_force a = V 0 0 /\ a_force_prev a = V 0 0 /\ a_mass a <> 0 /\ a_tau_adj a <> 0 /\
  (k = ThreeCircle -> a_torque a = 0 /\ a_torque_prev a = 0 /\ a_inertia_rot a <> 0 /\ a_tau_rot a <> 0).

(** [b] is [a] after moving for the time [t] along a straight line, turning steadily. *)
Definition gone (k : kind) (t : R) (a b : agent) : Prop :=
  a_velocity b = a_velocity a /\
  a_position b = V (vx (a_position a) + t * vx (a_velocity a)) (vy (a_position a) + t * vy (a_velocity a)) /\
  (k = ThreeCircle -> a_angular_velocity b = a_angular_velocity a /\
     exists turns : Z, a_orientation b = a_orientation a + t * a_angular_velocity a + 2 * PI * IZR turns).

(** The value an argument list gives a trait whose default is 0. *)
Definition value_of (items : list (bfield * R)) (f : bfield) (v : R) : Prop :=
  In (f, v) items \/ (v = 0 /\ ~ In f (map fst items)).
(** The traits that are values themselves, not means or scales to draw from. *)
Definition explicit (f : bfield) : Prop := In f [Radius; RatioRt; RatioRs; RatioTs; Mass; TargetVelocity].
(** The ranges of the traits. *)
Definition trait_range (f : bfield) (v : R) : Prop :=
  0 <= v /\ (In f [RatioRt; RatioRs; RatioTs] -> v <= 1).
(** A body whose parts are proportional to its radius and whose inertia is that of its mass
    and size. *)
Definition proportioned (b : bodyt) : Prop :=
  b_r_t b = b_ratio_rt b * b_radius b /\ b_r_s b = b_ratio_rs b * b_radius b /\ b_r_ts b = b_ratio_ts b * b_radius b /\
  b_inertia_rot b = 4 * PI * (b_mass b / 80) * (b_radius b / (27/100)) ^ 2.

(** The person of the validation simulations, at [p] and looking to [phi]. *)
Definition test_person (k : kind) (phi : R) (p : vec) (a : agent) : Prop :=
  a_active a = true /\ a_target a = (-1)%Z /\ a_is_leader a = false /\ (a_is_follower a = false /\ a_index_leader a = (-1)%Z /\ a_tau_0 a = 3) /\
  a_radius a = 255/1000 /\ a_mass a = 735/10 /\ a_target_velocity a = 1 /\
  a_r_t a = 5882/10000 * (255/1000) /\ a_r_s a = 3725/10000 * (255/1000) /\ a_r_ts a = 6275/10000 * (255/1000) /\
  a_position a = p /\ walks k phi a /\ calm k a /\
  (k = ThreeCircle -> xs_of a = T3 p (V (vx p - a_r_ts a * sin phi) (vy p + a_r_ts a * cos phi))
                                     (V (vx p + a_r_ts a * sin phi) (vy p - a_r_ts a * cos phi))).

(** ** Somebody alone outdoors *)
From Verif Require Export Spec.Approach Spec.Pairs.
(** Nothing is pending, the divisors are positive and the time to adjust is at least one time
    step. *)
Definition fit (k : kind) (a : agent) : Prop :=
  a_force a = V 0 0 /\ a_force_prev a = V 0 0 /\ 0 < a_mass a /\ 1/100 <= a_tau_adj a /\ 0 <= a_std_rand_force a /\
  (k = ThreeCircle -> a_inertia_rot a <> 0 /\ a_tau_rot a <> 0).
(** The draws of the truncated normal are from [0, 3]. *)
Definition fair_draws (draws : nat -> nat -> R * R * R) : Prop := forall n i, 0 <= snd (fst (draws n i)) <= 3.
(** How far the velocity is from the one the agent wants. *)
Definition off_course (a : agent) : R := elen (deviation (a_target_velocity a) (a_target_direction a) (a_velocity a)).
(** The bound after [n] steps of 1/100, with [h] steps per time to adjust and random
    accelerations up to [b]: what is left of the start, and what the fluctuation keeps up. *)
Definition course_bound (tau b : R) (start : R) (n : nat) : R :=
  let h := 1/100 / tau in
  (1 - h + h ^ 2 / 2) ^ (n / 3) * (start + 2 * (1/100) * b) + tau * b * ((1 + h / 2) / (1 - h / 2)).
