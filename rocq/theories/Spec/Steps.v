(** * Uniformly accelerated motion and repeated steps *)
From Verif Require Export Spec.Overlap Model.Integrator.
Open Scope R_scope.

(** Position, velocity and angle after time [t] under constant acceleration. *)
Definition uniform_position (x v acc : vec) (t : R) : vec :=
  V (vx x + vx v * t + vx acc * (t * t) / 2) (vy x + vy v * t + vy acc * (t * t) / 2).
Definition uniform_velocity (v acc : vec) (t : R) : vec :=
  V (vx v + vx acc * t) (vy v + vy acc * t).
Definition uniform_angle (phi w alpha t : R) : R := phi + w * t + alpha * (t * t) / 2.

(** Newton's second law. *)
Definition acceleration (a : agent) : vec := V (vx (a_force a) / a_mass a) (vy (a_force a) / a_mass a).
Definition angular_acceleration (a : agent) : R := a_torque a / a_inertia_rot a.

(** Equal up to full turns. *)
Definition same_angle (x y : R) : Prop := exists k : Z, x = y + 2 * PI * IZR k.

(** The fields of an agent that moving it must not change: all except position,
    velocity, orientation, angular velocity, shoulders, and the remembered force
    and torque of the previous step. *)
Definition kept (a : agent) :=
  (a_active a, a_target_reached a, a_target a, a_is_leader a, a_is_follower a, a_index_leader a,
   a_familiar_exit a, (a_radius a, a_r_t a, a_r_s a, a_r_ts a, a_mass a, a_inertia_rot a,
   a_target_velocity a, a_target_angular_velocity a, a_target_direction a, a_force a),
   (a_tau_adj a, a_k_soc a, a_tau_0 a, a_mu a, a_kappa a, a_damping a, a_std_rand_force a,
   a_target_orientation a, a_torque a, a_tau_rot a, a_std_rand_torque a)).
(** The fields of rotational motion. *)
Definition rotation_state (a : agent) := (a_orientation a, a_angular_velocity a, a_torque_prev a, a_position_ls a, a_position_rs a).

(** [n] steps of an integrator with the forces left as they are; [None] when a
    step raises or leaves a row that is not a number. *)
Fixpoint all_numbers (l : list (option agent)) : option (list agent) :=
  match l with
  | [] => Some []
  | Some a :: l => match all_numbers l with Some l => Some (a :: l) | None => None end
  | None :: _ => None
  end.
Fixpoint run_steps (integrate : list agent -> res (R * list (option agent))) (n : nat) (agents : list agent) : option (list agent) :=
  match n with
  | O => Some agents
  | S n => match integrate agents with
           | Ok (_, l) => match all_numbers l with Some l => run_steps integrate n l | None => None end
           | Err _ => None
           end
  end.

(** Greatest element of a set. *)
Definition is_greatest (P : R -> Prop) (m : R) : Prop := P m /\ forall x, P x -> x <= m.

(** Agents the integrators can divide by: mass and moment of inertia not zero. *)
Definition rotatable (k : kind) (agents : list agent) : Prop :=
  k = ThreeCircle -> forall a, In a agents -> a_inertia_rot a <> 0.
Definition movable (k : kind) (a : agent) : Prop := a_mass a <> 0 /\ (k = ThreeCircle -> a_inertia_rot a <> 0).

(** One step of the rotational part of a simulation: torques reset, adjusting
    torque added, array integrated. *)
Definition turn_step (dt_min dt_max : R) (agents : list agent) : res (R * list (option agent)) :=
  match torque_adjust_agents (map (set_torque 0) agents) with
  | (Some e, _) => Err e
  | (None, l) => velocity_verlet_integrator ThreeCircle l dt_min dt_max
  end.
