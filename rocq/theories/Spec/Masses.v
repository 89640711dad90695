(** * Everything heavier by the same factor *)
From Verif Require Export Spec.Parts.
Open Scope R_scope.

(** The same agent in a unit of mass that is [c] times smaller: mass, rotational inertia,
    the constants of contact (newtons per metre and the like), forces and torques are [c]
    times as large. *)
Definition heavier (c : R) (a : agent) : agent := {|
  a_active := a_active a;
  a_target_reached := a_target_reached a;
  a_target := a_target a;
  a_is_leader := a_is_leader a;
  a_is_follower := a_is_follower a;
  a_index_leader := a_index_leader a;
  a_familiar_exit := a_familiar_exit a;
  a_radius := a_radius a;
  a_r_t := a_r_t a;
  a_r_s := a_r_s a;
  a_r_ts := a_r_ts a;
  a_mass := c * a_mass a;
  a_inertia_rot := c * a_inertia_rot a;
  a_target_velocity := a_target_velocity a;
  a_target_angular_velocity := a_target_angular_velocity a;
  a_position := a_position a;
  a_velocity := a_velocity a;
  a_target_direction := a_target_direction a;
  a_force := V (c * vx (a_force a)) (c * vy (a_force a));
  a_force_prev := V (c * vx (a_force_prev a)) (c * vy (a_force_prev a));
  a_tau_adj := a_tau_adj a;
  a_k_soc := a_k_soc a;
  a_tau_0 := a_tau_0 a;
  a_mu := c * a_mu a;
  a_kappa := c * a_kappa a;
  a_damping := c * a_damping a;
  a_std_rand_force := a_std_rand_force a;
  a_orientation := a_orientation a;
  a_angular_velocity := a_angular_velocity a;
  a_target_orientation := a_target_orientation a;
  a_torque := c * a_torque a;
  a_torque_prev := c * a_torque_prev a;
  a_tau_rot := a_tau_rot a;
  a_std_rand_torque := a_std_rand_torque a;
  a_position_ls := a_position_ls a;
  a_position_rs := a_position_rs a |}.
Definition heavier_sim (c : R) (s : sim) : sim :=
  Sim (map (heavier c) (s_agents s)) (s_dt s) (s_time s) (s_inactive s) (s_draws s).
(** The social force on two agents. *)
Definition social (k : kind) : agent -> agent -> res (vec * vec) :=
  match k with Circular => force_social_circular | ThreeCircle => force_social_three_circle end.
(** No social force reaches the limit of 2000, neither in the one unit nor in the other. *)
Definition below_limit (c : R) (k : kind) (agents : list agent) : Prop :=
  forall a b fa fb, In a agents -> In b agents -> social k a b = Ok (fa, fb) ->
  Rmax 1 c * elen fa < 2000 /\ Rmax 1 c * elen fb < 2000.
