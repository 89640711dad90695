(** * Rows of the agent array

    simulation/agents.py:32-61 (States), 63-95 (Body), 195-257
    (TranslationalMotion), 260-292 (RotationalMotion), 393-399 (shoulders of
    ThreeCircle); the row type is the structured dtype built by
    [AgentType.dtype] (agents.py:299-307).

    Simplification: one record serves both agent types.  Rows of circular
    agents do not have the fields from [a_orientation] on; no function of the
    model reads or writes them for circular agents. *)
From Verif Require Export Model.Distance.
Open Scope R_scope.

(** agents.py:447-457: the two agent types an array can hold. *)
Inductive kind : Type := Circular | ThreeCircle.
Definition kind_eqb (a b : kind) : bool :=
  match a, b with
  | Circular, Circular | ThreeCircle, ThreeCircle => true
  | _, _ => false
  end.
(** agents.py:460-470 [is_model] (dtypes are compared by hash; hashes of the two
    dtypes are taken to differ). *)
Definition is_model (k m : kind) : bool := kind_eqb k m.

Record agent : Type := Agent {
  a_active : bool;
  a_target_reached : bool;
  a_target : Z;
  a_is_leader : bool;
  a_is_follower : bool;
  a_index_leader : Z;
  a_familiar_exit : Z;
  a_radius : R;
  a_r_t : R;
  a_r_s : R;
  a_r_ts : R;
  a_mass : R;
  a_inertia_rot : R;
  a_target_velocity : R;
  a_target_angular_velocity : R;
  a_position : vec;
  a_velocity : vec;
  a_target_direction : vec;
  a_force : vec;
  a_force_prev : vec;
  a_tau_adj : R;
  a_k_soc : R;
  a_tau_0 : R;
  a_mu : R;
  a_kappa : R;
  a_damping : R;
  a_std_rand_force : R;
  a_orientation : R;
  a_angular_velocity : R;
  a_target_orientation : R;
  a_torque : R;
  a_torque_prev : R;
  a_tau_rot : R;
  a_std_rand_torque : R;
  a_position_ls : vec;
  a_position_rs : vec
}.

(** [np.zeros(1, dtype)] (agents.py:645): every field zero. *)
Definition zero_row : agent := {|
  a_active := false;
  a_target_reached := false;
  a_target := 0%Z;
  a_is_leader := false;
  a_is_follower := false;
  a_index_leader := 0%Z;
  a_familiar_exit := 0%Z;
  a_radius := 0;
  a_r_t := 0;
  a_r_s := 0;
  a_r_ts := 0;
  a_mass := 0;
  a_inertia_rot := 0;
  a_target_velocity := 0;
  a_target_angular_velocity := 0;
  a_position := vzero;
  a_velocity := vzero;
  a_target_direction := vzero;
  a_force := vzero;
  a_force_prev := vzero;
  a_tau_adj := 0;
  a_k_soc := 0;
  a_tau_0 := 0;
  a_mu := 0;
  a_kappa := 0;
  a_damping := 0;
  a_std_rand_force := 0;
  a_orientation := 0;
  a_angular_velocity := 0;
  a_target_orientation := 0;
  a_torque := 0;
  a_torque_prev := 0;
  a_tau_rot := 0;
  a_std_rand_torque := 0;
  a_position_ls := vzero;
  a_position_rs := vzero
|}.

(** Trait defaults (agents.py:33-60, 196-257, 261-292); shoulders are dynamic,
    see [Model/Placement.v]. *)
Definition default_row : agent := {|
  a_active := true;
  a_target_reached := false;
  a_target := (-1)%Z;
  a_is_leader := false;
  a_is_follower := false;
  a_index_leader := (-1)%Z;
  a_familiar_exit := (-1)%Z;
  a_radius := 0;
  a_r_t := 0;
  a_r_s := 0;
  a_r_ts := 0;
  a_mass := 0;
  a_inertia_rot := 0;
  a_target_velocity := 0;
  a_target_angular_velocity := 0;
  a_position := vzero;
  a_velocity := vzero;
  a_target_direction := vzero;
  a_force := vzero;
  a_force_prev := vzero;
  a_tau_adj := (1/2);
  a_k_soc := (3/2);
  a_tau_0 := 3;
  a_mu := 120000;
  a_kappa := 40000;
  a_damping := 500;
  a_std_rand_force := (1/10);
  a_orientation := 0;
  a_angular_velocity := 0;
  a_target_orientation := 0;
  a_torque := 0;
  a_torque_prev := 0;
  a_tau_rot := (1/5);
  a_std_rand_torque := (1/10);
  a_position_ls := vzero;
  a_position_rs := vzero
|}.

(** Field assignment [agent['field'] = value]. *)
Definition set_active (v : bool) (a : agent) : agent :=
  Agent v (a_target_reached a) (a_target a) (a_is_leader a) (a_is_follower a)
    (a_index_leader a) (a_familiar_exit a) (a_radius a) (a_r_t a) (a_r_s a) (a_r_ts a)
    (a_mass a) (a_inertia_rot a) (a_target_velocity a) (a_target_angular_velocity a)
    (a_position a) (a_velocity a) (a_target_direction a) (a_force a) (a_force_prev a)
    (a_tau_adj a) (a_k_soc a) (a_tau_0 a) (a_mu a) (a_kappa a) (a_damping a)
    (a_std_rand_force a) (a_orientation a) (a_angular_velocity a) (a_target_orientation
    a) (a_torque a) (a_torque_prev a) (a_tau_rot a) (a_std_rand_torque a) (a_position_ls
    a) (a_position_rs a).
Definition set_target_reached (v : bool) (a : agent) : agent :=
  Agent (a_active a) v (a_target a) (a_is_leader a) (a_is_follower a) (a_index_leader a)
    (a_familiar_exit a) (a_radius a) (a_r_t a) (a_r_s a) (a_r_ts a) (a_mass a)
    (a_inertia_rot a) (a_target_velocity a) (a_target_angular_velocity a) (a_position a)
    (a_velocity a) (a_target_direction a) (a_force a) (a_force_prev a) (a_tau_adj a)
    (a_k_soc a) (a_tau_0 a) (a_mu a) (a_kappa a) (a_damping a) (a_std_rand_force a)
    (a_orientation a) (a_angular_velocity a) (a_target_orientation a) (a_torque a)
    (a_torque_prev a) (a_tau_rot a) (a_std_rand_torque a) (a_position_ls a)
    (a_position_rs a).
Definition set_target (v : Z) (a : agent) : agent :=
  Agent (a_active a) (a_target_reached a) v (a_is_leader a) (a_is_follower a)
    (a_index_leader a) (a_familiar_exit a) (a_radius a) (a_r_t a) (a_r_s a) (a_r_ts a)
    (a_mass a) (a_inertia_rot a) (a_target_velocity a) (a_target_angular_velocity a)
    (a_position a) (a_velocity a) (a_target_direction a) (a_force a) (a_force_prev a)
    (a_tau_adj a) (a_k_soc a) (a_tau_0 a) (a_mu a) (a_kappa a) (a_damping a)
    (a_std_rand_force a) (a_orientation a) (a_angular_velocity a) (a_target_orientation
    a) (a_torque a) (a_torque_prev a) (a_tau_rot a) (a_std_rand_torque a) (a_position_ls
    a) (a_position_rs a).
Definition set_is_leader (v : bool) (a : agent) : agent :=
  Agent (a_active a) (a_target_reached a) (a_target a) v (a_is_follower a)
    (a_index_leader a) (a_familiar_exit a) (a_radius a) (a_r_t a) (a_r_s a) (a_r_ts a)
    (a_mass a) (a_inertia_rot a) (a_target_velocity a) (a_target_angular_velocity a)
    (a_position a) (a_velocity a) (a_target_direction a) (a_force a) (a_force_prev a)
    (a_tau_adj a) (a_k_soc a) (a_tau_0 a) (a_mu a) (a_kappa a) (a_damping a)
    (a_std_rand_force a) (a_orientation a) (a_angular_velocity a) (a_target_orientation
    a) (a_torque a) (a_torque_prev a) (a_tau_rot a) (a_std_rand_torque a) (a_position_ls
    a) (a_position_rs a).
Definition set_is_follower (v : bool) (a : agent) : agent :=
  Agent (a_active a) (a_target_reached a) (a_target a) (a_is_leader a) v (a_index_leader
    a) (a_familiar_exit a) (a_radius a) (a_r_t a) (a_r_s a) (a_r_ts a) (a_mass a)
    (a_inertia_rot a) (a_target_velocity a) (a_target_angular_velocity a) (a_position a)
    (a_velocity a) (a_target_direction a) (a_force a) (a_force_prev a) (a_tau_adj a)
    (a_k_soc a) (a_tau_0 a) (a_mu a) (a_kappa a) (a_damping a) (a_std_rand_force a)
    (a_orientation a) (a_angular_velocity a) (a_target_orientation a) (a_torque a)
    (a_torque_prev a) (a_tau_rot a) (a_std_rand_torque a) (a_position_ls a)
    (a_position_rs a).
Definition set_index_leader (v : Z) (a : agent) : agent :=
  Agent (a_active a) (a_target_reached a) (a_target a) (a_is_leader a) (a_is_follower a)
    v (a_familiar_exit a) (a_radius a) (a_r_t a) (a_r_s a) (a_r_ts a) (a_mass a)
    (a_inertia_rot a) (a_target_velocity a) (a_target_angular_velocity a) (a_position a)
    (a_velocity a) (a_target_direction a) (a_force a) (a_force_prev a) (a_tau_adj a)
    (a_k_soc a) (a_tau_0 a) (a_mu a) (a_kappa a) (a_damping a) (a_std_rand_force a)
    (a_orientation a) (a_angular_velocity a) (a_target_orientation a) (a_torque a)
    (a_torque_prev a) (a_tau_rot a) (a_std_rand_torque a) (a_position_ls a)
    (a_position_rs a).
Definition set_familiar_exit (v : Z) (a : agent) : agent :=
  Agent (a_active a) (a_target_reached a) (a_target a) (a_is_leader a) (a_is_follower a)
    (a_index_leader a) v (a_radius a) (a_r_t a) (a_r_s a) (a_r_ts a) (a_mass a)
    (a_inertia_rot a) (a_target_velocity a) (a_target_angular_velocity a) (a_position a)
    (a_velocity a) (a_target_direction a) (a_force a) (a_force_prev a) (a_tau_adj a)
    (a_k_soc a) (a_tau_0 a) (a_mu a) (a_kappa a) (a_damping a) (a_std_rand_force a)
    (a_orientation a) (a_angular_velocity a) (a_target_orientation a) (a_torque a)
    (a_torque_prev a) (a_tau_rot a) (a_std_rand_torque a) (a_position_ls a)
    (a_position_rs a).
Definition set_radius (v : R) (a : agent) : agent :=
  Agent (a_active a) (a_target_reached a) (a_target a) (a_is_leader a) (a_is_follower a)
    (a_index_leader a) (a_familiar_exit a) v (a_r_t a) (a_r_s a) (a_r_ts a) (a_mass a)
    (a_inertia_rot a) (a_target_velocity a) (a_target_angular_velocity a) (a_position a)
    (a_velocity a) (a_target_direction a) (a_force a) (a_force_prev a) (a_tau_adj a)
    (a_k_soc a) (a_tau_0 a) (a_mu a) (a_kappa a) (a_damping a) (a_std_rand_force a)
    (a_orientation a) (a_angular_velocity a) (a_target_orientation a) (a_torque a)
    (a_torque_prev a) (a_tau_rot a) (a_std_rand_torque a) (a_position_ls a)
    (a_position_rs a).
Definition set_r_t (v : R) (a : agent) : agent :=
  Agent (a_active a) (a_target_reached a) (a_target a) (a_is_leader a) (a_is_follower a)
    (a_index_leader a) (a_familiar_exit a) (a_radius a) v (a_r_s a) (a_r_ts a) (a_mass
    a) (a_inertia_rot a) (a_target_velocity a) (a_target_angular_velocity a) (a_position
    a) (a_velocity a) (a_target_direction a) (a_force a) (a_force_prev a) (a_tau_adj a)
    (a_k_soc a) (a_tau_0 a) (a_mu a) (a_kappa a) (a_damping a) (a_std_rand_force a)
    (a_orientation a) (a_angular_velocity a) (a_target_orientation a) (a_torque a)
    (a_torque_prev a) (a_tau_rot a) (a_std_rand_torque a) (a_position_ls a)
    (a_position_rs a).
Definition set_r_s (v : R) (a : agent) : agent :=
  Agent (a_active a) (a_target_reached a) (a_target a) (a_is_leader a) (a_is_follower a)
    (a_index_leader a) (a_familiar_exit a) (a_radius a) (a_r_t a) v (a_r_ts a) (a_mass
    a) (a_inertia_rot a) (a_target_velocity a) (a_target_angular_velocity a) (a_position
    a) (a_velocity a) (a_target_direction a) (a_force a) (a_force_prev a) (a_tau_adj a)
    (a_k_soc a) (a_tau_0 a) (a_mu a) (a_kappa a) (a_damping a) (a_std_rand_force a)
    (a_orientation a) (a_angular_velocity a) (a_target_orientation a) (a_torque a)
    (a_torque_prev a) (a_tau_rot a) (a_std_rand_torque a) (a_position_ls a)
    (a_position_rs a).
Definition set_r_ts (v : R) (a : agent) : agent :=
  Agent (a_active a) (a_target_reached a) (a_target a) (a_is_leader a) (a_is_follower a)
    (a_index_leader a) (a_familiar_exit a) (a_radius a) (a_r_t a) (a_r_s a) v (a_mass a)
    (a_inertia_rot a) (a_target_velocity a) (a_target_angular_velocity a) (a_position a)
    (a_velocity a) (a_target_direction a) (a_force a) (a_force_prev a) (a_tau_adj a)
    (a_k_soc a) (a_tau_0 a) (a_mu a) (a_kappa a) (a_damping a) (a_std_rand_force a)
    (a_orientation a) (a_angular_velocity a) (a_target_orientation a) (a_torque a)
    (a_torque_prev a) (a_tau_rot a) (a_std_rand_torque a) (a_position_ls a)
    (a_position_rs a).
Definition set_mass (v : R) (a : agent) : agent :=
  Agent (a_active a) (a_target_reached a) (a_target a) (a_is_leader a) (a_is_follower a)
    (a_index_leader a) (a_familiar_exit a) (a_radius a) (a_r_t a) (a_r_s a) (a_r_ts a) v
    (a_inertia_rot a) (a_target_velocity a) (a_target_angular_velocity a) (a_position a)
    (a_velocity a) (a_target_direction a) (a_force a) (a_force_prev a) (a_tau_adj a)
    (a_k_soc a) (a_tau_0 a) (a_mu a) (a_kappa a) (a_damping a) (a_std_rand_force a)
    (a_orientation a) (a_angular_velocity a) (a_target_orientation a) (a_torque a)
    (a_torque_prev a) (a_tau_rot a) (a_std_rand_torque a) (a_position_ls a)
    (a_position_rs a).
Definition set_inertia_rot (v : R) (a : agent) : agent :=
  Agent (a_active a) (a_target_reached a) (a_target a) (a_is_leader a) (a_is_follower a)
    (a_index_leader a) (a_familiar_exit a) (a_radius a) (a_r_t a) (a_r_s a) (a_r_ts a)
    (a_mass a) v (a_target_velocity a) (a_target_angular_velocity a) (a_position a)
    (a_velocity a) (a_target_direction a) (a_force a) (a_force_prev a) (a_tau_adj a)
    (a_k_soc a) (a_tau_0 a) (a_mu a) (a_kappa a) (a_damping a) (a_std_rand_force a)
    (a_orientation a) (a_angular_velocity a) (a_target_orientation a) (a_torque a)
    (a_torque_prev a) (a_tau_rot a) (a_std_rand_torque a) (a_position_ls a)
    (a_position_rs a).
Definition set_target_velocity (v : R) (a : agent) : agent :=
  Agent (a_active a) (a_target_reached a) (a_target a) (a_is_leader a) (a_is_follower a)
    (a_index_leader a) (a_familiar_exit a) (a_radius a) (a_r_t a) (a_r_s a) (a_r_ts a)
    (a_mass a) (a_inertia_rot a) v (a_target_angular_velocity a) (a_position a)
    (a_velocity a) (a_target_direction a) (a_force a) (a_force_prev a) (a_tau_adj a)
    (a_k_soc a) (a_tau_0 a) (a_mu a) (a_kappa a) (a_damping a) (a_std_rand_force a)
    (a_orientation a) (a_angular_velocity a) (a_target_orientation a) (a_torque a)
    (a_torque_prev a) (a_tau_rot a) (a_std_rand_torque a) (a_position_ls a)
    (a_position_rs a).
Definition set_target_angular_velocity (v : R) (a : agent) : agent :=
  Agent (a_active a) (a_target_reached a) (a_target a) (a_is_leader a) (a_is_follower a)
    (a_index_leader a) (a_familiar_exit a) (a_radius a) (a_r_t a) (a_r_s a) (a_r_ts a)
    (a_mass a) (a_inertia_rot a) (a_target_velocity a) v (a_position a) (a_velocity a)
    (a_target_direction a) (a_force a) (a_force_prev a) (a_tau_adj a) (a_k_soc a)
    (a_tau_0 a) (a_mu a) (a_kappa a) (a_damping a) (a_std_rand_force a) (a_orientation
    a) (a_angular_velocity a) (a_target_orientation a) (a_torque a) (a_torque_prev a)
    (a_tau_rot a) (a_std_rand_torque a) (a_position_ls a) (a_position_rs a).
Definition set_position (v : vec) (a : agent) : agent :=
  Agent (a_active a) (a_target_reached a) (a_target a) (a_is_leader a) (a_is_follower a)
    (a_index_leader a) (a_familiar_exit a) (a_radius a) (a_r_t a) (a_r_s a) (a_r_ts a)
    (a_mass a) (a_inertia_rot a) (a_target_velocity a) (a_target_angular_velocity a) v
    (a_velocity a) (a_target_direction a) (a_force a) (a_force_prev a) (a_tau_adj a)
    (a_k_soc a) (a_tau_0 a) (a_mu a) (a_kappa a) (a_damping a) (a_std_rand_force a)
    (a_orientation a) (a_angular_velocity a) (a_target_orientation a) (a_torque a)
    (a_torque_prev a) (a_tau_rot a) (a_std_rand_torque a) (a_position_ls a)
    (a_position_rs a).
Definition set_velocity (v : vec) (a : agent) : agent :=
  Agent (a_active a) (a_target_reached a) (a_target a) (a_is_leader a) (a_is_follower a)
    (a_index_leader a) (a_familiar_exit a) (a_radius a) (a_r_t a) (a_r_s a) (a_r_ts a)
    (a_mass a) (a_inertia_rot a) (a_target_velocity a) (a_target_angular_velocity a)
    (a_position a) v (a_target_direction a) (a_force a) (a_force_prev a) (a_tau_adj a)
    (a_k_soc a) (a_tau_0 a) (a_mu a) (a_kappa a) (a_damping a) (a_std_rand_force a)
    (a_orientation a) (a_angular_velocity a) (a_target_orientation a) (a_torque a)
    (a_torque_prev a) (a_tau_rot a) (a_std_rand_torque a) (a_position_ls a)
    (a_position_rs a).
Definition set_target_direction (v : vec) (a : agent) : agent :=
  Agent (a_active a) (a_target_reached a) (a_target a) (a_is_leader a) (a_is_follower a)
    (a_index_leader a) (a_familiar_exit a) (a_radius a) (a_r_t a) (a_r_s a) (a_r_ts a)
    (a_mass a) (a_inertia_rot a) (a_target_velocity a) (a_target_angular_velocity a)
    (a_position a) (a_velocity a) v (a_force a) (a_force_prev a) (a_tau_adj a) (a_k_soc
    a) (a_tau_0 a) (a_mu a) (a_kappa a) (a_damping a) (a_std_rand_force a)
    (a_orientation a) (a_angular_velocity a) (a_target_orientation a) (a_torque a)
    (a_torque_prev a) (a_tau_rot a) (a_std_rand_torque a) (a_position_ls a)
    (a_position_rs a).
Definition set_force (v : vec) (a : agent) : agent :=
  Agent (a_active a) (a_target_reached a) (a_target a) (a_is_leader a) (a_is_follower a)
    (a_index_leader a) (a_familiar_exit a) (a_radius a) (a_r_t a) (a_r_s a) (a_r_ts a)
    (a_mass a) (a_inertia_rot a) (a_target_velocity a) (a_target_angular_velocity a)
    (a_position a) (a_velocity a) (a_target_direction a) v (a_force_prev a) (a_tau_adj
    a) (a_k_soc a) (a_tau_0 a) (a_mu a) (a_kappa a) (a_damping a) (a_std_rand_force a)
    (a_orientation a) (a_angular_velocity a) (a_target_orientation a) (a_torque a)
    (a_torque_prev a) (a_tau_rot a) (a_std_rand_torque a) (a_position_ls a)
    (a_position_rs a).
Definition set_force_prev (v : vec) (a : agent) : agent :=
  Agent (a_active a) (a_target_reached a) (a_target a) (a_is_leader a) (a_is_follower a)
    (a_index_leader a) (a_familiar_exit a) (a_radius a) (a_r_t a) (a_r_s a) (a_r_ts a)
    (a_mass a) (a_inertia_rot a) (a_target_velocity a) (a_target_angular_velocity a)
    (a_position a) (a_velocity a) (a_target_direction a) (a_force a) v (a_tau_adj a)
    (a_k_soc a) (a_tau_0 a) (a_mu a) (a_kappa a) (a_damping a) (a_std_rand_force a)
    (a_orientation a) (a_angular_velocity a) (a_target_orientation a) (a_torque a)
    (a_torque_prev a) (a_tau_rot a) (a_std_rand_torque a) (a_position_ls a)
    (a_position_rs a).
Definition set_tau_adj (v : R) (a : agent) : agent :=
  Agent (a_active a) (a_target_reached a) (a_target a) (a_is_leader a) (a_is_follower a)
    (a_index_leader a) (a_familiar_exit a) (a_radius a) (a_r_t a) (a_r_s a) (a_r_ts a)
    (a_mass a) (a_inertia_rot a) (a_target_velocity a) (a_target_angular_velocity a)
    (a_position a) (a_velocity a) (a_target_direction a) (a_force a) (a_force_prev a) v
    (a_k_soc a) (a_tau_0 a) (a_mu a) (a_kappa a) (a_damping a) (a_std_rand_force a)
    (a_orientation a) (a_angular_velocity a) (a_target_orientation a) (a_torque a)
    (a_torque_prev a) (a_tau_rot a) (a_std_rand_torque a) (a_position_ls a)
    (a_position_rs a).
Definition set_k_soc (v : R) (a : agent) : agent :=
  Agent (a_active a) (a_target_reached a) (a_target a) (a_is_leader a) (a_is_follower a)
    (a_index_leader a) (a_familiar_exit a) (a_radius a) (a_r_t a) (a_r_s a) (a_r_ts a)
    (a_mass a) (a_inertia_rot a) (a_target_velocity a) (a_target_angular_velocity a)
    (a_position a) (a_velocity a) (a_target_direction a) (a_force a) (a_force_prev a)
    (a_tau_adj a) v (a_tau_0 a) (a_mu a) (a_kappa a) (a_damping a) (a_std_rand_force a)
    (a_orientation a) (a_angular_velocity a) (a_target_orientation a) (a_torque a)
    (a_torque_prev a) (a_tau_rot a) (a_std_rand_torque a) (a_position_ls a)
    (a_position_rs a).
Definition set_tau_0 (v : R) (a : agent) : agent :=
  Agent (a_active a) (a_target_reached a) (a_target a) (a_is_leader a) (a_is_follower a)
    (a_index_leader a) (a_familiar_exit a) (a_radius a) (a_r_t a) (a_r_s a) (a_r_ts a)
    (a_mass a) (a_inertia_rot a) (a_target_velocity a) (a_target_angular_velocity a)
    (a_position a) (a_velocity a) (a_target_direction a) (a_force a) (a_force_prev a)
    (a_tau_adj a) (a_k_soc a) v (a_mu a) (a_kappa a) (a_damping a) (a_std_rand_force a)
    (a_orientation a) (a_angular_velocity a) (a_target_orientation a) (a_torque a)
    (a_torque_prev a) (a_tau_rot a) (a_std_rand_torque a) (a_position_ls a)
    (a_position_rs a).
Definition set_mu (v : R) (a : agent) : agent :=
  Agent (a_active a) (a_target_reached a) (a_target a) (a_is_leader a) (a_is_follower a)
    (a_index_leader a) (a_familiar_exit a) (a_radius a) (a_r_t a) (a_r_s a) (a_r_ts a)
    (a_mass a) (a_inertia_rot a) (a_target_velocity a) (a_target_angular_velocity a)
    (a_position a) (a_velocity a) (a_target_direction a) (a_force a) (a_force_prev a)
    (a_tau_adj a) (a_k_soc a) (a_tau_0 a) v (a_kappa a) (a_damping a) (a_std_rand_force
    a) (a_orientation a) (a_angular_velocity a) (a_target_orientation a) (a_torque a)
    (a_torque_prev a) (a_tau_rot a) (a_std_rand_torque a) (a_position_ls a)
    (a_position_rs a).
Definition set_kappa (v : R) (a : agent) : agent :=
  Agent (a_active a) (a_target_reached a) (a_target a) (a_is_leader a) (a_is_follower a)
    (a_index_leader a) (a_familiar_exit a) (a_radius a) (a_r_t a) (a_r_s a) (a_r_ts a)
    (a_mass a) (a_inertia_rot a) (a_target_velocity a) (a_target_angular_velocity a)
    (a_position a) (a_velocity a) (a_target_direction a) (a_force a) (a_force_prev a)
    (a_tau_adj a) (a_k_soc a) (a_tau_0 a) (a_mu a) v (a_damping a) (a_std_rand_force a)
    (a_orientation a) (a_angular_velocity a) (a_target_orientation a) (a_torque a)
    (a_torque_prev a) (a_tau_rot a) (a_std_rand_torque a) (a_position_ls a)
    (a_position_rs a).
Definition set_damping (v : R) (a : agent) : agent :=
  Agent (a_active a) (a_target_reached a) (a_target a) (a_is_leader a) (a_is_follower a)
    (a_index_leader a) (a_familiar_exit a) (a_radius a) (a_r_t a) (a_r_s a) (a_r_ts a)
    (a_mass a) (a_inertia_rot a) (a_target_velocity a) (a_target_angular_velocity a)
    (a_position a) (a_velocity a) (a_target_direction a) (a_force a) (a_force_prev a)
    (a_tau_adj a) (a_k_soc a) (a_tau_0 a) (a_mu a) (a_kappa a) v (a_std_rand_force a)
    (a_orientation a) (a_angular_velocity a) (a_target_orientation a) (a_torque a)
    (a_torque_prev a) (a_tau_rot a) (a_std_rand_torque a) (a_position_ls a)
    (a_position_rs a).
Definition set_std_rand_force (v : R) (a : agent) : agent :=
  Agent (a_active a) (a_target_reached a) (a_target a) (a_is_leader a) (a_is_follower a)
    (a_index_leader a) (a_familiar_exit a) (a_radius a) (a_r_t a) (a_r_s a) (a_r_ts a)
    (a_mass a) (a_inertia_rot a) (a_target_velocity a) (a_target_angular_velocity a)
    (a_position a) (a_velocity a) (a_target_direction a) (a_force a) (a_force_prev a)
    (a_tau_adj a) (a_k_soc a) (a_tau_0 a) (a_mu a) (a_kappa a) (a_damping a) v
    (a_orientation a) (a_angular_velocity a) (a_target_orientation a) (a_torque a)
    (a_torque_prev a) (a_tau_rot a) (a_std_rand_torque a) (a_position_ls a)
    (a_position_rs a).
Definition set_orientation (v : R) (a : agent) : agent :=
  Agent (a_active a) (a_target_reached a) (a_target a) (a_is_leader a) (a_is_follower a)
    (a_index_leader a) (a_familiar_exit a) (a_radius a) (a_r_t a) (a_r_s a) (a_r_ts a)
    (a_mass a) (a_inertia_rot a) (a_target_velocity a) (a_target_angular_velocity a)
    (a_position a) (a_velocity a) (a_target_direction a) (a_force a) (a_force_prev a)
    (a_tau_adj a) (a_k_soc a) (a_tau_0 a) (a_mu a) (a_kappa a) (a_damping a)
    (a_std_rand_force a) v (a_angular_velocity a) (a_target_orientation a) (a_torque a)
    (a_torque_prev a) (a_tau_rot a) (a_std_rand_torque a) (a_position_ls a)
    (a_position_rs a).
Definition set_angular_velocity (v : R) (a : agent) : agent :=
  Agent (a_active a) (a_target_reached a) (a_target a) (a_is_leader a) (a_is_follower a)
    (a_index_leader a) (a_familiar_exit a) (a_radius a) (a_r_t a) (a_r_s a) (a_r_ts a)
    (a_mass a) (a_inertia_rot a) (a_target_velocity a) (a_target_angular_velocity a)
    (a_position a) (a_velocity a) (a_target_direction a) (a_force a) (a_force_prev a)
    (a_tau_adj a) (a_k_soc a) (a_tau_0 a) (a_mu a) (a_kappa a) (a_damping a)
    (a_std_rand_force a) (a_orientation a) v (a_target_orientation a) (a_torque a)
    (a_torque_prev a) (a_tau_rot a) (a_std_rand_torque a) (a_position_ls a)
    (a_position_rs a).
Definition set_target_orientation (v : R) (a : agent) : agent :=
  Agent (a_active a) (a_target_reached a) (a_target a) (a_is_leader a) (a_is_follower a)
    (a_index_leader a) (a_familiar_exit a) (a_radius a) (a_r_t a) (a_r_s a) (a_r_ts a)
    (a_mass a) (a_inertia_rot a) (a_target_velocity a) (a_target_angular_velocity a)
    (a_position a) (a_velocity a) (a_target_direction a) (a_force a) (a_force_prev a)
    (a_tau_adj a) (a_k_soc a) (a_tau_0 a) (a_mu a) (a_kappa a) (a_damping a)
    (a_std_rand_force a) (a_orientation a) (a_angular_velocity a) v (a_torque a)
    (a_torque_prev a) (a_tau_rot a) (a_std_rand_torque a) (a_position_ls a)
    (a_position_rs a).
Definition set_torque (v : R) (a : agent) : agent :=
  Agent (a_active a) (a_target_reached a) (a_target a) (a_is_leader a) (a_is_follower a)
    (a_index_leader a) (a_familiar_exit a) (a_radius a) (a_r_t a) (a_r_s a) (a_r_ts a)
    (a_mass a) (a_inertia_rot a) (a_target_velocity a) (a_target_angular_velocity a)
    (a_position a) (a_velocity a) (a_target_direction a) (a_force a) (a_force_prev a)
    (a_tau_adj a) (a_k_soc a) (a_tau_0 a) (a_mu a) (a_kappa a) (a_damping a)
    (a_std_rand_force a) (a_orientation a) (a_angular_velocity a) (a_target_orientation
    a) v (a_torque_prev a) (a_tau_rot a) (a_std_rand_torque a) (a_position_ls a)
    (a_position_rs a).
Definition set_torque_prev (v : R) (a : agent) : agent :=
  Agent (a_active a) (a_target_reached a) (a_target a) (a_is_leader a) (a_is_follower a)
    (a_index_leader a) (a_familiar_exit a) (a_radius a) (a_r_t a) (a_r_s a) (a_r_ts a)
    (a_mass a) (a_inertia_rot a) (a_target_velocity a) (a_target_angular_velocity a)
    (a_position a) (a_velocity a) (a_target_direction a) (a_force a) (a_force_prev a)
    (a_tau_adj a) (a_k_soc a) (a_tau_0 a) (a_mu a) (a_kappa a) (a_damping a)
    (a_std_rand_force a) (a_orientation a) (a_angular_velocity a) (a_target_orientation
    a) (a_torque a) v (a_tau_rot a) (a_std_rand_torque a) (a_position_ls a)
    (a_position_rs a).
Definition set_tau_rot (v : R) (a : agent) : agent :=
  Agent (a_active a) (a_target_reached a) (a_target a) (a_is_leader a) (a_is_follower a)
    (a_index_leader a) (a_familiar_exit a) (a_radius a) (a_r_t a) (a_r_s a) (a_r_ts a)
    (a_mass a) (a_inertia_rot a) (a_target_velocity a) (a_target_angular_velocity a)
    (a_position a) (a_velocity a) (a_target_direction a) (a_force a) (a_force_prev a)
    (a_tau_adj a) (a_k_soc a) (a_tau_0 a) (a_mu a) (a_kappa a) (a_damping a)
    (a_std_rand_force a) (a_orientation a) (a_angular_velocity a) (a_target_orientation
    a) (a_torque a) (a_torque_prev a) v (a_std_rand_torque a) (a_position_ls a)
    (a_position_rs a).
Definition set_std_rand_torque (v : R) (a : agent) : agent :=
  Agent (a_active a) (a_target_reached a) (a_target a) (a_is_leader a) (a_is_follower a)
    (a_index_leader a) (a_familiar_exit a) (a_radius a) (a_r_t a) (a_r_s a) (a_r_ts a)
    (a_mass a) (a_inertia_rot a) (a_target_velocity a) (a_target_angular_velocity a)
    (a_position a) (a_velocity a) (a_target_direction a) (a_force a) (a_force_prev a)
    (a_tau_adj a) (a_k_soc a) (a_tau_0 a) (a_mu a) (a_kappa a) (a_damping a)
    (a_std_rand_force a) (a_orientation a) (a_angular_velocity a) (a_target_orientation
    a) (a_torque a) (a_torque_prev a) (a_tau_rot a) v (a_position_ls a) (a_position_rs
    a).
Definition set_position_ls (v : vec) (a : agent) : agent :=
  Agent (a_active a) (a_target_reached a) (a_target a) (a_is_leader a) (a_is_follower a)
    (a_index_leader a) (a_familiar_exit a) (a_radius a) (a_r_t a) (a_r_s a) (a_r_ts a)
    (a_mass a) (a_inertia_rot a) (a_target_velocity a) (a_target_angular_velocity a)
    (a_position a) (a_velocity a) (a_target_direction a) (a_force a) (a_force_prev a)
    (a_tau_adj a) (a_k_soc a) (a_tau_0 a) (a_mu a) (a_kappa a) (a_damping a)
    (a_std_rand_force a) (a_orientation a) (a_angular_velocity a) (a_target_orientation
    a) (a_torque a) (a_torque_prev a) (a_tau_rot a) (a_std_rand_torque a) v
    (a_position_rs a).
Definition set_position_rs (v : vec) (a : agent) : agent :=
  Agent (a_active a) (a_target_reached a) (a_target a) (a_is_leader a) (a_is_follower a)
    (a_index_leader a) (a_familiar_exit a) (a_radius a) (a_r_t a) (a_r_s a) (a_r_ts a)
    (a_mass a) (a_inertia_rot a) (a_target_velocity a) (a_target_angular_velocity a)
    (a_position a) (a_velocity a) (a_target_direction a) (a_force a) (a_force_prev a)
    (a_tau_adj a) (a_k_soc a) (a_tau_0 a) (a_mu a) (a_kappa a) (a_damping a)
    (a_std_rand_force a) (a_orientation a) (a_angular_velocity a) (a_target_orientation
    a) (a_torque a) (a_torque_prev a) (a_tau_rot a) (a_std_rand_torque a) (a_position_ls
    a) v.

(** The three circles of a body as the tuples passed to distance functions
    (agents.py:414-415, 527-528). *)
Definition xs_of (a : agent) : tri vec := T3 (a_position a) (a_position_ls a) (a_position_rs a).
Definition rs_of (a : agent) : tri R := T3 (a_r_t a) (a_r_s a) (a_r_s a).

(** agents.py:473-486 [shoulders]: loop body and loop. *)
Definition shoulders_row (a : agent) : agent :=
  let tangent := rotate270 (unit_vector (a_orientation a)) in
  let offset := vscale (a_r_ts a) tangent in
  set_position_rs (vadd (a_position a) offset)
    (set_position_ls (vsub (a_position a) offset) a).
Definition shoulders (agents : list agent) : list agent := map shoulders_row agents.

(** agents.py:489-506 [overlapping_circles]. *)
Definition overlapping_circles (agents : list agent) (x : vec) (r : R) : bool :=
  existsb (fun a => Rltb (fst (distance_circles (a_position a) (a_radius a) x r)) 0) agents.

(** [h < 0] where [None] stands for NaN. *)
Definition neg_opt (h : option R) : bool := match h with Some h => Rltb h 0 | None => false end.

(** agents.py:509-533 [overlapping_three_circles]. *)
Definition overlapping_three_circles (agents : list agent) (x : tri vec) (r : tri R) : bool :=
  existsb (fun a => let '(h, _, _, _) := distance_three_circles (xs_of a) (rs_of a) x r in neg_opt h)
          agents.

(** agents.py:536-546 [overlapping_circle_line]. *)
Definition overlapping_circle_line (agents : list agent) (obstacles : list obstacle) : bool :=
  existsb (fun a => existsb (fun o =>
      neg_opt (option_map fst (distance_circle_line (a_position a) (a_radius a) (p0 o) (p1 o)))) obstacles) agents.

(** agents.py:549-562 [overlapping_three_circle_line]. *)
Definition overlapping_three_circle_line (agents : list agent) (obstacles : list obstacle) : bool :=
  existsb (fun a => existsb (fun o =>
      neg_opt (option_map (fun p => fst (fst p))
        (distance_three_circle_line (xs_of a) (rs_of a) (p0 o) (p1 o)))) obstacles) agents.
