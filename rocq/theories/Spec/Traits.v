(** * The trait values of an agent object *)
From Verif Require Export Model.AgentObject.
Open Scope R_scope.

(** The traits of the body that are fields of the array. *)
Definition body_values (b : bodyt) : list R :=
  [b_radius b; b_r_t b; b_r_s b; b_r_ts b; b_mass b; b_inertia_rot b; b_target_velocity b; b_target_angular_velocity b].
(** All others. *)
Definition states (a : agent) : list bool * list Z :=
  ([a_active a; a_target_reached a; a_is_leader a; a_is_follower a], [a_target a; a_index_leader a; a_familiar_exit a]).
Definition motion_vectors (a : agent) : list vec :=
  [a_position a; a_velocity a; a_target_direction a; a_force a; a_force_prev a; a_position_ls a; a_position_rs a].
Definition motion_numbers (a : agent) : list R :=
  [a_tau_adj a; a_k_soc a; a_tau_0 a; a_mu a; a_kappa a; a_damping a; a_std_rand_force a; a_orientation a;
   a_angular_velocity a; a_target_orientation a; a_torque a; a_torque_prev a; a_tau_rot a; a_std_rand_torque a].
Definition same_traits (o o' : aobj) : Prop :=
  body_values (ob_body o) = body_values (ob_body o') /\ states (ob_rest o) = states (ob_rest o') /\
  motion_vectors (ob_rest o) = motion_vectors (ob_rest o') /\ motion_numbers (ob_rest o) = motion_numbers (ob_rest o').
(** The row holds the values of the object. *)
Definition row_of_object (row : agent) (o : aobj) : Prop :=
  [a_radius row; a_r_t row; a_r_s row; a_r_ts row; a_mass row; a_inertia_rot row; a_target_velocity row; a_target_angular_velocity row]
    = body_values (ob_body o) /\
  states row = states (ob_rest o) /\ motion_vectors row = motion_vectors (ob_rest o) /\ motion_numbers row = motion_numbers (ob_rest o).

(** Assignments that do not name the trait [f], directly or through a body type. *)
Definition leaves_alone (cfg : config) (f : bfield) (o : bop) : Prop :=
  match o with
  | SetField g _ => g <> f
  | SetBodyType name => match cfg name with None => True | Some items => ~ In f (map fst items) end
  end.

(** The values an agent may have. *)
Definition nearly (l t : R) : Prop := Rabs (l - t) <= 1/100000000 + 1/100000 * Rabs t.
Definition acceptable (k : kind) (a : agent) : Prop :=
  Forall (fun x => 0 <= x)
    [a_radius a; a_r_t a; a_r_s a; a_r_ts a; a_mass a; a_inertia_rot a; a_target_velocity a; a_target_angular_velocity a;
     a_tau_adj a; a_k_soc a; a_tau_0 a; a_mu a; a_kappa a; a_damping a; a_std_rand_force a] /\
  (-1 <= a_target a)%Z /\ (-1 <= a_familiar_exit a)%Z /\
  (nearly (sqrt (vx (a_target_direction a) * vx (a_target_direction a) + vy (a_target_direction a) * vy (a_target_direction a))) 0 \/
   nearly (sqrt (vx (a_target_direction a) * vx (a_target_direction a) + vy (a_target_direction a) * vy (a_target_direction a))) 1) /\
  match k with
  | Circular => True
  | ThreeCircle => - PI <= a_orientation a <= PI /\ 0 <= a_tau_rot a /\ 0 <= a_std_rand_torque a
  end.
