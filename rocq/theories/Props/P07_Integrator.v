(** * Properties C32-C34, C69: moving and turning agents *)
From Coq Require Import Lra Lia.
From Verif Require Import Proofs.Witness6.
Open Scope R_scope.

(** C32 *)
Theorem C32_dt_max_when_nothing_moves : forall agents dt_min dt_max, (forall a, In a agents -> a_velocity a = vzero) ->
  adaptive_timestep agents dt_min dt_max = Ok dt_max.
Proof. exact timestep_still. Qed.
Print Assumptions C32_dt_max_when_nothing_moves.
(** [m] is the greatest target speed.  Within the bounds, no agent travels farther
    than [1.1 m dt_max], and a longer step would take some agent farther. *)
Theorem C32_longest_admissible_step : forall agents dt_min dt_max m, dt_min <= dt_max -> 0 <= dt_max ->
  is_greatest (fun x => exists a, In a agents /\ x = a_target_velocity a) m -> 0 <= m ->
  exists dt, adaptive_timestep agents dt_min dt_max = Ok dt /\ dt_min <= dt <= dt_max /\
    (dt <> dt_min -> forall a, In a agents -> elen (a_velocity a) * dt <= 11 / 10 * m * dt_max) /\
    (forall dt', dt < dt' <= dt_max -> exists a, In a agents /\ 11 / 10 * m * dt_max < elen (a_velocity a) * dt').
Proof. exact timestep_spec. Qed.
Print Assumptions C32_longest_admissible_step.
Theorem C32_fixed_step : forall agents dt, adaptive_timestep agents dt dt = Ok dt.
Proof. exact timestep_fixed. Qed.
Print Assumptions C32_fixed_step.
Example C32_case : is_greatest (fun x => exists a, In a [set_target_velocity 1 pi; set_target_velocity 2 pj] /\ x = a_target_velocity a) 2.
Proof.
  split.
  - exists (set_target_velocity 2 pj). split; [right; now left|reflexivity].
  - intros x (a & [<-|[<-|[]]] & ->); cbn; lra.
Qed.

(** C33: Euler, one step. *)
Theorem C33_euler_step : forall k sd agents dt_min dt_max, dt_min <= dt_max -> rotatable k agents -> (forall a, In a agents -> a_mass a <> 0) ->
  exists dt l, euler_integrator k sd agents dt_min dt_max = Ok (dt, l) /\ dt_min <= dt <= dt_max /\
  Forall2 (fun a r => exists b, r = Some b /\ kept b = kept a /\
    a_position b = uniform_position (a_position a) (a_velocity a) (acceleration a) dt /\
    a_velocity b = uniform_velocity (a_velocity a) (acceleration a) dt /\ a_force_prev b = a_force_prev a /\
    match k, sd with
    | ThreeCircle, true =>
        same_angle (a_orientation b) (uniform_angle (a_orientation a) (a_angular_velocity a) (angular_acceleration a) dt) /\
        a_angular_velocity b = a_angular_velocity a + angular_acceleration a * dt /\ a_torque_prev b = a_torque_prev a
    | _, _ => rotation_state b = rotation_state a
    end) agents l.
Proof. exact euler_step. Qed.
Print Assumptions C33_euler_step.
(** A body without moment of inertia cannot be turned, by any of the integrators. *)
Theorem C33_no_inertia : forall agents dt_min dt_max a, dt_min <= dt_max -> In a agents -> a_inertia_rot a = 0 ->
  euler_integrator ThreeCircle true agents dt_min dt_max = Err ZeroDivisionError /\
  velocity_verlet_integrator ThreeCircle agents dt_min dt_max = Err ZeroDivisionError /\
  velocity_verlet_integrator_init ThreeCircle agents dt_min dt_max = Err ZeroDivisionError.
Proof.
  intros agents dt_min dt_max a H I Z. destruct (adaptive_ok agents dt_min dt_max H) as (dt & E & _).
  assert (N : needs_inertia agents = true) by (apply existsb_exists; exists a; split; [exact I|now apply Reqb_true]).
  unfold euler_integrator, velocity_verlet_integrator, velocity_verlet_integrator_init. rewrite E. cbn. rewrite N. repeat split.
Qed.
Print Assumptions C33_no_inertia.
(** Any number of Euler steps under a constant force. *)
Theorem C33_euler_any_number_of_steps : forall k sd dt n agents, (forall a, In a agents -> movable k a) ->
  exists l, run_steps (fun l => euler_integrator k sd l dt dt) n agents = Some l /\
  Forall2 (fun a b => kept b = kept a /\
    a_position b = uniform_position (a_position a) (a_velocity a) (acceleration a) (INR n * dt) /\
    a_velocity b = uniform_velocity (a_velocity a) (acceleration a) (INR n * dt)) agents l.
Proof. exact euler_many. Qed.
Print Assumptions C33_euler_any_number_of_steps.
(** The step that starts a velocity Verlet run. *)
Theorem C33_verlet_init_step : forall k agents dt_min dt_max, dt_min <= dt_max -> rotatable k agents -> (forall a, In a agents -> a_mass a <> 0) ->
  exists dt l, velocity_verlet_integrator_init k agents dt_min dt_max = Ok (dt, l) /\ dt_min <= dt <= dt_max /\
  Forall2 (fun a r => exists b, r = Some b /\ kept b = kept a /\
    a_position b = uniform_position (a_position a) (a_velocity a) (acceleration a) dt /\
    a_velocity b = uniform_velocity (a_velocity a) (acceleration a) dt /\ a_force_prev b = a_force a /\
    match k with
    | ThreeCircle =>
        same_angle (a_orientation b) (uniform_angle (a_orientation a) (a_angular_velocity a) (angular_acceleration a) dt) /\
        a_angular_velocity b = a_angular_velocity a + angular_acceleration a * dt /\ a_torque_prev b = a_torque a
    | Circular => rotation_state b = rotation_state a
    end) agents l.
Proof. exact euler_init_row. Qed.
Print Assumptions C33_verlet_init_step.
(** A velocity Verlet step: the velocity uses the mean of the old and the new
    acceleration; the position is advanced from the *new* velocity. *)
Theorem C33_verlet_step_partial : forall k agents dt_min dt_max, dt_min <= dt_max -> rotatable k agents -> (forall a, In a agents -> a_mass a <> 0) ->
  exists dt l, velocity_verlet_integrator k agents dt_min dt_max = Ok (dt, l) /\ dt_min <= dt <= dt_max /\
  Forall2 (fun a r => exists b, r = Some b /\ kept b = kept a /\
    a_velocity b = uniform_velocity (a_velocity a)
       (V ((vx (a_force_prev a) / a_mass a + vx (acceleration a)) / 2) ((vy (a_force_prev a) / a_mass a + vy (acceleration a)) / 2)) dt /\
    a_position b = uniform_position (a_position a) (a_velocity b) (acceleration a) dt /\ a_force_prev b = a_force a /\
    match k with
    | ThreeCircle =>
        a_angular_velocity b = a_angular_velocity a + (a_torque_prev a / a_inertia_rot a + angular_acceleration a) / 2 * dt /\
        same_angle (a_orientation b) (uniform_angle (a_orientation a) (a_angular_velocity b) (angular_acceleration a) dt) /\
        a_torque_prev b = a_torque a
    | Circular => rotation_state b = rotation_state a
    end) agents l.
Proof. exact verlet_step. Qed.
Print Assumptions C33_verlet_step_partial.
(** After [n] Verlet steps the position is off by exactly [n dt^2] times the
    acceleration: the claim fails for every non-zero force. *)
Theorem C33_verlet_position_refuted : forall k dt n agents, (forall a, In a agents -> movable k a) -> (forall a, In a agents -> a_force_prev a = a_force a) ->
  exists l, run_steps (fun l => velocity_verlet_integrator k l dt dt) n agents = Some l /\
  Forall2 (fun a b => kept b = kept a /\
    a_velocity b = uniform_velocity (a_velocity a) (acceleration a) (INR n * dt) /\
    vx (a_position b) = vx (uniform_position (a_position a) (a_velocity a) (acceleration a) (INR n * dt)) + INR n * dt * dt * vx (acceleration a) /\
    vy (a_position b) = vy (uniform_position (a_position a) (a_velocity a) (acceleration a) (INR n * dt)) + INR n * dt * dt * vy (acceleration a)) agents l.
Proof. exact verlet_many. Qed.
Print Assumptions C33_verlet_position_refuted.
(** Inactive or not, an agent with a velocity is moved. *)
Theorem C33_inactive_agents_moved_refuted : forall k sd dt a, movable k a -> a_force a = vzero -> a_force_prev a = vzero ->
  (exists b, euler_integrator k sd [a] dt dt = Ok (dt, [Some b]) /\
     a_position b = V (vx (a_position a) + vx (a_velocity a) * dt) (vy (a_position a) + vy (a_velocity a) * dt)) /\
  (exists b, velocity_verlet_integrator k [a] dt dt = Ok (dt, [Some b]) /\
     a_position b = V (vx (a_position a) + vx (a_velocity a) * dt) (vy (a_position a) + vy (a_velocity a) * dt)).
Proof. exact inactive_moved. Qed.
Print Assumptions C33_inactive_agents_moved_refuted.
Example C33_case : movable ThreeCircle walking /\ a_active walking = false /\ a_force walking = vzero /\ a_force_prev walking = vzero /\
  a_velocity walking <> vzero.
Proof. repeat split; cbn; try lra; try (intros _; lra). intros [= H]; lra. Qed.

(** C34 *)
Theorem C34_verlet : forall agents dt_min dt_max dt l, velocity_verlet_integrator ThreeCircle agents dt_min dt_max = Ok (dt, l) ->
  length l = length agents /\ Forall (fun r => forall b, r = Some b -> - PI <= a_orientation b <= PI /\ shoulders_in_place b) l.
Proof. exact verlet_upright. Qed.
Print Assumptions C34_verlet.
Theorem C34_verlet_init : forall agents dt_min dt_max dt l, velocity_verlet_integrator_init ThreeCircle agents dt_min dt_max = Ok (dt, l) ->
  length l = length agents /\ Forall (fun r => forall b, r = Some b -> - PI <= a_orientation b <= PI /\ shoulders_in_place b) l.
Proof. exact verlet_init_upright. Qed.
Print Assumptions C34_verlet_init.
Theorem C34_euler : forall agents dt_min dt_max dt l, euler_integrator ThreeCircle true agents dt_min dt_max = Ok (dt, l) ->
  length l = length agents /\ Forall (fun r => forall b, r = Some b -> - PI <= a_orientation b <= PI /\ shoulders_in_place b) l.
Proof. exact euler_upright. Qed.
Print Assumptions C34_euler.
(** When the dtype object of the array is not the one of the module. *)
Theorem C34_euler_other_dtype_refuted : shoulders_in_place walking /\
  exists dt b, euler_integrator ThreeCircle false [walking] (1/100) (1/100) = Ok (dt, [Some b]) /\ ~ shoulders_in_place b.
Proof. exact euler_other_dtype. Qed.
Print Assumptions C34_euler_other_dtype_refuted.
Example C34_case : exists dt l, velocity_verlet_integrator ThreeCircle [walking] (1/100) (1/100) = Ok (dt, l) /\ length l = 1%nat.
Proof.
  destruct (C33_verlet_step_partial ThreeCircle [walking] (1/100) (1/100)) as (dt & l & E & _ & F).
  - lra.
  - intros _ a [<-|[]]. cbn. lra.
  - intros a [<-|[]]. cbn. lra.
  - exists dt, l. split; auto. inversion F; subst. inversion H3; subst. reflexivity.
Qed.

(** C69: no body type, however assigned, gives an agent that turns. *)
Theorem C69_never_turns_refuted : forall zs cfg os dt_min dt_max n k, dt_min <= dt_max ->
  let o := AObj (brun zs cfg body0 os) k in
  a_mass (obj_row o) <> 0 -> a_inertia_rot (obj_row o) <> 0 -> a_tau_rot k <> 0 -> a_angular_velocity k = 0 -> a_torque_prev k = 0 ->
  exists b, run_steps (turn_step dt_min dt_max) n [obj_row o] = Some [b] /\ same_angle (a_orientation b) (a_orientation k).
Proof. exact created_never_turns. Qed.
Print Assumptions C69_never_turns_refuted.
