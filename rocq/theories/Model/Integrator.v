(** * crowddynamics/core/integrator.py

    Rows that receive NaN or infinite coordinates (division of an array by a mass
    of zero) become [None]; a row that is [None] is never read again by the model. *)
From Verif Require Export Model.Motion.
Open Scope R_scope.

(** integrator.py:81-85: the greatest speed, starting from 0. *)
Definition v_max (agents : list agent) : R :=
  fold_left (fun m a => let l := vlength (a_velocity a) in if Rltb m l then l else m) agents 0.
(** [np.max(agents['target_velocity'])]; [None] for the empty array (ValueError,
    never reached: the speed of an empty array is 0). *)
Definition np_max (l : list R) : option R :=
  match l with [] => None | x :: l' => Some (fold_left Rmax l' x) end.

(** integrator.py:29-97 [adaptive_timestep]. *)
Definition adaptive_timestep (agents : list agent) (dt_min dt_max : R) : res R :=
  let v := v_max agents in
  if Reqb v 0 then Ok dt_max
  else
    match np_max (map a_target_velocity agents) with
    | None => Err ValueError
    | Some m =>
        let c := 11 / 10 in
        let dx_max := c * m * dt_max in
        let dt := dx_max / v in
        if Rltb dt_max dt then Ok dt_max
        else if Rltb dt dt_min then Ok dt_min
        else Ok dt
    end.

(** integrator.py:103-109 [translational_euler], one row. *)
Definition translational_euler (dt : R) (a : agent) : option agent :=
  if Reqb (a_mass a) 0 then None
  else
    let acceleration := vdiv (a_force a) (a_mass a) in
    Some (set_velocity (vadd (a_velocity a) (vscale dt acceleration))
         (set_position (vadd (a_position a)
            (vadd (vscale dt (a_velocity a)) (vscale (dt * dt) (vdiv acceleration 2)))) a)).

(** integrator.py:114-121 [rotational_euler], one row; called with
    [inertia_rot <> 0] (see [needs_inertia]). *)
Definition rotational_euler (dt : R) (a : agent) : agent :=
  let angular_acceleration := a_torque a / a_inertia_rot a in
  let orientation := a_orientation a + (a_angular_velocity a * dt + angular_acceleration / 2 * (dt * dt)) in
  set_orientation (wrap_to_pi orientation)
    (set_angular_velocity (a_angular_velocity a + angular_acceleration * dt) a).

(** integrator.py:167-176 [translational_verlet], one row: the position uses the
    velocity already updated. *)
Definition translational_verlet (dt : R) (a : agent) : option agent :=
  if Reqb (a_mass a) 0 then None
  else
    let old_acceleration := vdiv (a_force_prev a) (a_mass a) in
    let new_acceleration := vdiv (a_force a) (a_mass a) in
    let velocity := vadd (a_velocity a) (vscale dt (vdiv (vadd old_acceleration new_acceleration) 2)) in
    Some (set_position (vadd (a_position a)
            (vadd (vscale dt velocity) (vscale (dt * dt) (vdiv new_acceleration 2))))
         (set_velocity velocity (set_force_prev (a_force a) a))).

(** integrator.py:181-193 [rotational_verlet], one row. *)
Definition rotational_verlet (dt : R) (a : agent) : agent :=
  let old_angular_acceleration := a_torque_prev a / a_inertia_rot a in
  let new_angular_acceleration := a_torque a / a_inertia_rot a in
  let angular_velocity := a_angular_velocity a + (old_angular_acceleration + new_angular_acceleration) / 2 * dt in
  let orientation := a_orientation a + (angular_velocity * dt + new_angular_acceleration / 2 * (dt * dt)) in
  set_orientation (wrap_to_pi orientation)
    (set_angular_velocity angular_velocity (set_torque_prev (a_torque a) a)).

(** The scalar divisions by [inertia_rot] raise when it is zero. *)
Definition needs_inertia (agents : list agent) : bool := existsb (fun a => Reqb (a_inertia_rot a) 0) agents.

(** integrator.py:124-161 [euler_integrator].  [same_dtype] is the value of
    [agents.dtype is agent_type_three_circle] (line 158), an identity test.
    The array after an exception is not modelled. *)
Definition euler_integrator (k : kind) (same_dtype : bool) (agents : list agent) (dt_min dt_max : R)
    : res (R * list (option agent)) :=
  do dt <- adaptive_timestep agents dt_min dt_max;
  let moved := map (translational_euler dt) agents in
  match k with
  | ThreeCircle =>
      if same_dtype then
        if needs_inertia agents then Err ZeroDivisionError
        else Ok (dt, map (option_map (fun a => shoulders_row (rotational_euler dt a))) moved)
      else Ok (dt, moved)
  | Circular => Ok (dt, moved)
  end.

(** integrator.py:209-256 [velocity_verlet_integrator]. *)
Definition velocity_verlet_integrator (k : kind) (agents : list agent) (dt_min dt_max : R)
    : res (R * list (option agent)) :=
  do dt <- adaptive_timestep agents dt_min dt_max;
  let moved := map (translational_verlet dt) agents in
  match k with
  | ThreeCircle =>
      if needs_inertia agents then Err ZeroDivisionError
      else Ok (dt, map (option_map (fun a => shoulders_row (rotational_verlet dt a))) moved)
  | Circular => Ok (dt, moved)
  end.

(** integrator.py:196-206 [velocity_verlet_integrator_init]. *)
Definition velocity_verlet_integrator_init (k : kind) (agents : list agent) (dt_min dt_max : R)
    : res (R * list (option agent)) :=
  do dt <- adaptive_timestep agents dt_min dt_max;
  let moved := map (translational_euler dt) agents in
  let moved := map (option_map (fun a => set_force_prev (a_force a) a)) moved in
  match k with
  | ThreeCircle =>
      if needs_inertia agents then Err ZeroDivisionError
      else Ok (dt, map (option_map (fun a =>
                 let a := rotational_euler dt a in
                 shoulders_row (set_torque_prev (a_torque a) a))) moved)
  | Circular => Ok (dt, moved)
  end.
