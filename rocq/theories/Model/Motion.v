(** * Forces and torques on single agents

    crowddynamics/core/motion/{adjusting,contact,fluctuation}.py *)
From Verif Require Export Model.Agent.
Open Scope R_scope.

(** A numba loop [for agent in agents: ...] whose body may raise: the exception,
    if any, and the array, where the rows before the failing one are updated. *)
Fixpoint loop_rows (f : agent -> res agent) (agents : list agent) : option exn * list agent :=
  match agents with
  | [] => (None, [])
  | a :: rest =>
      match f a with
      | Err e => (Some e, agents)
      | Ok a' => let '(e, rest') := loop_rows f rest in (e, a' :: rest')
      end
  end.

(** adjusting.py:16-50 [force_adjust]; numba's scalar division raises on zero. *)
Definition force_adjust (mass tau_adj v0 : R) (e0 v : vec) : res vec :=
  if Reqb tau_adj 0 then Err ZeroDivisionError
  else Ok (vscale (mass / tau_adj) (vsub (vscale v0 e0) v)).

(** adjusting.py:53-92 [torque_adjust]. *)
Definition torque_adjust (inertia_rot tau_rot phi_0 phi omega_0 omega : R) : res R :=
  if Reqb tau_rot 0 then Err ZeroDivisionError
  else Ok (inertia_rot / tau_rot * (wrap_to_pi (phi_0 - phi) / PI * omega_0 - omega)).

(** adjusting.py:95-106 [force_adjust_agents]. *)
Definition force_adjust_row (a : agent) : res agent :=
  do f <- force_adjust (a_mass a) (a_tau_adj a) (a_target_velocity a) (a_target_direction a) (a_velocity a);
  Ok (set_force (vadd (a_force a) f) a).
Definition force_adjust_agents : list agent -> option exn * list agent := loop_rows force_adjust_row.

(** adjusting.py:109-119 [torque_adjust_agents]. *)
Definition torque_adjust_row (a : agent) : res agent :=
  do t <- torque_adjust (a_inertia_rot a) (a_tau_rot a) (a_target_orientation a) (a_orientation a)
            (a_target_angular_velocity a) (a_angular_velocity a);
  Ok (set_torque (a_torque a + t) a).
Definition torque_adjust_agents : list agent -> option exn * list agent := loop_rows torque_adjust_row.

(** contact.py:12-48 [force_contact]. *)
Definition force_contact (h : R) (n v t : vec) (mu kappa damping : R) : vec :=
  vadd (vscale (- h) (vsub (vscale mu n) (vscale (kappa * dot v t) t)))
       (vscale (damping * dot v n) n).

(** fluctuation.py:15-42 [force_fluctuation], for one agent.  [phi] is the drawn
    angle, [z] the draw of scipy's truncated normal with bounds 0 and 3 before
    scaling: [truncnorm(0, 3, loc=0, scale=scale)] is [0 + scale * z]. *)
Definition force_fluctuation1 (mass scale phi z : R) : vec :=
  vscale (mass * (0 + scale * z)) (V (cos phi) (sin phi)).
(** The whole array: the [k]-th agent uses the [k]-th draw of each kind. *)
Definition force_fluctuation (ms : list (R * R)) (draws : list (R * R)) : list vec :=
  map (fun p => force_fluctuation1 (fst (fst p)) (snd (fst p)) (fst (snd p)) (snd (snd p))) (combine ms draws).

(** fluctuation.py:45-62 [torque_fluctuation]. *)
Definition torque_fluctuation1 (inertia_rot scale z : R) : R := inertia_rot * (0 + scale * z).
Definition torque_fluctuation (ms : list (R * R)) (draws : list R) : list R :=
  map (fun p => torque_fluctuation1 (fst (fst p)) (snd (fst p)) (snd p)) (combine ms draws).

(** logic.py:78-88 [Fluctuation.update]: adds the draws to force and, for three
    circle agents, torque. *)
Definition fluctuate_row (k : kind) (a : agent) (phi z zt : R) : agent :=
  let a := set_force (vadd (a_force a) (force_fluctuation1 (a_mass a) (a_std_rand_force a) phi z)) a in
  match k with
  | Circular => a
  | ThreeCircle => set_torque (a_torque a + torque_fluctuation1 (a_inertia_rot a) (a_std_rand_torque a) zt) a
  end.
