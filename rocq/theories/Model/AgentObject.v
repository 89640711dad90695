(** * Agent objects and their array rows

    crowddynamics/simulation/agents.py:295-344 (AgentType),
    crowddynamics/traits.py:19-56 (validators), 158-215 (dtype construction) *)
From Verif Require Export Model.Agent Model.Body.
Open Scope R_scope.

(** An agent object: the body traits with their observers, and all the other
    traits (kept in a row; the body fields of that row are not used). Shoulders
    are taken as already accessed. *)
Record aobj : Type := AObj { ob_body : bodyt; ob_rest : agent }.

(** agents.py:309-319 [__array__]: the values of the dtype fields. *)
Definition obj_row (o : aobj) : agent :=
  let b := ob_body o in
  let a := ob_rest o in
  Agent (a_active a) (a_target_reached a) (a_target a) (a_is_leader a) (a_is_follower a)
    (a_index_leader a) (a_familiar_exit a) (b_radius b) (b_r_t b) (b_r_s b) (b_r_ts b)
    (b_mass b) (b_inertia_rot b) (b_target_velocity b) (b_target_angular_velocity b)
    (a_position a) (a_velocity a) (a_target_direction a) (a_force a) (a_force_prev a)
    (a_tau_adj a) (a_k_soc a) (a_tau_0 a) (a_mu a) (a_kappa a) (a_damping a)
    (a_std_rand_force a) (a_orientation a) (a_angular_velocity a) (a_target_orientation a)
    (a_torque a) (a_torque_prev a) (a_tau_rot a) (a_std_rand_torque a) (a_position_ls a)
    (a_position_rs a).

(** traits.py:38-56 [length_validator(0, 1)]: [np.isclose] with its default
    tolerances. *)
Definition isclose (a b : R) : bool := Rleb (Rabs (a - b)) (1/100000000 + 1/100000 * Rabs b).
Definition length_valid (v : vec) : bool := isclose (vlength v) 0 || isclose (vlength v) 1.

(** Range checks of the traits other than the body traits (agents.py:42-60,
    223-257, 261-292). *)
Definition rest_valid (k : kind) (a : agent) : bool :=
  (-1 <=? a_target a)%Z && (-1 <=? a_familiar_exit a)%Z && length_valid (a_target_direction a) &&
  Rleb 0 (a_tau_adj a) && Rleb 0 (a_k_soc a) && Rleb 0 (a_tau_0 a) && Rleb 0 (a_mu a) &&
  Rleb 0 (a_kappa a) && Rleb 0 (a_damping a) && Rleb 0 (a_std_rand_force a) &&
  match k with
  | Circular => true
  | ThreeCircle => Rleb (- PI) (a_orientation a) && Rleb (a_orientation a) PI &&
      Rleb 0 (a_tau_rot a) && Rleb 0 (a_std_rand_torque a)
  end.

(** Stores of single body fields that have no observers; [min=0]. *)
Definition store_checked (v : R) (put : bodyt -> bodyt) (b : bodyt) : bres :=
  if Rleb 0 v then (None, put b) else (Some TraitError, b).
Definition put_target_angular_velocity (v : R) (b : bodyt) : bodyt :=
  let '(Body r rt rs rts m i tv _ q1 q2 q3 rm rsc tvm tvs mm ms bt n) := b in
  Body r rt rs rts m i tv v q1 q2 q3 rm rsc tvm tvs mm ms bt n.

(** Sequencing of assignments, stopping at the first exception. *)
Definition bseq (r : bres) (f : bodyt -> bres) : bres :=
  match r with (None, b) => f b | (Some e, b) => (Some e, b) end.

(** agents.py:336-341 [from_array], the body fields in dtype order: radius, r_t,
    r_s, r_ts, mass, inertia_rot, target_velocity, target_angular_velocity. *)
Definition body_from_row (zs : nat -> R) (row : agent) (b : bodyt) : bres :=
  bseq (assign zs Radius (a_radius row) b) (fun b =>
  bseq (store_checked (a_r_t row) (fun b => put_radii (a_r_t row) (b_r_s b) (b_r_ts b) b) b) (fun b =>
  bseq (store_checked (a_r_s row) (fun b => put_radii (b_r_t b) (a_r_s row) (b_r_ts b) b) b) (fun b =>
  bseq (store_checked (a_r_ts row) (fun b => put_radii (b_r_t b) (b_r_s b) (a_r_ts row) b) b) (fun b =>
  bseq (assign zs Mass (a_mass row) b) (fun b =>
  bseq (store_checked (a_inertia_rot row) (put_inertia (a_inertia_rot row)) b) (fun b =>
  bseq (assign zs TargetVelocity (a_target_velocity row) b) (fun b =>
  store_checked (a_target_angular_velocity row)
    (put_target_angular_velocity (a_target_angular_velocity row)) b))))))).

(** agents.py:336-341 [from_array] on a list of rows.  Simplification: when an
    assignment raises, the object that was partly updated is not modelled. *)
Definition from_array (zs : nat -> R) (k : kind) (rows : list agent) (o : aobj) : res aobj :=
  match rows with
  | [row] =>
      if rest_valid k row then
        match body_from_row zs row (ob_body o) with
        | (None, b) => Ok (AObj b row)
        | (Some e, _) => Err e
        end
      else Err TraitError
  | _ => Err ValueError
  end.

(** Every trait value of an object passed its validator when it was set. *)
Definition obj_valid (k : kind) (o : aobj) : Prop :=
  rest_valid k (ob_rest o) = true /\
  let b := ob_body o in
  0 <= b_radius b /\ 0 <= b_r_t b /\ 0 <= b_r_s b /\ 0 <= b_r_ts b /\ 0 <= b_mass b /\
  0 <= b_inertia_rot b /\ 0 <= b_target_velocity b /\ 0 <= b_target_angular_velocity b.
