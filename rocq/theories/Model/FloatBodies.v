(** * Three-circle agents at walls in float64

    As in [Model/FloatWalls.v]; a wall of length zero (NaN) is not modelled. *)
From Coq Require Import Reals ZArith List.
From Flocq Require Import Core.
From Verif Require Import Model.Floats Model.Distance Model.Interactions.
From Verif Require Export Model.FloatWalls Model.FloatGeom.
Import ListNotations.
Open Scope R_scope.

Section Bodies.
  Variable hypot : R -> R -> R.
  (** distance.py:171-176: body of the loop of [distance_three_circle_line]. *)
  Definition f_scan3_step (x : tri vec) (r : tri R) (q0 q1 : vec) (s : scan3) (i : nat) : scan3 :=
    let '(h_min, normal, i_min) := s in
    let '(h, n) := f_distance_circle_line hypot (tget x i) (tget r i) q0 q1 in
    let better := match h_min with Some m => Rlt_bool h m | None => true end in
    if better then (Some h, n, i) else s.
  (** distance.py:149-180 [distance_three_circle_line]; the distances are numbers, so
      [None] (NaN) does not occur. *)
  Definition f_distance_three_circle_line (x : tri vec) (r : tri R) (q0 q1 : vec) : option (R * vec * vec) :=
    let '(h_min, normal, i_min) := fold_left (f_scan3_step x r q0 q1) idx3 (None, vzero, 0%nat) in
    match h_min with
    | None => None
    | Some h => Some (h, normal, f_vsub (f_vsub (tget x i_min) (f_scale (tget r i_min) normal)) (t_0 x))
    end.
  (** [agents[i]['torque'] += ...] in interactions.py:141. *)
  Definition f_add_torque (t : R) (a : agent) : agent := set_torque (rnd (a_torque a + t)) a.
  (** interactions.py:126-141 [interaction_agent_three_circle_obstacle], one row. *)
  Definition f_obstacle_three_circle (a : agent) (o : obstacle) : agent :=
    match f_distance_three_circle_line (xs_of a) (rs_of a) (p0 o) (p1 o) with
    | None => a
    | Some (h, n, r_moment) =>
        if Rlt_bool h 0 then
          let t := rotate270 n in
          let force := f_force_contact h n (a_velocity a) t (a_mu a) (a_kappa a) (a_damping a) in
          f_add_torque (f_cross r_moment force) (f_add_force force a)
        else a
    end.
  (** interactions.py:182-186 [agent_three_circle_obstacle]. *)
  Definition f_agent_three_circle_obstacle (agents : list agent) (obstacles : list obstacle) : list agent :=
    map (fun a => fold_left f_obstacle_three_circle obstacles a) agents.
End Bodies.
