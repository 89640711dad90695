(** * Circular agents at walls in float64

    As in [Model/FloatForces.v]; a wall of length zero (NaN) is not modelled. *)
From Coq Require Import Reals ZArith List.
From Flocq Require Import Core.
From Verif Require Import Model.Floats Model.Distance Model.Interactions.
From Verif Require Export Model.FloatForces.
Import ListNotations.
Open Scope R_scope.

Section Walls.
  Variable hypot : R -> R -> R.
  (** distance.py:108-146 [distance_circle_line]. *)
  Definition f_distance_circle_line (x : vec) (r : R) (w0 w1 : vec) : R * vec :=
    let d := f_vsub w1 w0 in
    let l_w := hypot (vx d) (vy d) in
    let t_w := f_vdiv d l_w in
    let n_w := rotate90 t_w in
    let q0 := f_vsub x w0 in
    let q1 := f_vsub x w1 in
    let l_t := rnd (- f_dot t_w q1 - f_dot t_w q0) in
    let '(d_iw, n_iw) :=
      if Rlt_bool l_w l_t then
        let d_iw := hypot (vx q0) (vy q0) in (d_iw, f_vdiv q0 d_iw)
      else if Rlt_bool l_t (- l_w) then
        let d_iw := hypot (vx q1) (vy q1) in (d_iw, f_vdiv q1 d_iw)
      else
        let l_n := f_dot n_w q0 in (Rabs l_n, f_scale (rsign l_n) n_w) in
    (rnd (d_iw - r), n_iw).
  (** interactions.py:110-120 [interaction_agent_circular_obstacle], one row. *)
  Definition f_obstacle_circular (a : agent) (o : obstacle) : agent :=
    let '(h, n) := f_distance_circle_line (a_position a) (a_radius a) (p0 o) (p1 o) in
    if Rlt_bool h 0 then
      let t := rotate270 n in
      f_add_force (f_force_contact h n (a_velocity a) t (a_mu a) (a_kappa a) (a_damping a)) a
    else a.
  (** interactions.py:172-179 [agent_circular_obstacle]. *)
  Definition f_agent_circular_obstacle (agents : list agent) (obstacles : list obstacle) : list agent :=
    map (fun a => fold_left f_obstacle_circular obstacles a) agents.
End Walls.
