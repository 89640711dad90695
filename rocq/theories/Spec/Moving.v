(** * The same crowd on moving ground *)
From Verif Require Export Spec.Frames.
Open Scope R_scope.

(** [b] is [a] moved by [p], with a velocity and a wanted velocity that both are larger by
    [u]; everything else is the same.  Circular agents have no shoulders to be moved. *)
Definition carried (k : kind) (u p : vec) (a b : agent) : Prop := exists speed direction,
  vscale speed direction = vadd u (vscale (a_target_velocity a) (a_target_direction a)) /\
  b = set_target_velocity speed (set_target_direction direction
        (set_velocity (vadd u (a_velocity a)) (set_position (vadd p (a_position a))
        match k with
        | Circular => a
        | ThreeCircle => set_position_ls (vadd p (a_position_ls a)) (set_position_rs (vadd p (a_position_rs a)) a)
        end))).
(** A simulation on ground that moves with velocity [u] and is [q] off at time 0. *)
Definition carried_sim (k : kind) (u q : vec) (s s' : sim) : Prop :=
  Forall2 (carried k u (vadd q (vscale (s_time s) u))) (s_agents s) (s_agents s') /\
  s_dt s' = s_dt s /\ s_time s' = s_time s /\ s_inactive s' = s_inactive s /\ s_draws s' = s_draws s.
(** Nodes that neither know the ground nor choose the step by speeds; the orientation of
    three circle agents is that of their wanted velocity on the ground. *)
Definition no_ground (k : kind) (n : node) : Prop :=
  match n with
  | Reset | Fluctuation | Adjusting | AgentAgentInteractions _ => True
  | Integrator dt_min dt_max => dt_min = dt_max
  | Orientation => k = Circular
  | _ => False
  end.
