(** * Bodies of agents, overlap of bodies and of bodies with walls *)
From Verif Require Export Spec.Bodies Model.Agent.
Open Scope R_scope.

(** The circles an agent consists of. *)
Definition body (k : kind) (a : agent) : list circle :=
  match k with
  | Circular => [(a_position a, a_radius a)]
  | ThreeCircle => [(a_position a, a_r_t a); (a_position_ls a, a_r_s a); (a_position_rs a, a_r_s a)]
  end.

(** Negative skin-to-skin distance between some circles of the two bodies. *)
Definition bodies_overlap (b1 b2 : list circle) : Prop :=
  exists c d, In c b1 /\ In d b2 /\ gap c d < 0.

(** Some point of the wall lies inside some circle of the body. *)
Definition body_hits_wall (b : list circle) (w0 w1 : vec) : Prop :=
  exists c q, In c b /\ on_segment w0 w1 q /\ edist (fst c) q < snd c.

(** Every circle of the body stays within [rho] of the position of the agent. *)
Definition body_within (k : kind) (a : agent) (rho : R) : Prop :=
  forall c, In c (body k a) -> edist (fst c) (a_position a) + snd c <= rho.

(** Shoulders where position and orientation say they are: on the line through
    the torso perpendicular to the heading, left and right, at distance [r_ts]. *)
Definition shoulders_in_place (a : agent) : Prop :=
  let e := V (cos (a_orientation a)) (sin (a_orientation a)) in
  let off p := V (vx p - vx (a_position a)) (vy p - vy (a_position a)) in
  off (a_position_ls a) = V (- a_r_ts a * vy e) (a_r_ts a * vx e) /\
  off (a_position_rs a) = V (a_r_ts a * vy e) (- a_r_ts a * vx e).
