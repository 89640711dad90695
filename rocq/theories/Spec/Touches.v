(** * Which columns of the agent array a node may change *)
From Verif Require Export Model.Simulation.
Open Scope R_scope.

Inductive column : Type :=
| Position | Velocity | Force | ForcePrev | Target | TargetDirection | IndexLeader | IsFollower | Active
| Angle | AngularVelocity | Torque | TorquePrev | TargetOrientation | LeftShoulder | RightShoulder.

(** An observation of a row that does not look at the column. *)
Definition unaffected {B} (c : column) (p : agent -> B) : Prop :=
  match c with
  | Position => forall v a, p (set_position v a) = p a
  | Velocity => forall v a, p (set_velocity v a) = p a
  | Force => forall v a, p (set_force v a) = p a
  | ForcePrev => forall v a, p (set_force_prev v a) = p a
  | Target => forall v a, p (set_target v a) = p a
  | TargetDirection => forall v a, p (set_target_direction v a) = p a
  | IndexLeader => forall v a, p (set_index_leader v a) = p a
  | IsFollower => forall v a, p (set_is_follower v a) = p a
  | Active => forall v a, p (set_active v a) = p a
  | Angle => forall v a, p (set_orientation v a) = p a
  | AngularVelocity => forall v a, p (set_angular_velocity v a) = p a
  | Torque => forall v a, p (set_torque v a) = p a
  | TorquePrev => forall v a, p (set_torque_prev v a) = p a
  | TargetOrientation => forall v a, p (set_target_orientation v a) = p a
  | LeftShoulder => forall v a, p (set_position_ls v a) = p a
  | RightShoulder => forall v a, p (set_position_rs v a) = p a
  end.

(** The columns each node writes. *)
Definition writes (n : node) : list column :=
  match n with
  | Reset | Fluctuation | Adjusting | AgentAgentInteractions _ | AgentObstacleInteractions => [Force; Torque]
  | Integrator _ _ => [Position; Velocity; ForcePrev; Angle; AngularVelocity; TorquePrev; LeftShoulder; RightShoulder]
  | Navigation _ _ _ => [TargetDirection]
  | LeaderFollower _ | LeaderFollowerWithHerding _ _ => [Target; IndexLeader; TargetDirection]
  | ExitDetection _ => [Target; IsFollower]
  | Orientation => [TargetOrientation]
  | InsideDomain => [Active]
  end.
