(** * Which simulations of the example modules are complete *)
From Verif Require Export Model.Offered Spec.GoesOn.
Open Scope R_scope.

(** A class the example modules offer without a crowd, or without anything. *)
Definition unfinished (x : example) : Prop := x = AroundCircle \/ x = AvoidPillar.
(** The place from which exits are detected is closer to the exit than a metre. *)
Definition too_narrow (x : example) : Prop :=
  exists nl nh width ratio, x = AvoidObstacle nl nh width ratio /\ (1 - ratio) * width < 1.
(** The settings are within the ranges the class declares for them: collective_motion.py:199-209. *)
Definition declared_ranges (x : example) : Prop :=
  match x with AvoidObstacle nl nh width ratio => (0 <= nl)%Z /\ (0 <= nh)%Z /\ 0 <= width /\ 0 <= ratio <= 1 | _ => True end.
(** The simulation was made, everybody found a place and its logic is [lx]. *)
Definition set_up (rolled : nat -> nat -> rolls) (bodies : nat -> nat -> nat -> R) (targets : Z) (spawn : nat -> nat -> nat -> option vec) (walls : list obstacle)
    (k : kind) (x : example) (st : agents_obj) (lx : expr node) : Prop :=
  fair_bodies bodies /\ example_agents rolled bodies targets spawn walls (Some k) x = Some (Ok st) /\ complete st /\ example_logic x = Ok (Some lx).
(** The ranges the nodes declare for their traits: logic.py:68-69, 98-112, 136-147, 169-173, 186-196, 239-241. *)
Definition traits_in_range (n : node) : Prop :=
  match n with
  | Integrator dt_min dt_max => 0 <= dt_min /\ 0 <= dt_max
  | AgentAgentInteractions t =>
      0 <= nd_sight_soc t /\ 0 <= nd_max_agent_radius t /\ 0 <= nd_f_soc_max t /\ forall c, nd_cell_size t = Some c -> 0 <= c
  | Navigation step radius strength => 0 <= step /\ 0 <= radius /\ 0 <= strength <= 1
  | LeaderFollower sight | LeaderFollowerWithHerding sight _ => 0 <= sight
  | ExitDetection range => 1 <= range
  | Reset | Fluctuation | Adjusting | AgentObstacleInteractions | Orientation | InsideDomain => True
  end.
