(** * The simulation classes of examples/{simulations,collective_motion,validation}.py with
      the parts they bring along, and simulations that lack a part

    multiagent.py:32-43: the traits [logic] and [agents] may be None. *)
From Verif Require Export Model.Simulation Model.ExampleSims Model.Validation.
Open Scope R_scope.

(** The classes with their own traits that matter here; [agent_type] is a parameter below. *)
Inductive example : Type :=
(** simulations.py *)
| Outdoor (size : Z) | Hallway (size : Z) | RoomWithOneExit (size : Z) | FourExits (size : Z)
(** collective_motion.py *)
| OutdoorHerding (leaders herding : Z) (width height horizontal vertical : R)
| Rounding (leaders herding : Z)
| AvoidObstacle (leaders herding : Z) (width ratio_obs : R)
| ClosedRoom (leaders herding : Z)
| AroundCircle
| AvoidPillar
| FourExitsHerding (leaders herding : Z)
| FourExitsFixed (leaders herding : Z)
(** validation.py *)
| TestMovement
| TestAgentInteraction.

(** The traits of the nodes: logic.py:68-69, 98-112, 136-147, 169-173, 186-196, 239-241.
    Constructing a node with a value out of range raises TraitError. *)
Definition node_valid (n : node) : bool :=
  match n with
  | Integrator dt_min dt_max => Rleb 0 dt_min && Rleb 0 dt_max
  | AgentAgentInteractions t =>
      Rleb 0 (nd_sight_soc t) && Rleb 0 (nd_max_agent_radius t) && Rleb 0 (nd_f_soc_max t)
      && match nd_cell_size t with Some c => Rleb 0 c | None => true end
  | Navigation step radius strength => Rleb 0 step && Rleb 0 radius && Rleb 0 strength && Rleb strength 1
  | LeaderFollower sight => Rleb 0 sight
  | LeaderFollowerWithHerding sight _ => Rleb 0 sight
  | ExitDetection range => Rleb 1 range
  | Reset | Fluctuation | Adjusting | AgentObstacleInteractions | Orientation | InsideDomain => true
  end.
Fixpoint all_valid (x : expr node) : bool :=
  match x with Make n operands => node_valid n && forallb (forallb all_valid) operands end.
Definition checked (x : expr node) : res (option (expr node)) := if all_valid x then Ok (Some x) else Err TraitError.

(** [_default_logic]: simulations.py:48-53, 124-136, 202-214, 271-281;
    collective_motion.py:66-73, 145-154, 230-240, 310-318, 361-370, 383-384 (none), 426-435,
    501-510; validation.py:41-44, 91-99. *)
Definition example_logic (x : example) : res (option (expr node)) :=
  match x with
  | Outdoor _ => checked logic_outdoor
  | Hallway _ | RoomWithOneExit _ | FourExits _ => checked logic_hallway
  | OutdoorHerding _ _ _ _ _ _ => checked logic_outdoor_herding
  | Rounding _ _ => checked logic_rounding
  | AvoidObstacle _ _ width ratio => checked (logic_avoid_obstacle ((1 - ratio) * width))
  | ClosedRoom _ _ | AroundCircle => checked logic_closed_room
  | AvoidPillar => Ok None
  | FourExitsHerding _ _ | FourExitsFixed _ _ => checked logic_four_exits
  | TestMovement => checked logic_test_movement
  | TestAgentInteraction => checked logic_outdoor
  end.

(** [_default_agents], or the observer of [agent_type] in validation.py:50-63 and 105-126:
    [None] stands for None. collective_motion.py:378-380 returns nothing; lines 383-384 are
    an empty class. [k] is the [agent_type]; it is None by default in validation.py and
    Circular elsewhere, where None is refused. *)
Section Parts.
  Variables (rolled : nat -> nat -> rolls) (bodies : nat -> nat -> nat -> R) (targets : Z)
            (spawn : nat -> nat -> nat -> option vec) (walls : list obstacle).
  Definition example_agents (k : option kind) (x : example) : option (res agents_obj) :=
    match k with
    | None => match x with TestMovement | TestAgentInteraction | AroundCircle | AvoidPillar => None | _ => Some (Err TraitError) end
    | Some k =>
        match x with
        | Outdoor n => Some (outdoor_crowd k rolled bodies spawn n)
        | Hallway n => Some (hallway_crowd k bodies spawn n)
        | RoomWithOneExit n => Some (room_crowd k bodies spawn n)
        | FourExits n => Some (four_exits_crowd k rolled bodies targets spawn walls n)
        | OutdoorHerding nl nh w h x y => Some (outdoor_herding_crowd k rolled bodies spawn nl nh w h x y)
        | Rounding nl nh => Some (rounding_crowd k rolled bodies targets spawn walls nl nh)
        | AvoidObstacle nl nh _ _ => Some (avoid_crowd k rolled bodies targets spawn walls nl nh)
        | ClosedRoom nl nh => Some (closed_crowd k rolled bodies spawn nl nh)
        | AroundCircle | AvoidPillar => None
        | FourExitsHerding nl nh => Some (four_herding_crowd k rolled bodies targets spawn walls nl nh)
        | FourExitsFixed nl nh => Some (four_fixed_crowd k rolled bodies targets spawn walls nl nh)
        | TestMovement => Some (test_movement_crowd (bodies 0%nat 0%nat) k)
        | TestAgentInteraction => Some (test_interaction_crowd (bodies 0%nat 0%nat) k)
        end
    end.
End Parts.

(** multiagent.py:50-55 [update] when a part may be missing. The logic is made when it is
    first read, so an exception of making it is raised by [update]. Without logic,
    [self.logic.root] raises AttributeError. Without agents, so does every node: the first statement of
    [update] of each class of [node] reads [self.simulation.agents.array] (logic.py:60, 72,
    80, 91, 118, 124, 150, 176, 211, 244, 260, 352). *)
Definition parts_update (e : env) (logic : res (option (expr node))) (has_agents : bool) (s : sim * nat) : (sim * nat) * option exn :=
  match logic with
  | Err ex => (s, Some ex)
  | Ok None => (s, Some AttributeError)
  | Ok (Some x) =>
      if has_agents then simulation_update e x s
      else match logic_of x with
           | Ok (r, f, _) => update (fun _ s => (s, Some AttributeError)) f r s
           | Err ex => (s, Some ex)
           end
  end.
(** A simulation of the class [x] whose agents are [agents], and what it starts with. *)
Definition example_update (e : env) (x : example) (agents : option agents_obj) : sim * nat -> (sim * nat) * option exn :=
  parts_update e (example_logic x) (match agents with Some _ => true | None => false end).
Definition example_start (agents : option agents_obj) : sim * nat :=
  new_simulation (match agents with Some st => ag_array st | None => [] end).
