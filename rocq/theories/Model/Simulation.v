(** * simulation/logic.py: the nodes on the state of a simulation, and the logic trees
      of examples/{simulations,collective_motion,validation}.py

    Simplifications.  The state holds finite rows only: when a division gives NaN or an
    infinity in a row, the model stops with the marker [not_finite], which is not a
    Python exception (the real run goes on with NaN in that row).  The array after an
    exception is the one before the node that raised it. *)
From Coq Require String.
Import String.StringSyntax.
Delimit Scope string_scope with string.
From Verif Require Export Model.LogicExpr Model.Interactions Model.Integrator Model.Evacuation Model.Collective Model.Steering.
Open Scope R_scope.

(** What the nodes read but no node changes, and the results of external code:
    [e_nav step radius strength t] is [field.navigation_to_target], [e_enum] the pairs
    of the cell lists, [e_argsort] is [np.argsort], [e_inside] is
    [Path.contains_points] for the domain, [e_draws k i] the random draws of the
    [k]-th update of Fluctuation for row [i]: angle and the two truncated normals. *)
Record env : Type := Env {
  e_kind : kind;
  e_obstacles : list obstacle;
  e_targets : list (list vec);
  e_nav : R -> R -> R -> Z -> res (mesh * grid (option vec));
  e_enum : list vec -> R -> list (nat * nat);
  e_argsort : list R -> list nat;
  e_inside : vec -> bool;
  e_draws : nat -> nat -> R * R * R }.

(** [simulation.agents.array], [data['dt']], [data['time_tot']], [data['inactive']],
    and the number of updates of Fluctuation so far.  [data['iterations']] is kept by
    [update] of Model/LogicTree.v. *)
Record sim : Type := Sim { s_agents : list agent; s_dt : R; s_time : R; s_inactive : nat; s_draws : nat }.
Definition with_agents (s : sim) (l : list agent) : sim := Sim l (s_dt s) (s_time s) (s_inactive s) (s_draws s).

(** The node classes with their traits. *)
Inductive node : Type :=
| Reset
| Integrator (dt_min dt_max : R)
| Fluctuation
| Adjusting
| AgentAgentInteractions (traits : aa_node)
| AgentObstacleInteractions
| Navigation (step radius strength : R)
| LeaderFollower (sight : R)
| LeaderFollowerWithHerding (sight_follower : R) (size_nearest_other : nat)
| ExitDetection (detection_range : R)
| Orientation
| InsideDomain.
(** base.py:15-17: the name is that of the class. *)
Local Open Scope string_scope.
Definition class_name (n : node) : String.string :=
  match n with
  | Reset => "Reset" | Integrator _ _ => "Integrator" | Fluctuation => "Fluctuation" | Adjusting => "Adjusting"
  | AgentAgentInteractions _ => "AgentAgentInteractions" | AgentObstacleInteractions => "AgentObstacleInteractions"
  | Navigation _ _ _ => "Navigation" | LeaderFollower _ => "LeaderFollower"
  | LeaderFollowerWithHerding _ _ => "LeaderFollowerWithHerding" | ExitDetection _ => "ExitDetection"
  | Orientation => "Orientation" | InsideDomain => "InsideDomain"
  end.

Local Close Scope string_scope.
Definition not_finite : exn := OtherError 0.
Fixpoint all_finite (rows : list (option agent)) : res (list agent) :=
  match rows with
  | [] => Ok []
  | None :: _ => Err not_finite
  | Some a :: rows' => do l <- all_finite rows'; Ok (a :: l)
  end.
(** The array after a numba loop over its rows, if it did not raise. *)
Definition looped (r : option exn * list agent) : res (list agent) :=
  match r with (None, l) => Ok l | (Some e, _) => Err e end.

(** logic.py:59-64 [Reset.update]. *)
Definition reset_row (k : kind) (a : agent) : agent :=
  let a := set_force vzero a in
  if is_model k ThreeCircle then set_torque 0 a else a.
(** logic.py:78-86 [Fluctuation.update]; [i] is the index of the first row. *)
Fixpoint fluctuate (k : kind) (draws : nat -> R * R * R) (i : nat) (agents : list agent) : list agent :=
  match agents with
  | [] => []
  | a :: rest => let '(phi, z, zt) := draws i in fluctuate_row k a phi z zt :: fluctuate k draws (S i) rest
  end.
(** logic.py:89-94 [Adjusting.update]. *)
Definition adjust (k : kind) (agents : list agent) : res (list agent) :=
  do l <- looped (force_adjust_agents agents);
  if is_model k ThreeCircle then looped (torque_adjust_agents l) else Ok l.
(** logic.py:351-357 [InsideDomain.update]: [change = agents['active'] ^ new_state]. *)
Definition inside_domain (inside : vec -> bool) (agents : list agent) : list agent * nat :=
  (map (fun a => set_active (inside (a_position a)) a) agents,
   length (filter (fun a => xorb (a_active a) (inside (a_position a))) agents)).

(** [update] of the node classes: logic.py:59-64, 71-75, 79-86, 90-94, 118-119,
    123-130, 149-165, 175-182, 210-221, 243-255, 259-261, 351-357. *)
Definition run_node (e : env) (n : node) (s : sim) : res sim :=
  let k := e_kind e in
  let agents := s_agents s in
  match n with
  | Reset => Ok (with_agents s (map (reset_row k) agents))
  | Integrator dt_min dt_max =>
      do r <- velocity_verlet_integrator k agents dt_min dt_max;
      do l <- all_finite (snd r);
      Ok (Sim l (fst r) (s_time s + fst r) (s_inactive s) (s_draws s))
  | Fluctuation => Ok (Sim (fluctuate k (e_draws e (s_draws s)) 0 agents) (s_dt s) (s_time s) (s_inactive s) (S (s_draws s)))
  | Adjusting => do l <- adjust k agents; Ok (with_agents s l)
  | AgentAgentInteractions t => do l <- aa_node_update (e_enum e) t k agents; Ok (with_agents s l)
  | AgentObstacleInteractions => Ok (with_agents s (agent_obstacle k agents (e_obstacles e)))
  | Navigation step radius strength =>
      do r <- navigation_node (e_nav e step radius strength) (length (e_targets e)) agents;
      do l <- all_finite r;
      Ok (with_agents s l)
  | LeaderFollower sight => do l <- leader_follower_node (e_argsort e) (e_obstacles e) sight agents; Ok (with_agents s l)
  | LeaderFollowerWithHerding sight size =>
      do l <- leader_follower_with_herding_node (e_argsort e) (e_enum e) (e_obstacles e) sight size agents; Ok (with_agents s l)
  | ExitDetection range => do l <- exit_detection_node (e_targets e) (e_obstacles e) range agents; Ok (with_agents s l)
  | Orientation => Ok (with_agents s (orientation_node k agents))
  | InsideDomain =>
      let '(l, change) := inside_domain (e_inside e) agents in
      Ok (Sim l (s_dt s) (s_time s) (s_inactive s + change) (s_draws s))
  end.

(** The effect of node number [i] of a simulation whose nodes are [ns]. *)
Definition node_effect (e : env) (ns : list node) (i : nat) (s : sim) : sim * option exn :=
  match nth_error ns i with
  | None => (s, Some IndexError)
  | Some n => match run_node e n s with Ok s' => (s', None) | Err x => (s, Some x) end
  end.
(** [self.logic] of a simulation whose logic is the expression [x]: the nodes, the
    tree and the node the expression evaluates to. *)
Definition logic_of (x : expr node) : res (nat * tree_state * list node) := construct class_name x no_nodes [].
(** multiagent.py:51-55 for such a simulation; the state is paired with
    [data['iterations']]. *)
Definition simulation_update (e : env) (x : expr node) (s : sim * nat) : (sim * nat) * option exn :=
  match logic_of x with
  | Ok (r, f, ns) => update (node_effect e ns) f r s
  | Err ex => (s, Some ex)
  end.
(** multiagent.py:44-48: a new simulation (and [data['inactive'] = 0] of logic.py:347). *)
Definition new_simulation (agents : list agent) : sim * nat := (Sim agents 0 0 0 0, 0%nat).

(** ** The logic of the shipped simulations, with the default traits *)
Definition leaf (n : node) : expr node := Make n [].
Definition integrator : node := Integrator (1/100) (1/100).
Definition agent_agent_node : expr node := leaf (AgentAgentInteractions aa_node_default).
Definition navigation : node := Navigation (1/10) (1/2) (3/10).
Definition herding : expr node := leaf (LeaderFollowerWithHerding 10 5).
(** simulations.py:49-53, validation.py:93-98 *)
Definition logic_outdoor : expr node :=
  Make Reset [[Make integrator [[leaf Fluctuation; Make Adjusting [[leaf Orientation]]; agent_agent_node]]]].
(** simulations.py:125-136, 203-214, 272-281 *)
Definition logic_hallway : expr node :=
  Make Reset [[leaf InsideDomain];
    [Make integrator [[leaf Fluctuation; Make Adjusting [[leaf navigation; leaf Orientation]]; agent_agent_node; leaf AgentObstacleInteractions]]]].
(** collective_motion.py:67-73 *)
Definition logic_outdoor_herding : expr node :=
  Make Reset [[Make integrator [[leaf Fluctuation; Make Adjusting [[herding; leaf Orientation]]; agent_agent_node]]]].
(** collective_motion.py:146-154 *)
Definition logic_rounding : expr node :=
  Make Reset [[leaf InsideDomain];
    [Make integrator [[leaf Fluctuation; Make Adjusting [[Make navigation [[herding]]; leaf Orientation]]; agent_agent_node; leaf AgentObstacleInteractions]]]].
(** collective_motion.py:231-240; [range] is the given detection range *)
Definition logic_avoid_obstacle (range : R) : expr node :=
  Make Reset [[leaf InsideDomain];
    [Make integrator [[leaf Fluctuation; Make Adjusting [[Make navigation [[leaf (ExitDetection range)]; [herding]]; leaf Orientation]]; agent_agent_node; leaf AgentObstacleInteractions]]]].
(** collective_motion.py:311-318, 363-370 *)
Definition logic_closed_room : expr node :=
  Make Reset [[Make integrator [[leaf Fluctuation; Make Adjusting [[herding; leaf Orientation]]; agent_agent_node; leaf AgentObstacleInteractions]]]].
(** collective_motion.py:427-435, 502-510 *)
Definition logic_four_exits : expr node :=
  Make Reset [[leaf InsideDomain];
    [Make integrator [[leaf Fluctuation; Make Adjusting [[Make navigation [[leaf (ExitDetection 20)]; [leaf (LeaderFollower 20)]]; leaf Orientation]]; agent_agent_node; leaf AgentObstacleInteractions]]]].
(** validation.py:43-44: [<<] associates to the left, so all three are children of Reset. *)
Definition logic_test_movement : expr node :=
  Make Reset [[leaf integrator]; [leaf Adjusting]; [leaf Orientation]].
Definition shipped_logics (range : R) : list (expr node) :=
  [logic_outdoor; logic_hallway; logic_outdoor_herding; logic_rounding; logic_avoid_obstacle range; logic_closed_room; logic_four_exits; logic_test_movement].
